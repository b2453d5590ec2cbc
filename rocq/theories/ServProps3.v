(* C80: cases and findings *)
From Coq Require Import Strings.Ascii Strings.String Sorted.
From Verif Require Import Base TextModel ParseModel ParseSpec ParseProofs ParseProps RConfigModel RConfigSpec RConfigProofs RConfigProps ServModel ServSpec ServProps ServProps2.
Open Scope N_scope.
Open Scope list_scope.

Definition timer_spec : bytes := bs "{""name"":""timer"",""description"":""Record timestamps"",""config"":[{""name"":""unit"",""type"":""string"",""value"":""sec""},{""name"":""inclusive_duration"",""value"":""false""}]}".
Definition defaults : list cservice := [mksv (Some timer_spec) (Some 1); mksv (Some (bs "event")) (Some 2); mksv (Some (bs "aggregate")) (Some 3); mksv None None; mksv (Some (bs "trace")) (Some 4)].
Definition own : list cservice := [mksv (Some (bs "event")) (Some 7); mksv None None].
Definition envw (l : list (string * string)) : world := mkW (fun x => option_map bs (option_map snd (find (fun p => beq (bs (fst p)) x) l))) (fun _ => None).
Definition run_case (hist : list (list cservice)) (env : list (string * string)) : list act * list warning :=
  let '(_, a, ws) := create_services builtin_profiles (envw env) (registry hist) 5 (crun builtin_profiles []) in (a, ws).
Lemma plain_word (s : string) : forallb (fun c => negb ((c =? 34) || (c =? 92) || (c =? 44) || (c =? 58) || isspace c)) (bs s) = true -> spells [44; 58] (bs s) (bs s).
Proof.
  induction (bs s) as [|c l IH]; [constructor|]. cbn [forallb]. intro H. apply andb_true_iff in H as (H1 & H2). apply sp_char; auto.
  apply negb_true_iff in H1. apply orb_false_iff in H1 as (H1 & H5). apply orb_false_iff in H1 as (H1 & H4). apply orb_false_iff in H1 as (H1 & H3). apply orb_false_iff in H1 as (H1 & H6). apply N.eqb_neq in H1, H3, H4, H6.
  split; auto. split; auto. intros [H|[H|[H|[]]]]; congruence.
Qed.
(* a registry with the specs of an application and a configuration from the environment, with an unknown service *)
Example C80_case : 
  list_text (bs " event : timer,,bogus") [bs "event"; bs "timer"; []; bs "bogus"] /\
  run_case [defaults] [("CALI_SERVICES_ENABLE", " event : timer,,bogus")]%string = ([Registered 2 5; Registered 1 5; NotFound (bs "bogus")], [Requires (bs "event") Trigger Process]) /\
  run_case [defaults; own] [("CALI_SERVICES_ENABLE", "aggregate,event")]%string = ([Registered 3 5; Registered 7 5], [Requires (bs "aggregate") Buffer Offline]) /\
  available (registry [defaults; own]) = map bs ["aggregate"; "event"; "timer"]%string /\
  documented (registry [defaults]) (bs "timer") = [(bs "CALI_TIMER_UNIT", bs "sec"); (bs "CALI_TIMER_INCLUSIVE_DURATION", bs "false")] /\
  spec_config timer_spec = Some (bs "timer", [(bs "unit", bs "sec"); (bs "inclusive_duration", bs "false")]) /\
  provides [defaults; own] (bs "event") (bs "event") 7.
Proof.
  split; [|split; [vm_compute; reflexivity|split; [vm_compute; reflexivity|split; [vm_compute; reflexivity|split; [vm_compute; reflexivity|split; [vm_compute; reflexivity|]]]]]].
  - apply (lt_more [32] (bs "event") [32] (bs "event") 58 (bs " timer,,bogus")); [repeat constructor|repeat constructor|apply it_word; [discriminate|apply plain_word; reflexivity]|auto|].
    apply (lt_more [32] (bs "timer") [] (bs "timer") 44 (bs ",bogus")); [repeat constructor|repeat constructor|apply it_word; [discriminate|apply plain_word; reflexivity]|auto|].
    apply (lt_more [] [] [] [] 44 (bs "bogus")); [constructor|constructor|constructor|auto|].
    change (bs "bogus") with ([] ++ bs "bogus" ++ []) at 1. apply lt_last; [constructor|constructor|apply it_word; [discriminate|apply plain_word; reflexivity]].
  - apply C80_latest. vm_compute. reflexivity.
Qed.
(* Findings.  The default specs are added again whenever a ConfigManager reads a spec (ConfigManager.cpp:944): an
   application's replacement for a built-in service is lost. *)
Theorem C80_replacement_refuted : provides [defaults; own] (bs "event") (bs "event") 7 /\ provides [defaults; own; defaults] (bs "event") (bs "event") 2.
Proof. split; apply C80_latest; vm_compute; reflexivity. Qed.
(* A service that is listed twice is registered twice. *)
Theorem C80_twice_refuted : fst (run_case [defaults] [("CALI_SERVICES_ENABLE", "event,timer,event")]%string) = [Registered 2 5; Registered 1 5; Registered 2 5].
Proof. vm_compute. reflexivity. Qed.
