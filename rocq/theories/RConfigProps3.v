(* C40: the builtin profiles, examples and limits *)
From Coq Require Import Strings.Ascii Strings.String.
From Verif Require Import Base TextModel ParseModel RConfigModel RConfigSpec RConfigProofs RConfigProps RConfigProps2.
Open Scope N_scope.

Definition ex_env (l : list (bytes * bytes)) (x : bytes) : option bytes := lookup l x.
Definition ex_file : bytes := bs "CALI_LOG_VERBOSITY=1
# a comment
# [mine]
CALI_TIMER_UNIT=""sec onds"" # ignored
CALI_LOG_VERBOSITY=2
CALI_LOG_VERBOSITY=3
# [other]
CALI_LOG_LOGFILE=x".
Definition ex_world : world := mkW (ex_env [(bs "CALI_LOG_LOGFILE", bs "env.txt"); (bs "CALI_CONFIG_PROFILE", bs "runtime-report,mine")]) (fun n => if beq n (bs "caliper.config") then Some ex_file else None).
Definition ex_hist : list cop := [OPreset (bs "CALI_LOG_VERBOSITY") (bs "9"); OSet (bs "CALI_LOG_LOGFILE") (bs "set.txt")].
(* a history in which all sources play a role *)
Example C40_ex :
  let d := snd (init_configset builtin_profiles ex_world (bs "log") [(bs "logfile", bs "stderr"); (bs "verbosity", bs "0"); (bs "prefix", bs "p")] (crun builtin_profiles ex_hist)) in
  let t := snd (init_configset builtin_profiles ex_world (bs "timer") [(bs "unit", bs "usec"); (bs "snapshot_duration", bs "?")] (crun builtin_profiles ex_hist)) in
  dget d (bs "logfile") = bs "set.txt" /\ dget d (bs "verbosity") = bs "3" /\ dget d (bs "prefix") = bs "p" /\ dget t (bs "unit") = bs "sec onds" /\ dget t (bs "snapshot_duration") = bs "true".
Proof. vm_compute. auto. Qed.
Example C40_ex_hyps : ~ initialised ex_hist (bs "log") /\ bs "log" <> bs "config" /\ unrelated [var (bs "log") (bs "verbosity"); v_file; v_profile] (OSet (bs "CALI_LOG_LOGFILE") (bs "set.txt")).
Proof. split; [intros (w & l & [H|[H|[]]]); discriminate H|]. split; [discriminate|]. cbn [unrelated]. intros [H|[H|[H|[]]]]; vm_compute in H; discriminate H. Qed.
Definition ex_lines : list bytes := [bs "CALI_A=1"; bs "# note"; bs "# [p]"; bs "CALI_A= 2"; bs "junk"].
Example C40_file_ex : Forall (fun l => ~ In 10 l) ex_lines /\ Forall2 item_of ex_lines [CSet (bs "CALI_A") (bs "1"); CSkip; CHead (bs "p"); CSet (bs "CALI_A") (bs "2"); CSkip] /\
  table_of (read_profiles (flat_map (fun l => l ++ [10]) ex_lines) []) (bs "p") (bs "CALI_A") = Some (bs "2") /\ table_of (read_profiles (flat_map (fun l => l ++ [10]) ex_lines) []) (bs "default") (bs "CALI_A") = Some (bs "1").
Proof.
  assert (Na : forall l, existsb (N.eqb 61) l = false -> ~ exists k w, assigns l k w).
  { intros l H (k & w & t & -> & _). rewrite existsb_app in H. cbn in H. rewrite orb_true_r in H. discriminate H. }
  split; [|split; [|split; vm_compute; reflexivity]].
  - unfold ex_lines. repeat (apply Forall_cons; [vm_compute; intuition discriminate|]). constructor.
  - unfold ex_lines. constructor; [|constructor; [|constructor; [|constructor; [|constructor; [|constructor]]]]].
    + split; [vm_compute; discriminate|]. exists (bs "1"). split; [reflexivity|]. split; [discriminate|]. split; [vm_compute; intuition discriminate|reflexivity].
    + left. split; [reflexivity|]. intros (n & a & b & E & _). assert (X : In 91 (bs "# note")) by (rewrite E; right; apply in_app_iff; right; left; reflexivity). vm_compute in X. intuition discriminate.
    + split; [|apply Na; reflexivity]. exists (bs " "), []. split; [reflexivity|]. split; [vm_compute; intuition discriminate|]. split; [vm_compute; intuition discriminate|]. split; [discriminate|vm_compute; intuition discriminate].
    + split; [vm_compute; discriminate|]. exists (bs " 2"). split; [reflexivity|]. split; [discriminate|]. split; [vm_compute; intuition discriminate|reflexivity].
    + right. split; [vm_compute; discriminate|apply Na; reflexivity].
Qed.
(* a variable set in a profile section of the user's file does not take effect if a builtin profile of this name
   sets it and the section is not the last one of the file *)
Theorem C40_override_refuted : exists w h lines,
  w_file w (bs "caliper.config") = Some (flat_map (fun l => l ++ [10]) lines) /\ lines = [bs "# [runtime-report]"; bs "CALI_TIMER_UNIT=usec"; bs "# [other]"; bs "CALI_LOG_VERBOSITY=1"] /\
  h = [OSet (bs "CALI_CONFIG_PROFILE") (bs "runtime-report")] /\ (forall x, w_env w x = None) /\
  dget (snd (init_configset builtin_profiles w (bs "timer") [(bs "unit", bs "usec")] (crun builtin_profiles h))) (bs "unit") = bs "sec".
Proof.
  exists (mkW (fun _ => None) (fun n => if beq n (bs "caliper.config") then Some (flat_map (fun l => l ++ [10]) [bs "# [runtime-report]"; bs "CALI_TIMER_UNIT=usec"; bs "# [other]"; bs "CALI_LOG_VERBOSITY=1"]) else None)).
  eexists _, _. split; [|split; [reflexivity|split; [reflexivity|split; [reflexivity|vm_compute; reflexivity]]]]. vm_compute. reflexivity.
Qed.
(* as the last section it replaces the whole builtin profile, so that the other variables of the profile are gone *)
Theorem C40_replace_refuted : exists w h lines,
  w_file w (bs "caliper.config") = Some (flat_map (fun l => l ++ [10]) lines) /\ lines = [bs "# [runtime-report]"; bs "CALI_LOG_VERBOSITY=1"] /\
  h = [OSet (bs "CALI_CONFIG_PROFILE") (bs "runtime-report")] /\ (forall x, w_env w x = None) /\
  dget (snd (init_configset builtin_profiles w (bs "timer") [(bs "unit", bs "usec")] (crun builtin_profiles h))) (bs "unit") = bs "usec".
Proof.
  exists (mkW (fun _ => None) (fun n => if beq n (bs "caliper.config") then Some (flat_map (fun l => l ++ [10]) [bs "# [runtime-report]"; bs "CALI_LOG_VERBOSITY=1"]) else None)).
  eexists _, _. split; [|split; [reflexivity|split; [reflexivity|split; [reflexivity|vm_compute; reflexivity]]]]. vm_compute. reflexivity.
Qed.
(* a value set after its set was initialised has no effect (C40_stable); a preset value is replaced by the default profile *)
Example C40_preset_ex : dget (snd (init_configset builtin_profiles ex_world (bs "log") [(bs "verbosity", bs "0")] (crun builtin_profiles [OSet (bs "CALI_CONFIG_PROFILE") []; OPreset (bs "CALI_LOG_VERBOSITY") (bs "9")]))) (bs "verbosity") = bs "1".
Proof. vm_compute. reflexivity. Qed.
