(* C49: an example execution, and what goes wrong outside of the conditions of C49_triggers *)
From Coq Require Import Strings.Ascii Strings.String.
From Verif Require Import Base VariantModel RFilterModel RuntimeModel RConfigModel EventModel EventSpec EventProps.
Open Scope N_scope.

(* memory with strings at the given addresses *)
Definition put (l : list (N * bytes)) : memory :=
  fun p => fold_right (fun x r => if (fst x <=? p) && (p <? fst x + N.of_nat (length (snd x))) then nth (N.to_nat (p - fst x)) (snd x) 0 else r) 0 l.
Definition m0 : memory := put [(100, bs "main"); (200, bs "work"); (300, bs "noise"); (1100, bs "main"); (1200, bs "work"); (1300, bs "noise")].
Definition str (m : memory) (p : N) (s : bytes) : cvar := make_from_string m p (N.of_nat (length s)).
Definition region_at : eattr := mkea 20 (bs "region") T_STRING 256 false.
Definition loop_at : eattr := mkea 21 (bs "iteration") T_INT 1 false.
Definition hidden_at : eattr := mkea 22 (bs "internal") T_STRING 64 false.
Definition no_rx (_ _ : bytes) : bool := false.
(* branches: main; regions: all but noise *)
Definition cfg0 : ecfg := mkec [] true 0 (fst (from_config (fun _ => true) [] (bs "noise"))) (fst (from_config (fun _ => true) (bs "main") [])).
Definition b_main := str m0 100 (bs "main").   Definition e_main := str m0 1100 (bs "main").
Definition b_work := str m0 200 (bs "work").   Definition e_work := str m0 1200 (bs "work").
Definition b_noise := str m0 300 (bs "noise"). Definition e_noise := str m0 1300 (bs "noise").
Definition work := IRegion 0 region_at b_work m0 [] e_work m0.
Definition items0 : list item :=
  [ work;
    IRegion 0 region_at b_main m0
      [ IRegion 0 region_at b_noise m0 [ISet 0 loop_at (make_int 3) m0; work] e_noise m0;
        IRegion 0 hidden_at b_work m0 [] e_work m0;
        IRegion 0 region_at b_main m0 [] e_main m0; work ] e_main m0;
    work ].
Definition h0 : list eev := [EvCreate loop_at; EvCreate hidden_at] ++ flat_map events items0.
Definition mk0 (id : N) : bool := (id =? 20) || (id =? 21).

(* expected snapshots: everything inside of main except noise itself; nothing outside *)
Example C49_ex : fst (erun no_rx cfg0 (es_init cfg0 [region_at]) h0) =
  [ mkpush (Some (KBegin, 20, b_main)) true false;
    mkpush (Some (KSet, 21, make_int 3)) false false;
    mkpush (Some (KBegin, 20, b_work)) true false; mkpush (Some (KEnd, 20, e_work)) true true;
    mkpush (Some (KBegin, 20, b_main)) true false; mkpush (Some (KEnd, 20, e_main)) true true;
    mkpush (Some (KBegin, 20, b_work)) true false; mkpush (Some (KEnd, 20, e_work)) true true;
    mkpush (Some (KEnd, 20, e_main)) true true ] /\
  flat_map (expected no_rx cfg0 mk0 false) items0 = fst (erun no_rx cfg0 (es_init cfg0 [region_at]) h0) /\
  all_proper no_rx cfg0 mk0 [] items0 /\ region_events h0 = flat_map events items0.
Proof.
  split; [vm_compute; reflexivity|]. split; [vm_compute; reflexivity|]. split; [|reflexivity].
  unfold all_proper, items0, work. repeat constructor.
Qed.
(* the conditions on the attributes *)
Example C49_ex_defs : ids_ok [region_at] h0 /\ defs_first h0 /\
  (forall a, mentioned [region_at] h0 a -> mk0 (ea_id a) = true <-> triggers cfg0 [region_at] h0 a).
Proof.
  assert (ME : forall a, mentioned [region_at] h0 a -> a = region_at \/ a = loop_at \/ a = hidden_at).
  { intros a [[H|[]]|(e & H & U)]; [auto|]. unfold h0, items0, work in H. cbn in H.
    repeat (destruct H as [<-|H]; [cbn in U; destruct U as [U|U]; try discriminate; injection U as <-; auto|]). destruct H. }
  split; [|split].
  - intros a b Ha Hb. destruct (ME a Ha) as [->|[->| ->]], (ME b Hb) as [->|[->| ->]]; cbn; intro; try reflexivity; discriminate.
  - intros h1 e h2 a d b E U D B. exfalso.
    assert (AL : forall l1 e l2, h0 = l1 ++ e :: l2 -> use_of e <> None -> Forall (fun x => def_of x = None) l2).
    { unfold h0. intros l1 x l2 E2 U2. destruct l1 as [|y l1]; [injection E2 as <- _; cbn in U2; congruence|].
      destruct l1 as [|z l1]; [injection E2 as _ <- _; cbn in U2; congruence|].
      cbn [app] in E2. injection E2 as _ _ E2. assert (F : Forall (fun x => def_of x = None) (flat_map events items0)) by (apply Forall_forall; intros yy Hy; assert (Q : forallb (fun x => match def_of x with None => true | Some _ => false end) (flat_map events items0) = true) by (vm_compute; reflexivity); rewrite forallb_forall in Q; specialize (Q yy Hy); destruct (def_of yy); [discriminate|reflexivity]).
      assert (F2 : Forall (fun x => def_of x = None) (l1 ++ x :: l2)) by (rewrite <- E2; exact F). apply Forall_app in F2. destruct F2 as (_ & F2). inversion F2; assumption. }
    specialize (AL h1 e h2 E ltac:(rewrite U; discriminate)). rewrite Forall_forall in AL. rewrite (AL d D) in B. discriminate.
  - intros a Ha. destruct (ME a Ha) as [->|[->| ->]]; cbn [mk0 ea_id region_at loop_at hidden_at]; unfold triggers, eligible; cbn -[In N.modulo N.div].
    + split; [|reflexivity]. intros _. split; [|left; split; [left; left; reflexivity|reflexivity]].
      split; [vm_compute; discriminate|]. split; [reflexivity|]. split; [left; reflexivity|vm_compute; discriminate].
    + split; [|reflexivity]. intros _. split; [|left; split; [right; left; reflexivity|reflexivity]].
      split; [vm_compute; discriminate|]. split; [reflexivity|]. split; [left; reflexivity|vm_compute; discriminate].
    + split; [vm_compute; discriminate|]. intros ((_ & X & _) & _). vm_compute in X. discriminate.
Qed.

Notation run0 := (fun h => fst (erun no_rx cfg0 (es_init cfg0 [region_at]) h)).
(* A set event that passes the branch filter opens a branch that is never closed: after the
   attribute is set to something else, unrelated regions still trigger. *)
Theorem C49_set_refuted :
  run0 [EvSet 0 region_at b_main m0; EvSet 0 region_at b_work m0; EvBegin 0 region_at b_work m0; EvEnd 0 region_at e_work m0] <>
  run0 [EvSet 0 region_at b_main m0; EvSet 0 region_at b_work m0] /\
  run0 [EvSet 0 region_at b_work m0; EvBegin 0 region_at b_work m0; EvEnd 0 region_at e_work m0] = [].
Proof. split; [vm_compute; discriminate|vm_compute; reflexivity]. Qed.
(* Regions that pass the filter and overlap instead of being nested leave the branch open. *)
Definition cfg1 : ecfg := mkec [] true 0 (mkRF None None) (fst (from_config (fun _ => true) (bs "main,noise") [])).
Theorem C49_overlap_refuted :
  es_stack (snd (erun no_rx cfg1 (es_init cfg1 [region_at])
    [EvBegin 0 region_at b_main m0; EvBegin 0 region_at b_noise m0; EvEnd 0 region_at e_main m0; EvEnd 0 region_at e_noise m0])) = [b_main].
Proof. vm_compute. reflexivity. Qed.
(* The branch of one thread opens the filter for the others. *)
Theorem C49_threads_refuted :
  run0 [EvBegin 1 region_at b_main m0; EvBegin 2 region_at b_work m0; EvEnd 2 region_at e_work m0; EvEnd 1 region_at e_main m0] =
  run0 [EvBegin 1 region_at b_main m0; EvEnd 1 region_at e_main m0] -> False.
Proof. vm_compute. discriminate. Qed.
(* The filter keeps a pointer to the caller's string.  If the program reuses the buffer before the
   region ends, the branch is not closed: work triggers although main has ended. *)
Definition m1 : memory := put [(100, bs "work"); (1100, bs "main"); (200, bs "work"); (1200, bs "work")].
Theorem C49_string_reuse_refuted : exists m m' vb ve wb we,
  var_data m vb = bs "main" /\ var_data m' ve = bs "main" /\ var_data m' wb = bs "work" /\ var_data m' we = bs "work" /\
  run0 [EvBegin 0 region_at vb m; EvEnd 0 region_at ve m] = [mkpush (Some (KBegin, 20, vb)) true false; mkpush (Some (KEnd, 20, ve)) true true] /\
  run0 [EvBegin 0 region_at vb m; EvEnd 0 region_at ve m; EvBegin 0 region_at wb m; EvEnd 0 region_at we m] = run0 [EvBegin 0 region_at vb m; EvEnd 0 region_at ve m] /\
  run0 [EvBegin 0 region_at vb m; EvEnd 0 region_at ve m'; EvBegin 0 region_at wb m'; EvEnd 0 region_at we m'] =
    [mkpush (Some (KBegin, 20, vb)) true false; mkpush (Some (KEnd, 20, ve)) true true;
     mkpush (Some (KBegin, 20, wb)) true false; mkpush (Some (KEnd, 20, we)) true true].
Proof.
  exists m0, m1, b_main, e_main, b_work, e_work. repeat (split; [vm_compute; reflexivity|]). vm_compute. reflexivity.
Qed.

(* a snapshot record: region main is open, and the process-wide attribute 30 *)
Example C49_record_ex : forall eqb, (forall a b : @sentry N, eqb a b = true <-> a = b) ->
  push_record eqb true KEnd 20 false 7 1 (Some [(AUser 20, 7)]) [SRef [(AUser 20, 7)]; SImm (AUser 30) 5] =
  [SImm (AUser 30) 5; SRef [(AUser 20, 7); (AEvent KEnd 20, 7)]; SImm ACount 1].
Proof.
  intros eqb EQ. unfold push_record. cbn [sappend app firstn SNAP_MAX Nat.sub length]. cbn [sremove].
  rewrite (proj2 (EQ _ _) eq_refl). reflexivity.
Qed.
