(* C37, C38: examples and limits of the runtime aggregation database *)
From Verif Require Import Base VariantModel VariantSpec ArithModel ArithSpec ArithProofs ArithProps CsrProofs RtAggModel RtAggSpec RtAggProofs RtAggProofs2 RtAggProofs3 RtAggProofs4 RtAggProps RtAggProps2.
Open Scope nat_scope.

Definition m0 : memory := fun _ => 0%N.
(* key attribute 20, metric 30 with result attributes 31..34, count 40, slot 41 *)
Definition xinfo : ainfo := mkinfo [20%N] [30%N] [(31, 32, 33, 34)%N] 40%N 41%N.
Definition xrec (node : N) (k : Z) (v : N) : list rent := [RRef node; RImm 20 (make_int k); RImm 30 (make_uint v)].
Definition xh : list snap :=
  [mksnap (xrec 100 1 5) xinfo true; mksnap (xrec 101 1 9) xinfo true; mksnap (xrec 100 1 7) xinfo false; mksnap [RRef 100; RImm 30 (make_uint 2)] xinfo true].
(* two records of key (100, 20=1), one of (101, 20=1), one of (100) *)
Definition xout : list (list rent) :=
  [[RRef 100; RImm 20 (make_int 1); RImm 31 (make_uint 5); RImm 32 (make_uint 7); RImm 33 (make_uint 12); RImm 34 (make_uint 6); RImm 40 (make_uint 2); RImm 41 (make_uint 0)];
   [RRef 101; RImm 20 (make_int 1); RImm 31 (make_uint 9); RImm 32 (make_uint 9); RImm 33 (make_uint 9); RImm 34 (make_uint 9); RImm 40 (make_uint 1); RImm 41 (make_uint 1)];
   [RRef 100; RImm 31 (make_uint 2); RImm 32 (make_uint 2); RImm 33 (make_uint 2); RImm 34 (make_uint 2); RImm 40 (make_uint 1); RImm 41 (make_uint 2)]].
Lemma xh_growing : growing xh.
Proof.
  assert (P : forall s t, s_info s = xinfo -> s_info t = xinfo -> prefix (i_aggr (s_info s)) (i_aggr (s_info t))). { intros s t -> ->. exists []. reflexivity. }
  unfold xh. cbn [growing]. repeat match goal with |- _ /\ _ => split end; auto; repeat (constructor; [apply P; reflexivity|]); try constructor.
Qed.
Example C37_ex : growing xh /\ keys_fit xh /\ attrs_known xinfo xh /\ small xh /\ Forall hashable xh /\
  option_map (fun d => aflush d xinfo) (arun m0 (adb_init 99) xh) = Some (Some xout) /\
  reports (same_key m0) full_key xinfo xh (firsts (same_key m0) xh) 0%N = Some xout.
Proof.
  split; [apply xh_growing|]. split. { unfold keys_fit, xh. repeat (constructor; [vm_compute; lia|]). constructor. }
  split. { unfold attrs_known, xh. repeat (constructor; [vm_compute; lia|]). constructor. }
  split; [reflexivity|]. split. { unfold xh. repeat (constructor; [unfold hashable; cbn; repeat (constructor; [try exact Logic.I; try discriminate|]); constructor|]). constructor. }
  split; vm_compute; reflexivity.
Qed.
Lemma om_inv {A B} (f : A -> B) x y : option_map f x = Some y -> exists d, x = Some d /\ f d = y.
Proof. destruct x as [d|]; cbn; intro H; [exists d; split; congruence|discriminate]. Qed.
(* keys longer than 16 entries: snapshots with different keys are merged or not, depending on their hash *)
Definition long (last v : N) : snap := mksnap (map RRef (map N.of_nat (seq 100 16)) ++ [RRef last; RImm 30 (make_uint v)]) xinfo true.
Theorem C37_long_key_refuted :
  same_key m0 (long 200 5) (long 8392 7) = false /\ same_key m0 (long 200 5) (long 201 7) = false /\
  (exists d r, arun m0 (adb_init 99) [long 200 5; long 8392 7] = Some d /\ aflush d xinfo = Some [r] /\
     firstn 16 r = map RRef (map N.of_nat (seq 100 16)) /\ skipn 16 r = [RImm 31 (make_uint 5); RImm 32 (make_uint 7); RImm 33 (make_uint 12); RImm 34 (make_uint 6); RImm 40 (make_uint 2); RImm 41 (make_uint 0)]) /\
  (exists d r1 r2, arun m0 (adb_init 99) [long 200 5; long 201 7] = Some d /\ aflush d xinfo = Some [r1; r2] /\ firstn 16 r1 = firstn 16 r2).
Proof.
  split; [vm_compute; reflexivity|]. split; [vm_compute; reflexivity|]. split.
  - set (refs := map RRef (map N.of_nat (seq 100 16))). set (st := [RImm 31 (make_uint 5); RImm 32 (make_uint 7); RImm 33 (make_uint 12); RImm 34 (make_uint 6); RImm 40 (make_uint 2); RImm 41 (make_uint 0)]).
    assert (Ef : option_map (fun d => aflush d xinfo) (arun m0 (adb_init 99) [long 200 5; long 8392 7]) = Some (Some [refs ++ st])) by (vm_compute; reflexivity).
    destruct (om_inv _ _ _ Ef) as (d & E1 & E2). exists d, (refs ++ st). split; [exact E1|]. split; [exact E2|]. split; reflexivity.
  - set (refs := map RRef (map N.of_nat (seq 100 16))).
    set (r1 := refs ++ [RImm 31 (make_uint 5); RImm 32 (make_uint 5); RImm 33 (make_uint 5); RImm 34 (make_uint 5); RImm 40 (make_uint 1); RImm 41 (make_uint 0)]).
    set (r2 := refs ++ [RImm 31 (make_uint 7); RImm 32 (make_uint 7); RImm 33 (make_uint 7); RImm 34 (make_uint 7); RImm 40 (make_uint 1); RImm 41 (make_uint 1)]).
    assert (Ef : option_map (fun d => aflush d xinfo) (arun m0 (adb_init 99) [long 200 5; long 201 7]) = Some (Some [r1; r2])) by (vm_compute; reflexivity).
    destruct (om_inv _ _ _ Ef) as (d & E1 & E2). exists d, r1, r2. split; [exact E1|]. split; [exact E2|]. reflexivity.
Qed.
(* a metric attribute that appears after the first snapshot of a key is not aggregated for this key *)
Definition early : snap := mksnap [RRef 100] (mkinfo [20%N] [] [] 40%N 41%N) true.
Definition later : snap := mksnap [RRef 100; RImm 30 (make_uint 5)] xinfo true.
Theorem C37_late_metric_refuted : growing [early; later] /\
  exists d, arun m0 (adb_init 99) [early; later] = Some d /\
    aflush d xinfo = Some [[RRef 100; RImm 40 (make_uint 2); RImm 41 (make_uint 0)]] /\
    values_of 30 [early; later] = [make_uint 5].
Proof.
  split. { cbn [growing]. split; [|split; [constructor|exact Logic.I]]. constructor; [exists [30%N]; reflexivity|constructor]. }
  assert (Ef : option_map (fun d => aflush d xinfo) (arun m0 (adb_init 99) [early; later]) = Some (Some [[RRef 100; RImm 40 (make_uint 2); RImm 41 (make_uint 0)]])) by (vm_compute; reflexivity).
  destruct (om_inv _ _ _ Ef) as (d & E1 & E2). exists d. split; [exact E1|]. split; [exact E2|reflexivity].
Qed.
(* after clear, the skipped record carries the key of the first new entry instead of SKIPPED *)
Definition yinfo : ainfo := mkinfo [] (map N.of_nat (seq 5000 400)) [] 40%N 41%N.  (* 400 metric attributes *)
Definition fill : list snap := map (fun i => mksnap [RRef (N.of_nat i)] yinfo true) (seq 1000 40) ++ [mksnap [RRef 7] yinfo false].
Definition first_rec (x : option adb) : option (list rent) :=
  match x with Some d => match aflush d yinfo with Some (r :: _) => Some r | _ => None end | None => None end.
Theorem C38_skipped_after_clear_refuted :
  first_rec (arun m0 (adb_init 99) fill) = Some [RRef 99; RImm 40 (make_uint 1); RImm 41 (make_uint 0)] /\
  first_rec (match aclear (adb_init 99) with Some d => arun m0 d fill | None => None end) = Some [RRef 1000; RImm 40 (make_uint 1); RImm 41 (make_uint 0)].
Proof. split; vm_compute; reflexivity. Qed.

(* the 32-bit counter of a kernel: after 2^32 values of a metric the metric is missing from the record *)
Definition one : snap := mksnap [RRef 100; RImm 30 (make_uint 1)] xinfo true.
Lemma firsts_repeat m n : firsts (cls m) (repeat one (S n)) = [one].
Proof.
  unfold firsts. cbn [repeat firsts_aux existsb app]. f_equal. induction n; cbn [repeat firsts_aux]; [reflexivity|]. cbn [existsb]. rewrite cls_refl. cbn [orb]. exact IHn.
Qed.
Lemma filter_repeat {A} (p : A -> bool) x n : p x = true -> filter p (repeat x n) = repeat x n.
Proof. intro H. induction n; cbn; auto. rewrite H. f_equal. auto. Qed.
Lemma repeat_growing s n : growing (repeat s n).
Proof. induction n; cbn; auto. split; auto. apply Forall_forall. intros t Ht. apply repeat_spec in Ht. subst t. exists []. rewrite app_nil_r. auto. Qed.
Lemma values_one n : values_of 30 (repeat one n) = repeat (make_uint 1) n.
Proof. unfold values_of in *. induction n as [|n IH]; [reflexivity|]. cbn [repeat flat_map]. rewrite IH. reflexivity. Qed.
Lemma uint_total l : Forall (fun v => extract_type (ts v) = T_UINT) l -> forall s, minmaxsum l s <> None.
Proof.
  induction 1 as [|v l H HF IH]; intro s; cbn [minmaxsum]; [discriminate|]. unfold cv_minmaxsum. destruct (is_empty _); [apply IH|].
  rewrite H. cbn [N.eqb T_UINT T_DOUBLE T_INT Pos.eqb]. apply IH.
Qed.
Lemma subseq_repeat {A} (x : A) n : forall l, subseq l (repeat x n) -> exists k, l = repeat x k.
Proof.
  induction n as [|n IH]; cbn [repeat]; intros l H; [inversion H; subst; exists 0; auto|]. inversion H as [|y a b Hs|y a b Hs]; subst.
  - destruct (IH a Hs) as (k & ->). exists (S k). auto.
  - apply IH. auto.
Qed.
Lemma values_any n a : Forall (fun v => extract_type (ts v) = T_UINT \/ v = empty_var) (values_of a (repeat one n)).
Proof.
  unfold values_of. apply Forall_forall. intros v Hv. apply in_flat_map in Hv as (s & Hs & Hv). apply repeat_spec in Hs. subst s. apply in_map_iff in Hv as (e & <- & He).
  unfold first_imm in He. cbn [one s_rec filter r_node] in He. destruct (N.eqb 100 a); [destruct He as [<-|[]]; right; reflexivity|]. destruct (N.eqb 30 a); [|destruct He]. destruct He as [<-|[]]. left; reflexivity.
Qed.
Lemma ue_total l : Forall (fun v => extract_type (ts v) = T_UINT \/ v = empty_var) l -> forall s, minmaxsum l s <> None.
Proof.
  induction 1 as [|v l H HF IH]; intro s; cbn [minmaxsum]; [discriminate|]. unfold cv_minmaxsum. destruct (is_empty _); [apply IH|].
  destruct H as [H| ->]; [rewrite H; cbn [N.eqb T_UINT T_DOUBLE T_INT Pos.eqb]; apply IH|]. cbn [empty_var ts]. change (extract_type 0) with 0%N. cbn [N.eqb T_DOUBLE T_INT T_UINT]. apply IH.
Qed.
Theorem C37_metric_lost_refuted : exists h d, N.of_nat (length h) = 4294967296%N /\ Forall (fun s => s = one) h /\ arun m0 (adb_init 99) h = Some d /\
  aflush d xinfo = Some [[RRef 100; RImm 40 (make_uint 4294967296); RImm 41 (make_uint 0)]].
Proof.
  assert (H : forall k : nat, N.of_nat (S k) = 4294967296%N -> exists h d, N.of_nat (length h) = 4294967296%N /\ Forall (fun s => s = one) h /\ arun m0 (adb_init 99) h = Some d /\
    aflush d xinfo = Some [[RRef 100; RImm 40 (make_uint 4294967296); RImm 41 (make_uint 0)]]).
  { intros k Hk. exists (repeat one (S k)).
    destruct (C37_runs m0 99 (repeat one (S k))) as (d & Hd).
    - apply repeat_growing.
    - apply Forall_forall. intros s Hs. apply repeat_spec in Hs. subst s. unfold hashable. cbn. constructor; [exact Logic.I|constructor].
    - intros mem a Hm. apply subseq_repeat in Hm as (j & ->). apply ue_total. apply values_any.
    - exists d. split; [rewrite repeat_length; auto|]. split; [apply Forall_forall; intros s Hs; apply repeat_spec in Hs; auto|]. split; [exact Hd|].
      destruct (caps_fresh 99) as (C1 & C2 & C3). destruct (history m0 _ _ (rep_fresh 99) C1 C2 C3 _ d (repeat_growing one (S k)) Hd) as (fl & gs & L & R & HI & _ & Hdr).
      destruct (pick_all (repeat one (S k)) fl L) as (P1 & P2).
      { intros i x Hi Hfl. destruct (Hdr i x Hi Hfl) as (A & _). apply nth_error_In, repeat_spec in Hi. subst x. discriminate. }
      rewrite P1, P2 in *. cbn [length N.of_nat] in R. change (wrap64 0) with 0%N in R.
      rewrite (aflush_groups d _ _ gs xinfo R eq_refl). unfold hinv in HI. rewrite firsts_repeat in HI.
      inversion HI as [|f g fs gs' Hg Hgs]; subst. inversion Hgs; subst. destruct Hg as (G1 & _ & G3 & G4).
      rewrite filter_repeat in G3, G4 by apply cls_refl. rewrite repeat_length, Hk in G3.
      cbn [gflush]. rewrite G3. change (N.eqb (wrap64 4294967296) 0) with false. cbv iota.
      change (i_aggr (s_info one)) with [30%N] in G4. inversion G4 as [|kk a q r Hkk Hq]; subst. inversion Hq; subst.
      destruct Hkk as (_ & Hc). rewrite values_one, repeat_length, Hk in Hc. cbn [flush_kerns]. rewrite Hc. change (N.eqb (4294967296 mod 4294967296) 0) with true. cbv iota.
      rewrite G1. reflexivity. }
  apply (H (N.to_nat 4294967295)). rewrite Nat2N.inj_succ, N2Nat.id. reflexivity.
Qed.
Print Assumptions C37_metric_lost_refuted.
