(* C81: the records of a thread's profile have at most one region reference *)
From Verif Require Import Base VariantModel VariantSpec TreeModel TreeSpec TreeProofs TreeProofs2 RuntimeModel RuntimeSpec RuntimeProofs RuntimeProofs2 RuntimeProps RuntimeProps3 RuntimeProps4.
From Verif Require Import ArithModel RtAggModel RtAggSpec RtAggProofs RtAggProofs2 RtAggProofs3 RtAggProofs4 RtAggProps RFilterModel EventModel TimerModel ProfModel ProfSpec ProfProofs ProfProofs2 ProfProofs3 ProfProofs4 ProfProofs5 ProfProps.
Open Scope N_scope.

Section R.
Variable c : pcfg.
Variable m : memory.
Variable tr : tree.
Hypothesis Hkeys : i_keys (pc_info c) = [].
Notation sfor := (snap_for c tr).
Lemma imms_no_ref ids l : Forall (imm_in ids) l -> filter is_ref l = [].
Proof. induction 1 as [|e l H HF IH]; [reflexivity|]. destruct e; cbn in *; [contradiction|exact IH]. Qed.
Lemma refs_idem (l : list rent) : filter is_ref (filter is_ref l) = filter is_ref l.
Proof. induction l as [|e l IH]; [reflexivity|]. cbn. destruct (is_ref e) eqn:E; cbn; rewrite ?E, ?IH; reflexivity. Qed.
Lemma reports_refs sns l fs : forall slot recs, (forall f, In f fs -> In f sns) -> Forall2 sfor sns l ->
  reports (same_key m) full_key (pc_info c) sns fs slot = Some recs -> Forall (fun r => exists q, ctx_for tr (filter is_ref r) q) recs.
Proof.
  intros slot recs Hin HF Hr. apply reports_F2 in Hr. induction Hr as [|f r fs recs (sl & Hrep) Hr IH]; constructor.
  - destruct (F2_in_l _ _ _ _ HF (Hin f (or_introl eq_refl))) as (x & _ & Px). unfold report in Hrep. assert (Ei : s_info f = pc_info c) by apply Px. rewrite Ei in Hrep.
    destruct (stats (filter (same_key m f) sns) (i_aggr (pc_info c)) (i_res (pc_info c))) as [st|] eqn:Est; [|discriminate]. injection Hrep as <-.
    destruct (sfor_key c tr Hkeys _ _ Px) as (Ek & Ec). rewrite Ek. exists (fst (fst x)). rewrite !filter_app. unfold refs_of at 1. rewrite refs_idem. change (filter is_ref (s_rec f)) with (refs_of f).
    rewrite (imms_no_ref _ _ (stats_ids _ _ _ _ Est)). cbn [filter is_ref app]. rewrite app_nil_r. exact Ec.
  - apply IH. intros g Hg. apply Hin. right. exact Hg.
Qed.
End R.

Section T.
Variable rx : bytes -> bytes -> bool.
Variable ea : N -> eattr.
Variable cv : value -> cvar.
Variable m : memory.
Lemma profile_refs : forall c es sk t ops0 s0 xs0 h s' xs p recs,
  rt_history ops0 s0 xs0 -> Forall (fun p => plain_op (snd p)) ops0 -> profiling c s0 ->
  ops_ok s0 (prog h) -> Forall (fun x => plain_op (snd x) /\ leaves_channel (pc_chn c) (snd x)) h ->
  rt_run s0 (prog h) = Some (s', xs) -> not_full (r_tree s') -> r_err s' t = false ->
  (forall n o b, In (n, o) (timeline t h) -> op_attr o = Some b -> find_marker es (ea (at_id b)) = true) ->
  ordered 0 (timeline t h) -> N.of_nat (length (timeline t h)) < 4294967296 ->
  prun rx ea cv m c (pstart s0 es sk) h = Some p -> aflush (p_db p t) (pc_info c) = Some recs ->
  inv (r_tree s') /\ Forall (fun r => exists q, ctx_for (r_tree s') (filter is_ref r) q) recs.
Proof.
  intros c es sk t ops0 s0 xs0 h s' xs p recs Hh Hp0 Hpf Ho Hp Hr Hnf He Hmk Hord Hlen Hrunp Hflp.
  destruct (history_ok _ _ _ Hh Hp0) as (a0 & R0 & V0 & U0 & Nd0 & _). destruct Hpf as [P1 P2 P3 P4 P5 P6 P7 P8 P9].
  assert (HJ : J m c (adb_init sk) es t (pstart s0 es sk) a0 [] 0 (bb_regions (r_tree s0) (r_tbb s0 t))).
  { constructor; cbn; auto. - intro u. exists (adb_init sk), []. split; [apply fresh_init|]. split; [reflexivity|constructor]. - symmetry. apply (rel_shows _ _ t R0). - apply fresh_init. }
  destruct (main rx ea cv m c (adb_init sk) es t P2 P3 P4 P5 h (pstart s0 es sk) a0 [] 0 _ s' xs HJ Ho Hp Hr Hnf He Hmk Hord) as (p' & a' & new & prev' & q' & R1 & R2 & R3 & R4 & R5).
  assert (Ep : p' = p) by congruence. subst p'.
  cbn [app pstart p_rt] in R3, R5. set (l := stretches 0 _ _) in *.
  pose proof (j_rel _ _ _ _ _ _ _ _ _ _ R3) as Rl. pose proof (rl_inv _ _ Rl) as Hinv. rewrite R2 in Hinv. split; [exact Hinv|].
  pose proof (j_run _ _ _ _ _ _ _ _ _ _ R3) as Hrun. pose proof (j_good _ _ _ _ _ _ _ _ _ _ R3) as Hgood.
  assert (Hll : length new = length (timeline t h)) by (rewrite (F2_length _ _ _ R4); apply stretches_length).
  assert (Hfit : keys_fit new).
  { apply Forall_forall. intros sn Hs. destruct (F2_in_l _ _ _ _ R4 Hs) as (x & _ & Hx). destruct (sfor_key c (r_tree s') P5 _ _ Hx) as (-> & [(-> & _)|(i & -> & _)]); cbn; unfold MAXKEY; lia. }
  assert (Hknown : attrs_known (pc_info c) new). { eapply Forall_impl; [|exact Hgood]. intros sn (-> & _). exact P6. }
  assert (Hsm : small new) by (unfold small; rewrite Hll; auto).
  assert (Hal : Forall (fun s => s_alloc s = true) new). { eapply Forall_impl; [|exact Hgood]. intros sn (_ & Z & _). exact Z. }
  destruct (C37_no_skips m sk new (p_db p t) (pc_info c) (good_growing c new Hgood) Hfit Hknown Hsm Hal Hrun) as (_ & Hfl).
  assert (Hfl2 : reports (same_key m) full_key (pc_info c) new (firsts (same_key m) new) 0 = Some recs) by (rewrite <- Hflp; symmetry; exact Hfl).
  refine (reports_refs c m (r_tree s') P5 new l _ 0 recs _ R4 Hfl2). intros f Hf. exact (firsts_in _ _ _ Hf).
Qed.
End T.
