(* C37: processing succeeds; C38: clearing; limits *)
From Verif Require Import Base VariantModel VariantSpec ArithModel ArithSpec ArithProofs ArithProps CsrProofs RtAggModel RtAggSpec RtAggProofs RtAggProofs2 RtAggProofs3 RtAggProofs4 RtAggProps.
Open Scope nat_scope.

(* ---- processing never fails when the sums stay in range ---- *)
Lemma tail_some d k0 c0 gs i g rec attrs : Rep d k0 c0 gs -> nth_error gs i = Some g ->
  upd_l (g_ks g) rec attrs (Nat.min (length (g_ks g)) (length attrs)) <> None ->
  match nth_error (d_ents d) (S i) with
  | None => None
  | Some e =>
      let e' := mkaent (wrap64 (a_cnt e + 1)) (a_kidx e) (a_klen e) (a_nidx e) (a_nk e) (a_next e) in
      match upd_kerns (d_kerns d) (a_nidx e) rec attrs (Nat.min (a_nk e) (length attrs)) with
      | None => None
      | Some ks => Some (mkadb (set_nth (d_ents d) (S i) e') (d_keyents d) ks (d_hash d) (d_ecap d) (d_kcap d) (d_ncap d))
      end
  end <> None.
Proof.
  intros R Hi Hu. rewrite (rp_nth _ _ _ _ R i g Hi). cbn [a_cnt a_kidx a_klen a_nidx a_nk a_next]. cbv zeta.
  rewrite (rp_kerns _ _ _ _ R), (concat_map_at g_ks gs i g Hi). unfold nlen at 1.
  rewrite upd_kerns_local by lia. destruct (upd_l _ _ _ _) as [ks'|]; cbn [option_map]; congruence.
Qed.
Lemma process_some m d k0 c0 gs s : Rep d k0 c0 gs -> make_key (s_info s) (s_rec s) <> None ->
  (forall g, In g gs -> match_at m s g = true -> upd_l (g_ks g) (s_rec s) (i_aggr (s_info s)) (Nat.min (length (g_ks g)) (length (i_aggr (s_info s)))) <> None) ->
  upd_l (repeat kern0 (length (i_aggr (s_info s)))) (s_rec s) (i_aggr (s_info s)) (length (i_aggr (s_info s))) <> None ->
  process m d (s_info s) (s_alloc s) (s_rec s) <> None.
Proof.
  intros R Hk H1 H2. unfold process. destruct (make_key (s_info s) (s_rec s)) as [[key hash]|] eqn:Ek; [|congruence].
  destruct (make_key_ok s key hash Ek) as (-> & ->). unfold find_or_create. fold (bucket s). cbv zeta.
  rewrite (rp_hash _ _ _ _ R _ (bucket_lt s)).
  destruct (chain_ok m d k0 c0 gs (key16 s) (bucket s) R (length gs) (S (length (d_ents d))) ltac:(lia)) as (r & Er & Hr).
  { rewrite (rp_len _ _ _ _ R). lia. }
  rewrite firstn_all in Er. rewrite Er. destruct r as [j|].
  - destruct Hr as (i & g & -> & Li & Hg & Hb & Hkk). apply (tail_some d k0 c0 gs i g _ _ R Hg). apply H1; [eapply nth_error_In; eauto|unfold match_at; rewrite Hkk, Hb, Nat.eqb_refl; auto].
  - destruct (negb (s_alloc s) && _) eqn:Ef.
    + destruct (d_ents d) as [|e0 es] eqn:Ee; [pose proof (rp_0 _ _ _ _ R) as X; rewrite Ee in X; discriminate|].
      pose proof (rp_0 _ _ _ _ R) as R0. rewrite Ee in R0. cbn [nth_error] in R0. inversion R0; subst e0.
      cbn [nth_error a_cnt a_kidx a_klen a_nidx a_nk a_next Nat.min upd_kerns set_nth]. discriminate.
    + set (n := length (i_aggr (s_info s))).
      assert (R1 := rep_add d k0 c0 gs (mkgrp (key16 s) (bucket s) 0%N (repeat kern0 n)) (vgrow (d_ecap d) (length (d_ents d)) 1)
                 (vgrow_push (d_kcap d) (length (d_keyents d)) (length (key16 s))) (vgrow (d_ncap d) (length (d_kerns d)) n) R (bucket_lt s)).
      cbn [g_cnt g_key g_bk g_ks] in R1. rewrite repeat_length in R1.
      rewrite (rp_len _ _ _ _ R). rewrite (rp_len _ _ _ _ R) in R1.
      assert (Hlast : nth_error (gs ++ [mkgrp (key16 s) (bucket s) 0%N (repeat kern0 n)]) (length gs) = Some (mkgrp (key16 s) (bucket s) 0%N (repeat kern0 n))) by (rewrite nth_error_app2, Nat.sub_diag by lia; reflexivity).
      apply (tail_some _ k0 c0 _ (length gs) _ (s_rec s) (i_aggr (s_info s)) R1 Hlast). cbn [g_ks]. rewrite repeat_length. fold n. rewrite Nat.min_id. exact H2.
Qed.
Lemma upd_l_some s ks : forall attrs rest mem, kerns_ok ks attrs mem -> (forall a, minmaxsum (values_of a (mem ++ [s])) e3 <> None) ->
  upd_l ks (s_rec s) (attrs ++ rest) (Nat.min (length ks) (length (attrs ++ rest))) <> None.
Proof.
  induction ks as [|k q IH]; intros attrs rest mem H Hv; inversion H as [|k1 a q1 r H1 H2]; subst; cbn [length app].
  - cbn [Nat.min upd_l]. discriminate.
  - cbn [Nat.min upd_l]. specialize (IH r rest mem H2 Hv). destruct (upd_l q (s_rec s) (r ++ rest) (Nat.min (length q) (length (r ++ rest)))) as [q'|]; [|congruence].
    destruct (get_imm (s_rec s) a) as [e|] eqn:Eg; [|discriminate]. specialize (Hv a). rewrite values_snoc, first_imm_get, Eg in Hv. cbn [map] in Hv.
    rewrite minmaxsum_app in Hv. destruct H1 as (H1 & _). rewrite H1 in Hv. cbn [minmaxsum fst snd] in Hv. unfold kern_update.
    destruct (cv_minmaxsum (r_val e) (k_min k) (k_max k) (k_sum k)) as [[[mn mx] sm]|]; [discriminate|congruence].
Qed.
(* every key value can be converted for hashing: false only for doubles outside of the range of uint64 *)
Definition hashable (s : snap) : Prop := Forall (fun e => match e with RImm _ v => conv_val (to_uint v) <> None | RRef _ => True end) (full_key s).
Lemma make_key_some s : hashable s -> make_key (s_info s) (s_rec s) <> None.
Proof.
  unfold hashable, make_key. rewrite imm_keys_full. fold (full_key s). generalize (full_key s) ([] : list rent) 0%N. induction l as [|e l IH]; intros k h H; cbn [fold_left]; [discriminate|].
  inversion H; subst. destruct e; cbn [key_step]; [apply IH; auto|]. destruct (conv_val (to_uint v)); [apply IH; auto|congruence].
Qed.
Lemma subseq_pick {A} (h : list A) : forall fl, length fl = length h -> subseq (pick true h fl) h.
Proof. induction h as [|x h IH]; intros [|f fl] L; cbn in L; try discriminate; cbn [pick]; [constructor|]. destruct f; cbn; constructor; apply IH; lia. Qed.
Lemma subseq_filter {A} (p : A -> bool) l h : subseq l h -> subseq (filter p l) h.
Proof. induction 1; cbn; [constructor| |constructor; auto]. destruct (p x); constructor; auto. Qed.
Lemma subseq_snoc {A} (l h : list A) s : subseq l h -> subseq (l ++ [s]) (h ++ [s]).
Proof. induction 1; cbn; [apply subseq_refl|constructor; auto|constructor; auto]. Qed.
Lemma subseq_app_l {A} (l h : list A) s : subseq l h -> subseq l (h ++ [s]).
Proof. induction 1; cbn; [constructor; constructor|constructor; auto|constructor; auto]. Qed.
Lemma runs_from m d0 k0 h : Rep d0 k0 0%N [] -> 4096 <= d_ecap d0 -> 16384 <= d_kcap d0 -> 16384 <= d_ncap d0 -> growing h -> Forall hashable h ->
  (forall mem a, subseq mem h -> minmaxsum (values_of a mem) e3 <> None) -> exists d, arun m d0 h = Some d.
Proof.
  intros R0 C1 C2 C3.
  induction h as [|s h IH] using rev_ind; intros Hg Hh Hv; [exists d0; reflexivity|].
  apply growing_snoc in Hg as (Hg & Hp). apply Forall_app in Hh as (Hh & Hh'). inversion Hh'; subst.
  destruct (IH Hg Hh) as (d & Hd). { intros mem a Hm. apply Hv. apply subseq_app_l; auto. }
  destruct (history m _ _ R0 C1 C2 C3 h d Hg Hd) as (fl & gs & L & R & HI & _ & _).
  rewrite arun_app, Hd. cbn [arun].
  destruct (process m d (s_info s) (s_alloc s) (s_rec s)) as [d'|] eqn:E; [eauto|]. exfalso. revert E.
  apply (process_some m d _ _ gs s R); [apply make_key_some; auto| |].
  - intros g Hgin Hm. apply In_nth_error in Hgin as (i & Hi). pose proof (F2_len _ _ _ HI) as HL.
    destruct (nth_error (firsts (cls m) (pick true h fl)) i) as [f|] eqn:Hf; [|apply nth_error_None in Hf; assert (i < length gs) by (apply nth_error_Some; congruence); lia].
    pose proof (F2_nth _ _ _ HI i f g Hf Hi) as (_ & _ & _ & Gs).
    rewrite Forall_forall in Hp. destruct (Hp f) as (rest & Er). { eapply pick_in. eapply firsts_in. eapply nth_error_In. eauto. }
    rewrite Er. eapply upd_l_some; [exact Gs|]. intro a. apply Hv. apply subseq_snoc. apply subseq_filter. apply subseq_pick. auto.
  - assert (X := upd_l_some s _ (i_aggr (s_info s)) [] [] (kerns_ok_0 (i_aggr (s_info s)))). rewrite app_nil_r, repeat_length, Nat.min_id in X. apply X.
    intro a. apply Hv. clear. induction h; cbn; constructor; auto. constructor.
Qed.
(* no choice of snapshots of the history overflows a signed sum *)
Definition no_overflow (h : list snap) : Prop := forall mem a, subseq mem h -> minmaxsum (values_of a mem) (empty_var, empty_var, empty_var) <> None.
(* then every snapshot is processed *)
Theorem C37_runs m sk h : growing h -> Forall hashable h -> no_overflow h -> exists d, arun m (adb_init sk) h = Some d.
Proof. destruct (caps_fresh sk) as (C1 & C2 & C3). intros. eapply runs_from; eauto using rep_fresh. Qed.

(* ---- C38 ---- *)
(* the states a database can be in: any sequence of snapshots and clears *)
Inductive areach (m : memory) (sk : N) : adb -> Prop :=
| ar_init : areach m sk (adb_init sk)
| ar_step d s d' : areach m sk d -> process m d (s_info s) (s_alloc s) (s_rec s) = Some d' -> areach m sk d'
| ar_clear d d' : areach m sk d -> aclear d = Some d' -> areach m sk d'.
Lemma map_const_repeat {A B} (x : B) (l : list A) : map (fun _ => x) l = repeat x (length l).
Proof. induction l; cbn; auto. f_equal. auto. Qed.
Lemma clear_rep d k0 c0 gs : Rep d k0 c0 gs -> exists d', aclear d = Some d' /\ Rep d' [] 0%N [] /\ caps_le d d'.
Proof.
  intro R. unfold aclear. pose proof (rp_0 _ _ _ _ R) as R0. destruct (d_ents d) as [|e es] eqn:E; [discriminate|]. cbn in R0. inversion R0; subst e.
  eexists. split; [reflexivity|]. split; [|unfold caps_le; cbn; lia]. apply rep_init; cbn [d_ents d_keyents d_kerns d_hash]; auto.
  rewrite map_const_repeat, (rp_hlen _ _ _ _ R). reflexivity.
Qed.
Lemma areach_rep m sk d : areach m sk d -> (exists k0 c0 gs, Rep d k0 c0 gs) /\ caps_le (adb_init sk) d.
Proof.
  induction 1 as [|d s d' H ((k0 & c0 & gs & R) & C) E|d d' H ((k0 & c0 & gs & R) & C) E].
  - split; [exists [RRef sk], 0%N, []; apply rep_fresh|unfold caps_le; auto].
  - destruct (process_step m d k0 c0 gs s d' R E) as (Cs & X). split; [|unfold caps_le in *; lia].
    destruct X as [(i & g & ks' & _ & _ & _ & R')|(_ & [(_ & _ & R')|(ks' & _ & R')])]; eauto.
  - destruct (clear_rep _ _ _ _ R) as (d1 & E1 & R1 & C1). rewrite E in E1. inversion E1; subst d1. split; [eauto|unfold caps_le in *; lia].
Qed.
Lemma flush_from m d0 k0 h d info : Rep d0 k0 0%N [] -> 4096 <= d_ecap d0 -> 16384 <= d_kcap d0 -> 16384 <= d_ncap d0 ->
  growing h -> attrs_known info h -> small h -> Forall (fun s => s_alloc s = true) h -> arun m d0 h = Some d ->
  aflush d info = reports (cls m) key16 info h (firsts (cls m) h) 0%N /\ num_dropped d = 0%N.
Proof.
  intros R C1 C2 C3 Hg Ha Hs Hal Hr. destruct (history m d0 k0 R C1 C2 C3 h d Hg Hr) as (fl & gs & L & R' & HI & _ & Hd).
  destruct (pick_all h fl L) as (P1 & P2).
  { intros i x Hi Hfl. destruct (Hd i x Hi Hfl) as (A & _). rewrite Forall_forall in Hal. rewrite Hal in A by (eapply nth_error_In; eauto). discriminate. }
  rewrite P1, P2 in *. cbn [length N.of_nat] in R'. change (wrap64 0) with 0%N in R'.
  split; [|eapply num_dropped_rep; eauto]. rewrite (aflush_groups d _ _ gs info R' eq_refl). apply gflush_reports; auto. intros f Hf. eapply firsts_in; eauto.
Qed.
(* After clear, in any reachable state, the database reports nothing, and the records flushed after a
   further history of snapshots (taken outside of signal handlers) are those of a new database. *)
Theorem C38_clear m sk d h info : areach m sk d -> growing h -> attrs_known info h -> small h -> Forall (fun s => s_alloc s = true) h ->
  exists d0, aclear d = Some d0 /\ aflush d0 info = Some [] /\ num_dropped d0 = 0%N /\
    forall d1 d2, arun m d0 h = Some d1 -> arun m (adb_init sk) h = Some d2 -> aflush d1 info = aflush d2 info /\ num_dropped d1 = num_dropped d2.
Proof.
  intros Hr Hg Ha Hs Hal. destruct (areach_rep m sk d Hr) as ((k0 & c0 & gs & R) & C). destruct (clear_rep d k0 c0 gs R) as (d0 & E0 & R0 & C0).
  destruct (caps_fresh sk) as (F1 & F2 & F3). unfold caps_le in *.
  exists d0. split; auto. split; [rewrite (aflush_groups d0 _ _ [] info R0 eq_refl); reflexivity|]. split; [eapply num_dropped_rep; eauto|].
  intros d1 d2 H1 H2. destruct (flush_from m d0 [] h d1 info R0 ltac:(lia) ltac:(lia) ltac:(lia) Hg Ha Hs Hal H1) as (A1 & B1).
  destruct (flush_from m (adb_init sk) _ h d2 info (rep_fresh sk) F1 F2 F3 Hg Ha Hs Hal H2) as (A2 & B2). split; congruence.
Qed.
(* and the history is processed after clear *)
Theorem C38_runs m sk d h d0 : areach m sk d -> aclear d = Some d0 -> growing h -> Forall hashable h -> no_overflow h -> exists d1, arun m d0 h = Some d1.
Proof.
  intros Hr E Hg Hh Hv. destruct (areach_rep m sk d Hr) as ((k0 & c0 & gs & R) & C). destruct (clear_rep d k0 c0 gs R) as (d1 & E0 & R0 & C0). rewrite E in E0. inversion E0; subst d1.
  destruct (caps_fresh sk) as (F1 & F2 & F3). unfold caps_le in *. apply (runs_from m d0 [] h R0); auto; lia.
Qed.
Print Assumptions C37_runs.
Print Assumptions C38_clear.
