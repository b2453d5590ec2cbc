(* From runs of the aggregator to sequences of abstract steps *)
From Verif Require Import Base VariantModel VariantSpec NamesModel NamesProps TextModel TreeModel TreeProofs CaliFileModel CaliFileProofs2 CaliFileProofs3 CaliFileProofs4 ArithSpec AggModel AggSpec AggProofs AggProofs2 AggProofs3 AggProofs4.
From Coq Require Import Permutation Sorted.
Open Scope N_scope.

Lemma make_attr_ext d t k : dext d (snd (make_attr d t k)).
Proof. apply create_attribute_ext. Qed.
Lemma make_attrs_ext t l : forall d, dext d (snd (make_attrs d t l)).
Proof.
  induction l as [|k l IH]; intro d; cbn [make_attrs]; [apply dext_refl|]. assert (H := make_attr_ext d t k). destruct (make_attr d t k) as (i, d1). assert (H2 := IH d1). destruct (make_attrs d1 t l) as (is, d2). cbn [snd] in *. eapply dext_trans; eauto.
Qed.
Lemma kid_grow d d' k : grow d d' -> get_attr d (ka_name k) <> None -> kid d' k = kid d k.
Proof. intros G H. unfold kid. destruct (get_attr d (ka_name k)) eqn:E; [|congruence]. rewrite (gr_keep _ _ G _ _ E). reflexivity. Qed.
Lemma make_attrs_ok t l : forall d, wf d -> size_ok (snd (make_attrs d t l)) ->
  let d1 := snd (make_attrs d t l) in
  grow d d1 /\ wf d1 /\ fst (make_attrs d t l) = flat_map (kid d1) l /\ Forall (fun k => get_attr d1 (ka_name k) <> None) l.
Proof.
  induction l as [|k l IH]; intros d Hw; cbn [make_attrs]; [cbn; auto using grow_refl|].
  assert (H := create_attribute_grow d (ka_name k) (match ka_type k with Some ty => ty | None => match t with Some t => attr_type d t | None => T_INV end end) (ka_prop k) Hw). fold (make_attr d t k) in H. destruct (make_attr d t k) as (i, d1). cbn [fst snd] in H.
  specialize (IH d1). assert (E2 := make_attrs_ext t l d1). destruct (make_attrs d1 t l) as (is, d2). cbn [fst snd] in *. intro Hs.
  destruct H as (G1 & W1 & A1); [eapply size_dext; eauto|]. destruct (IH W1 Hs) as (G2 & W2 & A2 & A3). split; [eapply grow_trans; eauto|]. split; auto. cbn [flat_map].
  assert (A1' := gr_keep _ _ G2 _ _ A1). split.
  - unfold kid at 1. rewrite A1'. cbn [app]. rewrite A2. reflexivity.
  - constructor; auto. congruence.
Qed.
Lemma flat_kid_grow d d' l : grow d d' -> Forall (fun k => get_attr d (ka_name k) <> None) l -> flat_map (kid d') l = flat_map (kid d) l.
Proof. intros G F. induction F; cbn [flat_map]; auto. rewrite (kid_grow d d'); auto. f_equal. auto. Qed.
Lemma entry_known d e : db_ok d -> entry_ok d e -> entry_node e < N.of_nat (length (d_nodes d)).
Proof. intros Hd. destruct e; cbn; [tauto|apply is_attr_lt]. Qed.
Lemma e_id_known c d e : db_ok d -> entry_ok d e -> e_id c d e < N.of_nat (length (d_nodes d)).
Proof.
  intros Hd He. unfold e_id. destruct (by_attribute c); [|apply entry_known; auto]. destruct e as [i|a v]; cbn in *; [|apply is_attr_lt; auto].
  destruct He as (L & _). destruct (dnode_some d i L) as (n & Hn). rewrite Hn. destruct (N.lt_ge_cases i 12) as [Li|Li].
  - rewrite (ok_boot d Hd i Li) in Hn. destruct (boot_triples i n Hn) as (_ & H & _). assert (H12 := db_len12 d Hd). lia.
  - destruct (ok_node d Hd i n Hn Li) as (H & _). lia.
Qed.
Lemma e_id_grow c d d' e : dext d d' -> entry_ok d e -> e_id c d' e = e_id c d e.
Proof.
  intros G He. unfold e_id. destruct (by_attribute c); auto. destruct e as [i|a v]; cbn in *; auto. destruct He as (L & _). destruct (dnode_some d i L) as (n & Hn). rewrite Hn, (dext_node _ _ _ _ G Hn). reflexivity.
Qed.
Lemma e_val_grow d d' e : dext d d' -> entry_ok d e -> e_val d' e = e_val d e.
Proof.
  intros G He. destruct e as [i|a v]; cbn in *; auto. destruct He as (L & _). destruct (dnode_some d i L) as (n & Hn). rewrite Hn, (dext_node _ _ _ _ G Hn). reflexivity.
Qed.
Lemma match_rec_grow c d d' ids rec : dext d d' -> Forall (entry_ok d) rec -> match_rec c d' ids rec = match_rec c d ids rec.
Proof. intros G F. unfold match_rec. induction F as [|e rec He F IH]; cbn [flat_map]; auto. rewrite (e_id_grow c d d' e), (e_val_grow d d' e), IH by auto. reflexivity. Qed.
Lemma role_of_none ids a : (forall r, ~ In (a, r) ids) -> role_of ids a = None.
Proof. induction ids as [|(k, r) ids IH]; intro H; cbn; auto. destruct (N.eqb_spec k a) as [->|]; [exfalso; apply (H r); left; auto|]. apply IH. intros r' Hr. apply (H r'). right. auto. Qed.
Lemma match_rec_none c d ids rec : (forall e a r, In e rec -> In (a, r) ids -> e_id c d e <> a) -> match_rec c d ids rec = [].
Proof.
  intro H. unfold match_rec. induction rec as [|e rec IH]; cbn [flat_map]; auto. rewrite role_of_none, IH; auto.
  - intros e' a r He. apply H. right. auto.
  - intros r Hr. exact (H e _ r (or_introl eq_refl) Hr eq_refl).
Qed.
(* one target of a kernel *)
Lemma kmatch1_ext c d rec x : dext d (snd (kmatch1 c d rec x)).
Proof.
  unfold kmatch1. destruct (no_target c).
  - assert (H := make_attrs_ext None (snd x) d). destruct (make_attrs d None (snd x)). exact H.
  - destruct (get_attr d (fst x)) as [t|]; [|apply dext_refl]. assert (H := make_attrs_ext (Some t) (snd x) d). destruct (make_attrs d (Some t) (snd x)). exact H.
Qed.
Lemma kmatch1_ok c d rec x : wf d -> Forall (entry_ok d) rec ->
  (no_target c = false -> get_attr d (fst x) = None -> forall k a e, In k (snd x) -> get_attr d (ka_name k) = Some a -> In e rec -> e_id c d e <> a) ->
  size_ok (snd (kmatch1 c d rec x)) ->
  grow d (snd (kmatch1 c d rec x)) /\ wf (snd (kmatch1 c d rec x)) /\ forall d', grow (snd (kmatch1 c d rec x)) d' -> fst (kmatch1 c d rec x) = smatch1 c d' rec x.
Proof.
  intros Hw F HT. unfold kmatch1, smatch1. destruct (no_target c) eqn:En.
  - assert (H := make_attrs_ok None (snd x) d Hw). destruct (make_attrs d None (snd x)) as (ids, d1). cbn [fst snd] in *. intro Hs. destruct (H Hs) as (G & W & A & B). split; auto. split; auto. intros d' G'.
    rewrite (match_rec_grow c d d1), (match_rec_grow c d d') by (auto; eapply gr_ext; eauto using grow_trans). rewrite A, (flat_kid_grow d1 d'); auto.
  - destruct (get_attr d (fst x)) as [t|] eqn:Et.
    + assert (H := make_attrs_ok (Some t) (snd x) d Hw). destruct (make_attrs d (Some t) (snd x)) as (ids, d1). cbn [fst snd] in *. intro Hs. destruct (H Hs) as (G & W & A & B). split; auto. split; auto. intros d' G'.
      rewrite (gr_keep _ _ (grow_trans _ _ _ G G') _ _ Et).
      rewrite (match_rec_grow c d d1), (match_rec_grow c d d') by (auto; eapply gr_ext; eauto using grow_trans). rewrite A, (flat_kid_grow d1 d'); auto.
    + cbn [fst snd]. intro Hs. split; [apply grow_refl|]. split; auto. intros d' G'. destruct (get_attr d' (fst x)) as [t|] eqn:Et'; auto. symmetry. apply match_rec_none. intros e a r He Hin.
      rewrite Forall_forall in F. assert (L := e_id_known c d e (proj1 Hw) (F e He)). rewrite (e_id_grow c d d') by (auto; apply gr_ext; auto). destruct Hin as [E|Hin].
      * injection E as <- _. assert (N := gr_new _ _ G' _ _ Et Et'). lia.
      * apply in_flat_map in Hin as (k & Hk & Hin). unfold kid in Hin. destruct (get_attr d' (ka_name k)) as [b|] eqn:Eb; [|destruct Hin]. destruct Hin as [E|[]]. injection E as <- _.
        destruct (get_attr d (ka_name k)) as [b'|] eqn:Eb'.
        -- rewrite (gr_keep _ _ G' _ _ Eb') in Eb. injection Eb as ->. exact (HT eq_refl eq_refl k b e Hk Eb' He).
        -- assert (N := gr_new _ _ G' _ _ Eb' Eb). lia.
Qed.
Lemma entries_grow d d' rec : wf d -> size_ok d' -> grow d d' -> Forall (entry_ok d) rec -> Forall (entry_ok d') rec.
Proof. intros Hw Hs G F. eapply Forall_impl; [|exact F]. intros e He. eapply entry_ok_grow; eauto. Qed.
(* the hypothesis about targets is stable *)
Definition tgt_ok (c : kcfg) (d : mdb) (rec : list entry) (x : bytes * list kattr) : Prop :=
  no_target c = false -> get_attr d (fst x) = None -> forall k a e, In k (snd x) -> get_attr d (ka_name k) = Some a -> In e rec -> e_id c d e <> a.
Lemma tgt_grow c d d' rec x : db_ok d -> grow d d' -> Forall (entry_ok d) rec -> tgt_ok c d rec x -> tgt_ok c d' rec x.
Proof.
  intros Hd G F H Hn Et k a e Hk Ha He. rewrite Forall_forall in F. rewrite (e_id_grow c d d') by (auto; apply gr_ext; auto). assert (Et0 : get_attr d (fst x) = None).
  { destruct (get_attr d (fst x)) eqn:E; auto. rewrite (gr_keep _ _ G _ _ E) in Et. discriminate. }
  destruct (get_attr d (ka_name k)) as [b|] eqn:Eb.
  - rewrite (gr_keep _ _ G _ _ Eb) in Ha. injection Ha as <-. eauto.
  - assert (N := gr_new _ _ G _ _ Eb Ha). assert (L := e_id_known c d e Hd (F e He)). lia.
Qed.
Lemma kmatch_l_ext c rec l : forall d b, dext d (snd (kmatch_l c d rec l b)).
Proof.
  induction l as [|x l IH]; intros d b; cbn [kmatch_l]; [apply dext_refl|]. assert (H := kmatch1_ext c d rec x). destruct (kmatch1 c d rec x) as (m, d1). assert (H2 := IH d1 (b + 10)%nat). destruct (kmatch_l c d1 rec l (b + 10)) as (m2, d2). cbn [snd] in *. eapply dext_trans; eauto.
Qed.
Lemma kmatch_l_ok c rec l : forall d b, wf d -> Forall (entry_ok d) rec -> Forall (tgt_ok c d rec) l -> size_ok (snd (kmatch_l c d rec l b)) ->
  grow d (snd (kmatch_l c d rec l b)) /\ wf (snd (kmatch_l c d rec l b)) /\ forall d', grow (snd (kmatch_l c d rec l b)) d' -> fst (kmatch_l c d rec l b) = smatch_l c d' rec l b.
Proof.
  induction l as [|x l IH]; intros d b Hw F T; cbn [kmatch_l smatch_l]; [cbn; intros; auto using grow_refl|]. apply Forall_cons_iff in T as (Tx & T).
  assert (H := kmatch1_ok c d rec x Hw F Tx). destruct (kmatch1 c d rec x) as (m, d1). cbn [fst snd] in *. assert (He2 := kmatch_l_ext c rec l d1 (b + 10)%nat). specialize (IH d1 (b + 10)%nat). destruct (kmatch_l c d1 rec l (b + 10)) as (m2, d2). cbn [fst snd] in *.
  intro Hs. assert (Hs1 : size_ok d1) by (eapply size_dext; eauto). destruct (H Hs1) as (G1 & W1 & A1). destruct (IH W1) as (G2 & W2 & A2).
  1: exact (entries_grow d d1 rec Hw Hs1 G1 F).
  1: eapply Forall_impl; [|exact T]; intros y Hy; exact (tgt_grow c d d1 rec y (proj1 Hw) G1 F Hy).
  1: exact Hs.
  - split; [eapply grow_trans; eauto|]. split; auto. intros d' G'. rewrite (A1 d'), (A2 d'); auto. eapply grow_trans; eauto.
Qed.
Lemma match_all_ext rec cs : forall d, dext d (snd (match_all d rec cs)).
Proof.
  induction cs as [|c cs IH]; intros d; cbn [match_all]; [apply dext_refl|]. unfold kmatch. assert (H := kmatch_l_ext c rec (kattrs c) d 0%nat). destruct (kmatch_l c d rec (kattrs c) 0) as (m, d1). assert (H2 := IH d1). destruct (match_all d1 rec cs) as (m2, d2). cbn [snd] in *. eapply dext_trans; eauto.
Qed.
Lemma match_all_ok rec cs : forall d, wf d -> Forall (entry_ok d) rec -> Forall (fun c => Forall (tgt_ok c d rec) (kattrs c)) cs -> size_ok (snd (match_all d rec cs)) ->
  grow d (snd (match_all d rec cs)) /\ wf (snd (match_all d rec cs)) /\ forall d', grow (snd (match_all d rec cs)) d' -> fst (match_all d rec cs) = map (fun c => smatch c d' rec) cs.
Proof.
  induction cs as [|c cs IH]; intros d Hw F T; cbn [match_all map]; [cbn; intros; auto using grow_refl|]. apply Forall_cons_iff in T as (Tx & T).
  unfold kmatch. assert (H := kmatch_l_ok c rec (kattrs c) d 0%nat Hw F Tx). destruct (kmatch_l c d rec (kattrs c) 0) as (m, d1). cbn [fst snd] in *. assert (He2 := match_all_ext rec cs d1). specialize (IH d1). destruct (match_all d1 rec cs) as (m2, d2). cbn [fst snd] in *.
  intro Hs. assert (Hs1 : size_ok d1) by (eapply size_dext; eauto). destruct (H Hs1) as (G1 & W1 & A1). destruct (IH W1) as (G2 & W2 & A2).
  1: exact (entries_grow d d1 rec Hw Hs1 G1 F).
  1: eapply Forall_impl; [|exact T]; intros y Hy; eapply Forall_impl; [|exact Hy]; intros z Hz; exact (tgt_grow y d d1 rec z (proj1 Hw) G1 F Hz).
  1: exact Hs.
  - split; [eapply grow_trans; eauto|]. split; auto. intros d' G'. unfold smatch. rewrite (A1 d'), (A2 d'); auto. eapply grow_trans; eauto.
Qed.
(* the step of one record, described in a later database *)
Definition step_for (d : mdb) (q : qspec) (rec : list entry) (s : step) : Prop :=
  exists K, group_key d q rec K /\ wfkey d q K /\ krep d (s_key s) K /\
    (exists As, Forall2 (krep d) (s_anc s) As /\ NoDup As /\ forall A, In A As <-> encloses A K) /\
    forall d', grow d d' -> s_in s = map (fun c => smatch c d' rec) (q_ker q).
Lemma make_key_ext d q rec key anc d2 : make_key d q rec = (key, anc, d2) -> dext d d2.
Proof.
  unfold make_key. intro E.
  destruct (match nonpath_part d q rec with [] => _ | _ => _ end) as (k1, d1) eqn:E1.
  assert (Hext1 : dext d d1).
  { destruct (nonpath_part d q rec) eqn:En; [injection E1 as _ <-; apply dext_refl|]. rewrite <- En in E1. assert (H := mte_len (nonpath_part d q rec) d ROOT). destruct (make_tree_entry d _ ROOT). injection E1 as _ <-. exact H. }
  eapply dext_trans; [exact Hext1|].
  destruct (path_part d q rec) eqn:En; [injection E as _ _ <-; apply dext_refl|]. rewrite <- En in E. assert (H := mte_len (path_part d q rec) d1 ROOT). destruct (make_tree_entry d1 _ ROOT). injection E as _ _ <-. exact H.
Qed.
Lemma mk_step_ok d q rec s d1 : wf d -> rec_ok d q rec -> mk_step d q rec = (s, d1) -> size_ok d1 -> grow d d1 /\ wf d1 /\ step_for d1 q rec s.
Proof.
  intros Hw (F & T). unfold mk_step. destruct (make_key d q rec) as ((key, anc), d0) eqn:E0. assert (X0 := make_key_ext _ _ _ _ _ _ E0).
  assert (X1 := match_all_ext rec (q_ker q) d0). assert (M := match_all_ok rec (q_ker q) d0). destruct (match_all d0 rec (q_ker q)) as (ms, d2). cbn [fst snd] in *. intro E. injection E as <- <-. intro Hs.
  assert (Hs0 : size_ok d0) by (eapply size_dext; eauto). destruct (make_key_ok d q rec key anc d0 Hw F E0 Hs0) as (G0 & W0 & KR & As & A1 & A2 & A3).
  assert (F0 : Forall (entry_ok d0) rec) by exact (entries_grow d d0 rec Hw Hs0 G0 F).
  assert (T0 : Forall (fun c => Forall (tgt_ok c d0 rec) (kattrs c)) (q_ker q)).
  { apply Forall_forall. intros c Hc. apply Forall_forall. intros x Hx. apply (tgt_grow c d d0 rec x (proj1 Hw) G0 F). intros Hn Et k a e Hk Ha He. exact (T c x k a e Hc Hn Hx Et Hk Ha He). }
  destruct (M W0 F0 T0 Hs) as (G1 & W1 & M').
  assert (GK : group_key d q rec (key_of d q rec)). { apply key_of_ok; auto. eapply size_dext; eauto. }
  assert (G : grow d d2) by (eapply grow_trans; eauto).
  split; auto. split; auto. exists (key_of d q rec). cbn [s_key s_anc s_in].
  split; [exact (group_key_grow d d2 q rec _ Hw W1 G Hs F GK)|]. split; [exact (wfkey_grow d d2 q _ Hw W1 G Hs (group_wf d q rec _ Hw F GK))|]. split; [eapply krep_dext; [apply (gr_ext _ _ G1)|auto]|]. split.
  - exists As. split; auto. clear - A1 G1. induction A1; constructor; auto. eapply krep_dext; [apply (gr_ext _ _ G1)|auto].
  - intros d' G'. apply M'. exact G'.
Qed.
Lemma step_for_grow d d' q rec s : wf d -> wf d' -> grow d d' -> size_ok d' -> Forall (entry_ok d) rec -> step_for d q rec s -> step_for d' q rec s.
Proof.
  intros Hw Hw' G Hs F (K & H1 & H2 & H3 & (As & A1 & A2) & H5). exists K. split; [exact (group_key_grow d d' q rec _ Hw Hw' G Hs F H1)|]. split; [exact (wfkey_grow d d' q _ Hw Hw' G Hs H2)|]. split; [exact (krep_dext d d' _ _ (gr_ext _ _ G) H3)|]. split.
  - exists As. split; auto. clear - A1 G. induction A1; constructor; auto. eapply krep_dext; [apply (gr_ext _ _ G)|auto].
  - intros d2 G2. apply H5. eapply grow_trans; eauto.
Qed.
Lemma steps_grow d d' q recs ss : wf d -> wf d' -> grow d d' -> size_ok d' -> Forall (Forall (entry_ok d)) recs -> Forall2 (step_for d q) recs ss -> Forall2 (step_for d' q) recs ss.
Proof.
  intros Hw Hw' G Hs F H. induction H as [|r s recs ss Hr _ IH]; constructor; apply Forall_cons_iff in F as (Fr & F); auto. exact (step_for_grow d d' q r s Hw Hw' G Hs Fr Hr).
Qed.
Lemma arun_wf q recs d g : arun q recs d g -> size_ok d ->
  wf d /\ Forall (Forall (entry_ok d)) recs /\ exists ss, g = fold_left (run_step (q_ker q)) ss (agg_init (q_ker q)) /\ Forall2 (step_for d q) recs ss.
Proof.
  induction 1 as [d Hw|recs d g d' H IH G Hw'|recs d g rec d' g' H IH R P]; intro Hs.
  - split; auto. split; auto. exists []. split; [reflexivity|constructor].
  - assert (Hs0 : size_ok d) by (eapply size_dext; [apply (gr_ext _ _ G)|auto]). destruct (IH Hs0) as (Hw & F & ss & E & F2). split; auto. split.
    + eapply Forall_impl; [|exact F]. intros r Hr. exact (entries_grow d d' r Hw Hs G Hr).
    + exists ss. split; auto. eapply (steps_grow d d'); eauto.
  - unfold process in P. cbn [fst snd] in P. destruct (mk_step d q rec) as (s, d1) eqn:Em. injection P as <- <-.
    assert (Hs0 : size_ok d).
    { eapply size_dext; [|exact Hs]. unfold mk_step in Em. destruct (make_key d q rec) as ((key, anc), d0) eqn:E0. apply make_key_ext in E0. assert (X := match_all_ext rec (q_ker q) d0). destruct (match_all d0 rec (q_ker q)). injection Em as _ <-. eapply dext_trans; eauto. }
    destruct (IH Hs0) as (Hw & F & ss & E & F2). destruct (mk_step_ok d q rec s d1 Hw R Em Hs) as (G & W & S). split; auto. split.
    + apply Forall_app. split; [|constructor; [exact (entries_grow d d1 rec Hw Hs G (proj1 R))|constructor]]. eapply Forall_impl; [|exact F]. intros r Hr. exact (entries_grow d d1 r Hw Hs G Hr).
    + exists (ss ++ [s]). split; [rewrite fold_left_app, <- E; reflexivity|]. apply Forall2_app; [|constructor; auto]. eapply (steps_grow d d1); eauto.
Qed.
