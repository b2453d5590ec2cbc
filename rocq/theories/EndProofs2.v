(* C81: what a stored record says; the rows of the report *)
From Verif Require Import Base VariantModel VariantSpec NamesModel NamesProps TextModel TreeModel TreeSpec TreeProofs RuntimeModel RuntimeSpec ArithModel RtAggModel ProfModel ProfSpec ProfProofs2.
From Verif Require Import CaliFileModel CaliFileProofs CaliFileProofs2 CaliFileProofs3 CaliFileProofs4 CaliFileProofs5 CaliFileProps AggModel AggSpec AggSpec2 QFileSpec EndSpec.
Open Scope N_scope.

(* ---------- region paths ---------- *)
Section P.
Variable tr : tree.
Variable lk : N -> option tnode.
Hypothesis Hlk : forall i, lk i = nodes_of tr i.
Hypothesis Hinv : inv tr.
Variable rank : N -> nat.
Hypothesis Hsrc : src_ok lk rank.
Lemma lk_node i n : lk i = Some n -> node_at tr i = Some n /\ i <> INV_ID.
Proof. rewrite Hlk. unfold nodes_of. destruct (N.eqb_spec i INV_ID); [discriminate|auto]. Qed.
Lemma tree_lk n p : In n (t_nodes tr) -> n_par n = Some p -> lk (n_id n) = Some n.
Proof.
  intros Hn Hp. rewrite Hlk. unfold nodes_of. destruct (N.eqb_spec (n_id n) INV_ID) as [Z|_].
  - rewrite (wf_root_id _ _ (proj1 Hinv) Hn Z) in Hp. discriminate Hp.
  - unfold node_at. pose proof (wf_nodup _ (proj1 Hinv)) as Nd. unfold ids in Nd. revert Hn Nd. generalize (t_nodes tr). intro l. induction l as [|k l IH]; intros Hn Nd; [contradiction|]. cbn in Nd. apply NoDup_cons_iff in Nd as (Nk & Nd). cbn [find].
    destruct Hn as [->|Hn]; [rewrite N.eqb_refl; reflexivity|]. destruct (N.eqb_spec (n_id k) (n_id n)) as [E|_]; [|auto]. destruct Nk. rewrite E. apply in_map. exact Hn.
Qed.
Lemma named_attr i n : lk i = Some n -> 12 <= n_attr n -> exists na, lk (n_attr n) = Some na /\ n_attr na = 8.
Proof.
  intros Hn Ha. destruct (N.ltb_spec i 12) as [L|L]; [|exact (so_attr _ _ Hsrc i n Hn L)]. rewrite (so_boot _ _ Hsrc i L) in Hn. destruct (boot_triples i n Hn) as (_ & T & _). lia.
Qed.
Lemma path_named i q : has_path tr i q -> forall p, CaliFileProofs4.path lk i p -> Forall (fun x : N * value => 12 <= fst x) q ->
  rev p = by_name tr q /\ Forall (fun x => called lk (fst x) (name_of tr (fst x))) q.
Proof.
  induction 1 as [|n pr l Hn Hpar Hp IH]; intros p Hpath Hf.
  - inversion Hpath; subst; [split; [reflexivity|constructor]|]. unfold ROOT in H. rewrite (so_inv _ _ Hsrc) in H. discriminate H.
  - pose proof (tree_lk n pr Hn Hpar) as L. apply Forall_app in Hf as (Hf1 & Hf2). inversion Hf2 as [|? ? Ha _]; subst. cbn [fst] in Ha. inversion Hpath as [|i' n' an name l' A1 A2 A3 A4]; subst.
    + exfalso. rewrite <- H in L. rewrite (so_inv _ _ Hsrc) in L. discriminate L.
    + assert (n' = n) by congruence. subst n'. assert (Ep : par_id n = pr) by (unfold par_id; rewrite Hpar; reflexivity). rewrite Ep in A4. destruct (IH _ A4 Hf1) as (E1 & E2).
      destruct (named_attr _ _ L Ha) as (na & B1 & B2). assert (na = an) by congruence. subst na.
      assert (En : name_of tr (n_attr n) = name). { unfold name_of. rewrite (proj1 (lk_node _ _ A2)), A3. reflexivity. }
      split.
      * cbn [rev]. unfold by_name in *. rewrite List.map_app. cbn [map fst snd]. rewrite En. f_equal. exact E1.
      * apply Forall_app. split; [exact E2|]. constructor; [|constructor]. cbn [fst]. exists an. rewrite En. auto.
Qed.
Lemma by_name_inj q q' : names_unique lk -> Forall (fun x => called lk (fst x) (name_of tr (fst x))) q -> Forall (fun x => called lk (fst x) (name_of tr (fst x))) q' ->
  by_name tr q = by_name tr q' -> q = q'.
Proof.
  intros Hu H. revert q'. induction H as [|(a, v) q Ha Hq IH]; intros q' H' E; destruct q' as [|(b, w) q']; try discriminate E; [reflexivity|].
  inversion H' as [|? ? Hb Hq']; subst. cbn in E. injection E as E1 E2 E3. cbn [fst] in *. f_equal; [|apply IH; auto]. rewrite E1 in Ha. rewrite (Hu a b _ Ha Hb). congruence.
Qed.

(* ---------- one record ---------- *)
Lemma F2_appl {A B} (P : A -> B -> Prop) la la' lb : Forall2 P (la ++ la') lb -> exists l1 l2, lb = l1 ++ l2 /\ Forall2 P la l1 /\ Forall2 P la' l2.
Proof. revert lb. induction la as [|a la IH]; intros lb H; [exists [], lb; auto|]. cbn [app] in H. inversion H as [|? b ? lb' H1 H2]; subst. destruct (IH _ H2) as (l1 & l2 & -> & H3 & H4). exists (b :: l1), l2. auto. Qed.
Lemma written_refs m r es : Forall2 (written_entry m) r es -> map ERef (CaliFileModel.refs_of es) = flat_map (fun e => match e with RRef i => [ERef i] | RImm _ _ => [] end) r.
Proof. induction 1 as [|e y r es H HF IH]; [reflexivity|]. destruct e, y; cbn in H |- *; try contradiction; [subst; f_equal|]; exact IH. Qed.
Lemma refs_filter (r : list rent) : flat_map (fun e => match e with RRef i => [ERef i] | RImm _ _ => [] end) r = flat_map (fun e => match e with RRef i => [ERef i] | RImm _ _ => [] end) (filter is_ref r).
Proof. induction r as [|e r IH]; [reflexivity|]. destruct e; cbn; rewrite ?IH; reflexivity. Qed.
Lemma written_vals m r es a : Forall2 (written_entry m) r es -> (forall v, In (EImm a v) es -> val_type v = 3) ->
  flat_map (fun x => if fst x =? a then [snd x] else []) (imms_of es) = map VUint (rec_val r a).
Proof.
  intros H. induction H as [|e y r es H HF IH]; intros Ht; [reflexivity|]. destruct e as [i|b c], y as [j|b' v]; cbn in H; try contradiction.
  - cbn. apply IH. intros w Hw. apply Ht. right. exact Hw.
  - destruct H as (-> & Hb). unfold rec_val, imms_of in *. cbn [flat_map app fst snd]. destruct (N.eqb_spec b' a) as [->|Z]; cbn [app].
    + cbn [map]. rewrite IH by (intros w Hw; apply Ht; right; exact Hw). f_equal. specialize (Ht v (or_introl eq_refl)). destruct v; try discriminate Ht. inversion Hb; subst. reflexivity.
    + apply IH. intros w Hw. apply Ht. right. exact Hw.
Qed.
Lemma imm_says l w : Forall2 (says lk) (map (fun x : N * value => EImm (fst x) (snd x)) l) w -> wpath w = [] /\ Forall2 (fun x y => called lk (fst x) (fst y) /\ snd y = snd x) l (wimms w).
Proof.
  revert w. induction l as [|x l IH]; intros w H; inversion H as [|? e ? w' H1 H2]; subst; [split; [reflexivity|constructor]|]. destruct (IH _ H2) as (E1 & E2). inversion H1; subst. split; [exact E1|].
  unfold wimms in *. cbn [flat_map app]. constructor; auto.
Qed.
Lemma imm_values a x l l' : names_unique lk -> called lk a x -> Forall2 (fun z y => called lk (fst z) (fst y) /\ snd y = snd z) l l' ->
  values x l' = flat_map (fun z => if fst z =? a then [snd z] else []) l.
Proof.
  intros Hu Ha. induction 1 as [|z y l l' (H1 & H2) HF IH]; [reflexivity|]. unfold values in *. cbn [flat_map]. rewrite IH, H2. f_equal.
  destruct (NamesModel.beqb (fst y) x) eqn:E.
  - apply beqb_eq in E. rewrite E in H1. rewrite (Hu _ _ _ H1 Ha), N.eqb_refl. reflexivity.
  - destruct (N.eqb_spec (fst z) a) as [Z|]; [|reflexivity]. exfalso. rewrite Z in H1. destruct H1 as (n & N1 & _ & N2), Ha as (n' & N1' & _ & N2'). assert (fst y = x) by congruence. rewrite (proj2 (beqb_eq _ _) H) in E. discriminate E.
Qed.
Lemma wpath_app w w' : wpath (w ++ w') = wpath w' ++ wpath w.
Proof. induction w as [|e w IH]; [cbn; rewrite app_nil_r; reflexivity|]. destruct e; cbn; rewrite IH; [reflexivity|]. rewrite app_assoc. reflexivity. Qed.
Lemma wimms_refs l w : Forall2 (says lk) (map ERef l) w -> wimms w = [].
Proof. revert w. induction l as [|i l IH]; intros w H; inversion H as [|? ? ? ? H1 H2]; subst; [reflexivity|]. inversion H1; subst. unfold wimms in *. cbn. auto. Qed.
Lemma rec_path_refs r : rec_path tr r = rec_path tr (filter is_ref r).
Proof. unfold rec_path. induction r as [|e r IH]; [reflexivity|]. destruct e; cbn [flat_map filter is_ref]; rewrite IH; reflexivity. Qed.
Lemma record_ok m (r : list rent) es w a x q : Forall2 (written_entry m) r es -> ctx_for tr (filter is_ref r) q -> record_says lk (ref_first es) w ->
  names_unique lk -> called lk a x -> (forall v, In (EImm a v) es -> val_type v = 3) ->
  wpath w = by_name tr q /\ Forall (fun x => called lk (fst x) (name_of tr (fst x))) q /\ values x (wimms w) = map VUint (rec_val r a).
Proof.
  intros Hw Hc Hs Hu Ha Ht. unfold record_says, ref_first in Hs. apply F2_appl in Hs as (w1 & w2 & -> & S1 & S2). destruct (imm_says _ _ S2) as (E1 & E2).
  assert (Ei : wimms (w1 ++ w2) = wimms w2). { unfold wimms. rewrite flat_map_app. fold (wimms w1). rewrite (wimms_refs _ _ S1). reflexivity. }
  rewrite wpath_app, E1, Ei. cbn [app]. rewrite (imm_values a x _ _ Hu Ha E2), (written_vals m r es a Hw Ht).
  rewrite (written_refs m r es Hw), refs_filter in S1.
  destruct Hc as [(Er & ->)|(i & Er & Hne & Hp & Hf)]; rewrite Er in S1; cbn in S1.
  - inversion S1; subst. split; [reflexivity|]. split; [constructor|reflexivity].
  - inversion S1 as [|? e ? w' H1 H2]; subst. inversion H2; subst. inversion H1 as [|? p Hpath]; subst. cbn [wpath app]. destruct (path_named _ _ Hp _ Hpath Hf) as (N1 & N2). auto.
Qed.
End P.
