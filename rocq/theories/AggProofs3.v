(* The database operations used by the aggregator, and by everybody else, only grow the database *)
From Verif Require Import Base VariantModel VariantSpec NamesModel NamesProps TextModel TreeModel TreeProofs CaliFileModel CaliFileProofs2 CaliFileProofs3 CaliFileProofs4 ArithSpec AggModel AggSpec AggProofs2.
From Coq Require Import Permutation.
Open Scope N_scope.

Lemma beqb_refl s : beqb s s = true. Proof. apply beqb_eq. reflexivity. Qed.
Lemma push_node d p a v attrs i n : dnode (mkdb (d_nodes d ++ [mkn (N.of_nat (length (d_nodes d))) a v (Some p)]) attrs) i = Some n ->
  dnode d i = Some n \/ (i = N.of_nat (length (d_nodes d)) /\ n = mkn (N.of_nat (length (d_nodes d))) a v (Some p)).
Proof.
  rewrite !dnode_nth. cbn [d_nodes]. destruct (Nat.lt_ge_cases (N.to_nat i) (length (d_nodes d))).
  - rewrite nth_error_app1 by auto. auto.
  - rewrite nth_error_app2 by auto. destruct (N.to_nat i - length (d_nodes d))%nat eqn:E; cbn; [|destruct n0; discriminate]. intro Q. injection Q as <-. right. split; auto. lia.
Qed.
(* one new node that is not an attribute *)
Lemma push_grow d p a v : wf d -> is_attr d a = true -> a <> 8 -> v <> VInv -> (p = INV_ID \/ p < N.of_nat (length (d_nodes d))) -> dfind d p a v = None ->
  grow d (snd (dcreate d p a v)) /\ wf (snd (dcreate d p a v)).
Proof.
  intros (Hd & Hn) Ha H8 Hv Hp Hf. unfold dcreate. cbn [snd]. split.
  - constructor; [eexists; reflexivity|auto|]. unfold get_attr. cbn [d_attrs]. intros. congruence.
  - split; [apply db_ok_push; auto|]. constructor.
    + intros s x E. destruct (nm_some d Hn s x E) as (n & H1 & H2). exists n. split; auto. eapply dext_node; [|exact H1]. eexists. reflexivity.
    + intros i n Hi L E8. apply push_node in Hi as [Hi|(-> & ->)]; [exact (nm_reg d Hn i n Hi L E8)|]. cbn in E8. congruence.
Qed.
Lemma mte_len l : forall d p, dext d (snd (make_tree_entry d l p)).
Proof.
  induction l as [|(a, v) l IH]; intros d p; cbn [make_tree_entry]; [apply dext_refl|].
  destruct (dfind d p a v); [apply IH|]. unfold dcreate. eapply dext_trans; [|apply IH]. eexists. reflexivity.
Qed.
Lemma mte_ok l : forall d p lp, wf d -> Forall (fun x => is_attr d (fst x) = true /\ fst x <> 8 /\ snd x <> VInv) l -> npath d p lp ->
  size_ok (snd (make_tree_entry d l p)) ->
  grow d (snd (make_tree_entry d l p)) /\ wf (snd (make_tree_entry d l p)) /\ npath (snd (make_tree_entry d l p)) (fst (make_tree_entry d l p)) (lp ++ l).
Proof.
  induction l as [|(a, v) l IH]; intros d p lp Hw F Hp Hs; cbn [make_tree_entry] in *.
  - cbn [fst snd]. rewrite app_nil_r. auto using grow_refl.
  - apply Forall_cons_iff in F as ((Ha & H8 & Hv) & F). cbn [fst snd] in Ha, H8, Hv. pose proof Hw as (Hd & Hn).
    replace (lp ++ (a, v) :: l) with ((lp ++ [(a, v)]) ++ l) by (rewrite <- app_assoc; reflexivity).
    destruct (dfind d p a v) as [n|] eqn:Ef.
    + apply dfind_some in Ef. destruct Ef as (Hin & E1 & E2 & E3). apply dnode_in in Hin as (i & Hi). assert (Ei := ok_id d Hd i n Hi).
      apply IH; auto. rewrite Ei. rewrite <- E2, <- E3. apply np_node; auto.
      * assert (L := dnode_lt d _ _ Hi). assert (S := size_dext _ _ (mte_len l d (n_id n)) Hs). unfold size_ok in S. lia.
      * unfold par_id. rewrite E1. exact Hp.
    + destruct (push_grow d p a v Hw Ha H8 Hv (npath_known_lt d p lp Hp) Ef) as (G & W). unfold dcreate in *. cbn [snd] in G, W. set (d1 := mkdb _ _) in *. set (i := N.of_nat (length (d_nodes d))) in *.
      destruct (IH d1 i (lp ++ [(a, v)])) as (G2 & W2 & P2); auto.
      * eapply Forall_impl; [|exact F]. cbn. intros x (X & Y). split; auto. eapply dext_attr; [apply (gr_ext _ _ G)|auto].
      * change (a, v) with (n_attr (mkn i a v (Some p)), n_val (mkn i a v (Some p))). apply np_node.
        -- assert (S := size_dext _ _ (mte_len l d1 i) Hs). unfold size_ok, d1 in S. cbn [d_nodes] in S. rewrite app_length in S. cbn [length] in S. unfold i. lia.
        -- apply dnode_push.
        -- cbn. eapply npath_dext; [apply (gr_ext _ _ G)|exact Hp].
      * split; [eapply grow_trans; eauto|auto].
Qed.
Lemma get_attr_same d d' : d_attrs d' = d_attrs d -> forall s, get_attr d' s = get_attr d s.
Proof. intros E s. unfold get_attr. rewrite E. reflexivity. Qed.
Lemma mte_attrs l : forall d p, d_attrs (snd (make_tree_entry d l p)) = d_attrs d.
Proof.
  induction l as [|(a, v) l IH]; intros d p; cbn [make_tree_entry]; [reflexivity|]. destruct (dfind d p a v); [apply IH|]. unfold dcreate. rewrite IH. reflexivity.
Qed.
Lemma type_node_lt ty t : type_node ty = Some t -> t < 12.
Proof. unfold type_node. repeat (match goal with |- context [if ?b then _ else _] => destruct b end; [intro H; injection H as <-; lia|]). discriminate. Qed.
Lemma mte_app a b d p : make_tree_entry d (a ++ b) p = make_tree_entry (snd (make_tree_entry d a p)) b (fst (make_tree_entry d a p)).
Proof. revert d p. induction a as [|(x, v) a IH]; intros d p; cbn [make_tree_entry app]; [reflexivity|]. destruct (dfind d p x v); [apply IH|]. unfold dcreate. apply IH. Qed.
Lemma create_attribute_grow d name ty prop : wf d -> size_ok (snd (create_attribute d name ty prop)) ->
  grow d (snd (create_attribute d name ty prop)) /\ wf (snd (create_attribute d name ty prop)) /\ get_attr (snd (create_attribute d name ty prop)) name = Some (fst (create_attribute d name ty prop)).
Proof.
  intros Hw. pose proof Hw as (Hd & Hn). unfold create_attribute. fold (get_attr d name). destruct (get_attr d name) as [i|] eqn:E.
  { cbn [fst snd]. auto using grow_refl. }
  set (pt := match type_node ty with Some t => t | None => ROOT end).
  change [(10, VInt prop); (8, VStr name)] with ([(10, VInt prop)] ++ [(8, VStr name)]). rewrite mte_app.
  set (d1 := snd (make_tree_entry d [(10, VInt prop)] pt)). set (p1 := fst (make_tree_entry d [(10, VInt prop)] pt)).
  destruct (make_tree_entry d1 [(8, VStr name)] p1) as (i, d2) eqn:E2. cbn [fst snd]. intro Hs.
  assert (Hs2 : size_ok d2) by exact Hs. 
  assert (Hs1 : size_ok d1). { eapply size_dext; [|exact Hs2]. replace d2 with (snd (make_tree_entry d1 [(8, VStr name)] p1)) by (rewrite E2; reflexivity). apply mte_len. }
  assert (Hs0 : size_ok d) by (eapply size_dext; [apply (mte_len [(10, VInt prop)] d pt)|exact Hs1]).
  assert (exists lp, npath d pt lp) as (lp & Hlp).
  { unfold pt. destruct (type_node ty) as [t|] eqn:Et; [|exists []; constructor]. apply type_node_lt in Et. apply npath_ex; auto. assert (L := db_len12 d Hd). lia. }
  destruct (mte_ok [(10, VInt prop)] d pt lp Hw) as (G1 & W1 & P1); auto.
  { constructor; [|constructor]. cbn [fst snd]. split; [apply boot_is_attr; auto|split; [lia|discriminate]]. }
  fold d1 p1 in G1, W1, P1. pose proof W1 as (Hd1 & Hn1).
  assert (E1 : get_attr d1 name = None). { rewrite (get_attr_same d d1); auto. apply mte_attrs. }
  cbn [make_tree_entry] in E2. destruct (dfind d1 p1 8 (VStr name)) as [n|] eqn:Ef.
  { exfalso. apply dfind_some in Ef as (Hin & F1 & F2 & F3). apply dnode_in in Hin as (j & Hj). destruct (N.lt_ge_cases j 12) as [L|L].
    - assert (Hp1 := npath_known_lt d1 p1 _ P1). rewrite (ok_boot d1 Hd1 j L) in Hj.
      assert (C : j = 0 \/ j = 1 \/ j = 2 \/ j = 3 \/ j = 4 \/ j = 5 \/ j = 6 \/ j = 7 \/ j = 8 \/ j = 9 \/ j = 10 \/ j = 11) by lia.
      apply npath_snoc_inv in P1 as (m & _ & Hm & _ & Em).
      destruct C as [->|[->|[->|[->|[->|[->|[->|[->|[->|[->|[->| ->]]]]]]]]]]]; cbn in Hj; injection Hj as <-; cbn in F1, F2; try discriminate; injection F1 as F1; rewrite <- F1 in Hm; rewrite (ok_boot d1 Hd1) in Hm by lia; cbn in Hm; injection Hm as <-; discriminate.
    - apply (nm_reg d1 Hn1 j n Hj L F2). rewrite F3. exact E1. }
  unfold dcreate in E2. injection E2 as <- <-. set (j := N.of_nat (length (d_nodes d1))) in *. set (d2 := mkdb _ _) in *.
  assert (Ha8 : is_attr d1 8 = true) by (apply boot_is_attr; auto).
  assert (Hd2 : forall at_, db_ok (mkdb (d_nodes d2) at_)). { intro at_. unfold d2. cbn [d_nodes]. apply db_ok_push; auto; [discriminate|]. apply (npath_known_lt d1 p1 _ P1). }
  assert (He2 : dext d1 (mkdb (d_nodes d2) ((name, j) :: d_attrs d2))) by (eexists; reflexivity).
  assert (G2 : grow d1 (mkdb (d_nodes d2) ((name, j) :: d_attrs d2))).
  { constructor; auto; unfold get_attr; cbn [d_attrs alookup d2].
    - intros s x Hx. destruct (beqb name s) eqn:B; auto. apply beqb_eq in B. subst s. unfold get_attr in E1. congruence.
    - intros s x Hx. destruct (beqb name s); [intro Q; injection Q as <-; unfold j; lia|congruence]. }
  split; [eapply grow_trans; eauto|]. split.
  - split; [apply Hd2|]. constructor.
    + intros s x. unfold get_attr. cbn [d_attrs alookup d2]. destruct (beqb name s) eqn:B.
      * intro Q. injection Q as <-. apply beqb_eq in B. subst s. exists (mkn j 8 (VStr name) (Some p1)). split; [apply dnode_push|auto].
      * intro Q. destruct (nm_some d1 Hn1 s x Q) as (n & H1 & H2). exists n. split; auto. eapply dext_node; eauto.
    + intros x n Hx L F8. apply push_node in Hx as [Hx|(-> & ->)].
      * assert (R := nm_reg d1 Hn1 x n Hx L F8). unfold get_attr in *. cbn [d_attrs alookup d2]. destruct (beqb name (v_text (n_val n))); [discriminate|exact R].
      * unfold get_attr. cbn [d_attrs alookup n_val v_text d2]. rewrite beqb_refl. discriminate.
  - unfold get_attr. cbn [d_attrs alookup]. rewrite beqb_refl. reflexivity.
Qed.
Lemma create_attribute_ext d name ty prop : dext d (snd (create_attribute d name ty prop)).
Proof.
  unfold create_attribute. destruct (alookup _ _); [apply dext_refl|]. destruct (make_tree_entry d _ _) as (i, d1) eqn:E. cbn [snd].
  assert (H := mte_len [(10, VInt prop); (8, VStr name)] d (match type_node ty with Some t => t | None => ROOT end)). rewrite E in H. exact H.
Qed.
(* merging nodes from a stream *)
Lemma merge_core_grow d nid a p v i d' : wf d -> size_ok d' -> merge_core d nid a p v = Some (i, d') -> grow d d' /\ wf d'.
Proof.
  intros Hw Hs. pose proof Hw as (Hd & Hn). unfold merge_core. destruct (is_attr d a) eqn:Ea.
  2: { rewrite N.eqb_refl, orb_true_r. discriminate. }
  destruct ((nid =? INV_ID) || (a =? INV_ID) || match v with VInv => true | _ => false end) eqn:Eg; [discriminate|].
  apply orb_false_iff in Eg as (_ & Ev).
  destruct (if p =? INV_ID then Some ROOT else if N.of_nat (length (d_nodes d)) <=? p then None else Some p) as [pp|] eqn:Ep; [|discriminate].
  assert (Hp : pp = INV_ID \/ pp < N.of_nat (length (d_nodes d))).
  { destruct (p =? INV_ID); [injection Ep as <-; left; reflexivity|]. destruct (N.leb_spec (N.of_nat (length (d_nodes d))) p); [discriminate|]. injection Ep as <-. auto. }
  destruct (dfind d pp a v) as [n|] eqn:Ef; [intro Q; injection Q as _ <-; auto using grow_refl|].
  assert (Hv : v <> VInv) by (intros ->; discriminate).
  destruct (N.eqb_spec a 8) as [->|H8].
  - unfold dcreate. intro Q. injection Q as <- <-. cbn [d_nodes d_attrs]. set (j := N.of_nat (length (d_nodes d))). set (at_ := match alookup _ _ with Some _ => _ | None => _ end).
    assert (He : dext d (mkdb (d_nodes d ++ [mkn j 8 v (Some pp)]) at_)) by (eexists; reflexivity).
    assert (Hal : forall s, alookup at_ s = match alookup (d_attrs d) s with Some x => Some x | None => if beqb (v_text v) s then Some j else None end).
    { intro s. unfold at_. destruct (alookup (d_attrs d) (v_text v)) as [y|] eqn:Ey.
      - destruct (alookup (d_attrs d) s) eqn:Es; auto. destruct (beqb (v_text v) s) eqn:B; auto. apply beqb_eq in B. subst s. congruence.
      - cbn [alookup]. destruct (beqb (v_text v) s) eqn:B; [apply beqb_eq in B; subst s; rewrite Ey; reflexivity|destruct (alookup (d_attrs d) s); reflexivity]. }
    split.
    + constructor; auto; unfold get_attr; cbn [d_attrs]; intros s x Hx; rewrite Hal, Hx; auto. destruct (beqb (v_text v) s); [|discriminate]. intro Q. injection Q as <-. unfold j. lia.
    + split; [apply db_ok_push; auto|]. constructor.
      * intros s x. unfold get_attr. cbn [d_attrs]. rewrite Hal. destruct (alookup (d_attrs d) s) as [y|] eqn:Es.
        -- intro Q. injection Q as <-. destruct (nm_some d Hn s y Es) as (n & H1 & H2). exists n. split; auto. eapply dext_node; eauto.
        -- destruct (beqb (v_text v) s) eqn:B; [|discriminate]. intro Q. injection Q as <-. apply beqb_eq in B. exists (mkn j 8 v (Some pp)). split; [apply dnode_push|auto].
      * intros x n Hx L F8. unfold get_attr. cbn [d_attrs]. rewrite Hal. apply push_node in Hx as [Hx|(-> & ->)].
        -- assert (R := nm_reg d Hn x n Hx L F8). unfold get_attr in R. destruct (alookup (d_attrs d) (v_text (n_val n))); [discriminate|contradiction].
        -- cbn [n_val]. destruct (alookup (d_attrs d) (v_text v)); [discriminate|]. rewrite beqb_refl. discriminate.
  - destruct (push_grow d pp a v Hw Ea H8 Hv Hp Ef) as (G & W). destruct (dcreate d pp a v) as (j, d1). intro Q. injection Q as _ <-. auto.
Qed.
Lemma wf_init : wf db_init.
Proof.
  assert (B : wf (mkdb boot_list [(lit_attr_name, 8)])).
  { split; [apply boot_ok|]. constructor.
    - intros s a. unfold get_attr. cbn [d_attrs alookup]. destruct (beqb lit_attr_name s) eqn:E; [|discriminate]. intro Q. injection Q as <-. apply beqb_eq in E. subst s. eexists. split; [reflexivity|]. split; reflexivity.
    - intros i n Hi L. apply dnode_lt in Hi. cbn in Hi. lia. }
  unfold db_init. 
  destruct (create_attribute_grow _ lit_alias T_STRING 64 B) as (_ & W & _).
  { unfold size_ok. vm_compute. discriminate. }
  destruct (create_attribute _ lit_alias T_STRING 64) as (i, d1) eqn:E. cbn [snd] in W.
  apply (create_attribute_grow d1 lit_unit T_STRING 64 W). unfold size_ok. vm_compute in E. injection E as _ <-. vm_compute. discriminate.
Qed.
