(* Database facts used by the aggregation proofs: paths, growth, stability of key selection *)
From Verif Require Import Base VariantModel VariantSpec NamesModel NamesProps TextModel TreeModel TreeProofs CaliFileModel CaliFileProofs2 CaliFileProofs3 CaliFileProofs4 ArithSpec AggModel AggSpec.
From Coq Require Import Permutation Sorted.
Open Scope N_scope.

Lemma par_lt d i n : db_ok d -> dnode d i = Some n -> par_id n = INV_ID \/ par_id n < i.
Proof.
  intros Hd Hn. destruct (N.lt_ge_cases i 12) as [L|L].
  - rewrite (ok_boot d Hd i L) in Hn.
    assert (C : i = 0 \/ i = 1 \/ i = 2 \/ i = 3 \/ i = 4 \/ i = 5 \/ i = 6 \/ i = 7 \/ i = 8 \/ i = 9 \/ i = 10 \/ i = 11) by lia.
    destruct C as [E|[E|[E|[E|[E|[E|[E|[E|[E|[E|[E|E]]]]]]]]]]]; subst i; cbn in Hn; injection Hn as <-; cbn; auto; right; lia.
  - destruct (ok_node d Hd i n Hn L) as (_ & _ & H & _). exact H.
Qed.
Lemma dnode_inv d : size_ok d -> dnode d INV_ID = None.
Proof. unfold size_ok, dnode. intro H. destruct (N.ltb_spec INV_ID (N.of_nat (length (d_nodes d)))); auto. lia. Qed.
Lemma npath_fun d i l : npath d i l -> forall l', npath d i l' -> l = l'.
Proof.
  induction 1 as [|i n l Hi Hn Hp IH]; intros l' H'; inversion H' as [|i' n' l0 Hi' Hn' Hp']; subst; auto; try congruence.
  rewrite Hn in Hn'. injection Hn' as <-. rewrite (IH _ Hp'). reflexivity.
Qed.
Lemma npath_ex d i : db_ok d -> size_ok d -> i < N.of_nat (length (d_nodes d)) -> exists l, npath d i l.
Proof.
  intros Hd Hs. induction i as [i IH] using (well_founded_induction N.lt_wf_0). intro Hi.
  destruct (dnode_some d i Hi) as (n & Hn). assert (i <> INV_ID) by (unfold size_ok in Hs; lia).
  destruct (par_lt d i n Hd Hn) as [E|L].
  - exists ([] ++ [(n_attr n, n_val n)]). constructor; auto. rewrite E. constructor.
  - destruct (IH (par_id n) L ltac:(lia)) as (l & Hl). eexists. econstructor; eauto.
Qed.
Lemma npath_dext d d' i l : dext d d' -> npath d i l -> npath d' i l.
Proof. intros He. induction 1; [constructor|]. econstructor; eauto. eapply dext_node; eauto. Qed.
Lemma npath_len d i l : db_ok d -> size_ok d -> npath d i l -> i <> INV_ID -> (length l <= S (N.to_nat i))%nat.
Proof.
  intros Hd Hs. induction 1 as [|i n l Hi Hn Hp IH]; [congruence|]. intros _. rewrite app_length. cbn [length].
  destruct (par_lt d i n Hd Hn) as [E|L].
  - rewrite E in Hp. inversion Hp as [|j m l0 Hj]; subst; [cbn; lia|congruence].
  - assert (par_id n <> INV_ID). { apply dnode_lt in Hn. unfold size_ok in Hs. lia. } specialize (IH H). lia.
Qed.
Lemma npath_known d i l : npath d i l -> db_ok d -> Forall (fun x => is_attr d (fst x) = true /\ (i < 12 \/ snd x <> VInv \/ True)) l.
Proof.
  intros H Hd. induction H as [|i n l Hi Hn Hp IH]; constructor || (apply Forall_app; split).
  - eapply Forall_impl; [|exact IH]. cbn. intros x (A & B). auto.
  - constructor; [|constructor]. cbn [fst snd]. split; auto.
    destruct (N.lt_ge_cases i 12) as [L|L]; [|apply (ok_node d Hd i n Hn L)].
    rewrite (ok_boot d Hd i L) in Hn. destruct (boot_triples i n Hn) as (_ & _ & _ & _ & [E|E]); rewrite E; apply boot_is_attr; auto.
Qed.
Lemma npath_attr d i l x : npath d i l -> db_ok d -> In x l -> is_attr d (fst x) = true.
Proof. intros H Hd Hx. assert (F := npath_known d i l H Hd). rewrite Forall_forall in F. apply F. exact Hx. Qed.
Lemma npath_val d i l x : npath d i l -> db_ok d -> In x l -> snd x <> VInv.
Proof.
  intros H Hd. induction H as [|i n l Hi Hn Hp IH]; [intros []|]. intro Hx. apply in_app_iff in Hx as [Hx|[<-|[]]]; [auto|]. cbn [snd].
  destruct (N.lt_ge_cases i 12) as [L|L]; [|apply (ok_node d Hd i n Hn L)].
  rewrite (ok_boot d Hd i L) in Hn.
  assert (C : i = 0 \/ i = 1 \/ i = 2 \/ i = 3 \/ i = 4 \/ i = 5 \/ i = 6 \/ i = 7 \/ i = 8 \/ i = 9 \/ i = 10 \/ i = 11) by lia.
  destruct C as [E|[E|[E|[E|[E|[E|[E|[E|[E|[E|[E|E]]]]]]]]]]]; subst i; cbn in Hn; injection Hn as <-; discriminate.
Qed.
Lemma npath_nil_inv d i : npath d i [] -> i = INV_ID.
Proof. intro H. remember (@nil (N * value)) as l eqn:E. destruct H as [|i n l0 Hi Hn Hp]; auto. destruct l0; discriminate. Qed.
Lemma npath_snoc_inv d i l x : npath d i (l ++ [x]) -> exists n, i <> INV_ID /\ dnode d i = Some n /\ npath d (par_id n) l /\ x = (n_attr n, n_val n).
Proof.
  intro H. remember (l ++ [x]) as l' eqn:E. destruct H as [|i n l0 Hi Hn Hp]; [destruct l; discriminate|].
  apply app_inj_tail in E as (<- & <-). eauto.
Qed.
Lemma npath_inj d : db_ok d -> forall l i j, npath d i l -> npath d j l -> i = j.
Proof.
  intros Hd. induction l as [|x l IH] using rev_ind; intros i j Hi Hj.
  - apply npath_nil_inv in Hi, Hj. congruence.
  - apply npath_snoc_inv in Hi as (n & A & B & C & D). apply npath_snoc_inv in Hj as (m & A' & B' & C' & D').
    apply (ok_uniq d Hd i j n m); auto. unfold triple. rewrite D in D'. injection D' as -> ->. f_equal. apply IH; auto.
Qed.
Lemma npath_known_lt d i l : npath d i l -> i = INV_ID \/ i < N.of_nat (length (d_nodes d)).
Proof. inversion 1; subst; auto. right. eapply dnode_lt; eauto. Qed.

Lemma unravel_npath d i l : size_ok d -> npath d i l -> forall fuel, (length l <= fuel)%nat -> unravel fuel d i = rev l.
Proof.
  intro Hs. induction 1 as [|i n l Hi Hn Hp IH]; intros fuel Hf.
  - destruct fuel; cbn; auto. rewrite dnode_inv; auto.
  - rewrite app_length in Hf. cbn [length] in Hf. destruct fuel as [|f]; [lia|]. cbn [unravel]. rewrite Hn, rev_app_distr. cbn [rev app]. f_equal.
    unfold par_id in *. destruct (n_par n); [apply IH; lia|]. inversion Hp as [E|j m l0 Hj]; subst; [reflexivity|congruence].
Qed.
Lemma node_path_ok d i l : db_ok d -> size_ok d -> npath d i l -> i <> INV_ID -> node_path d i = rev l.
Proof.
  intros Hd Hs Hp Hi. unfold node_path. apply unravel_npath; auto. assert (H := npath_len d i l Hd Hs Hp Hi).
  destruct (npath_known_lt d i l Hp) as [E|L]; [congruence|]. lia.
Qed.
Definition fnd (k : N) (l : list (N * value)) : option value := match find (fun x => fst x =? k) (rev l) with Some x => Some (snd x) | None => None end.
Lemma climb_npath d i l k : size_ok d -> npath d i l -> forall fuel, (length l <= fuel)%nat -> climb fuel (dnode d) i k = fnd k l.
Proof.
  intro Hs. induction 1 as [|i n l Hi Hn Hp IH]; intros fuel Hf.
  - destruct fuel; cbn; auto. rewrite dnode_inv; auto.
  - rewrite app_length in Hf. cbn [length] in Hf. destruct fuel as [|f]; [lia|]. cbn [climb]. rewrite Hn. unfold fnd. rewrite rev_app_distr. cbn [rev app find fst].
    destruct (n_attr n =? k); [reflexivity|]. unfold par_id in *. destruct (n_par n); [apply IH; lia|]. inversion Hp as [E|j m l0 Hj]; subst; [reflexivity|congruence].
Qed.
Lemma climb_ok d i l k : db_ok d -> size_ok d -> npath d i l -> i < N.of_nat (length (d_nodes d)) -> climb (length (d_nodes d)) (dnode d) i k = fnd k l.
Proof. intros Hd Hs Hp Hi. apply climb_npath; auto. assert (H := npath_len d i l Hd Hs Hp ltac:(unfold size_ok in Hs; lia)). lia. Qed.
Lemma fnd_in k l : fnd k l <> None <-> exists v, In (k, v) l.
Proof.
  unfold fnd. destruct (find (fun x => fst x =? k) (rev l)) as [x|] eqn:E.
  - apply find_some in E as (E1 & E2). apply N.eqb_eq in E2. subst k. split; [|discriminate]. intros _. exists (snd x). destruct x. apply in_rev. exact E1.
  - split; [congruence|]. intros (v & Hv). assert (F := find_none _ _ E (k, v)). rewrite <- in_rev in F. specialize (F Hv). cbn in F. rewrite N.eqb_refl in F. discriminate.
Qed.
Lemma size_dext d d' : dext d d' -> size_ok d' -> size_ok d.
Proof. intros H. apply dext_len in H. unfold size_ok. lia. Qed.
Lemma climb_stable d d' i k : db_ok d -> db_ok d' -> dext d d' -> size_ok d' -> i < N.of_nat (length (d_nodes d)) -> climb (length (d_nodes d')) (dnode d') i k = climb (length (d_nodes d)) (dnode d) i k.
Proof.
  intros Hd Hd' He Hs Hi. assert (Hs0 := size_dext _ _ He Hs). destruct (npath_ex d i Hd Hs0 Hi) as (l & Hl).
  rewrite (climb_ok d i l k), (climb_ok d' i l k); auto. - eapply npath_dext; eauto. - apply dext_len in He. lia.
Qed.
Lemma is_attr_lt d a : is_attr d a = true -> a < N.of_nat (length (d_nodes d)).
Proof. unfold is_attr. destruct (dnode d a) eqn:E; [|discriminate]. intros _. eapply dnode_lt; eauto. Qed.

(* ---------- growth ---------- *)
Lemma grow_refl d : grow d d.
Proof. constructor; auto using dext_refl. intros s a H H'. congruence. Qed.
Lemma grow_trans a b c : grow a b -> grow b c -> grow a c.
Proof.
  intros [E1 K1 N1] [E2 K2 N2]. constructor.
  - eapply dext_trans; eauto.
  - auto.
  - intros s x Hn Hx. destruct (get_attr b s) as [y|] eqn:E.
    + rewrite (K2 s y E) in Hx. injection Hx as <-. eauto.
    + assert (H := N2 s x E Hx). apply dext_len in E1. lia.
Qed.
Lemma get_attr_lt d s a : names_ok d -> get_attr d s = Some a -> a < N.of_nat (length (d_nodes d)).
Proof. intros H E. destruct (nm_some d H s a E) as (n & Hn & _). eapply dnode_lt; eauto. Qed.
Lemma get_attr_inj d s t a : names_ok d -> get_attr d s = Some a -> get_attr d t = Some a -> s = t.
Proof. intros H E F. destruct (nm_some d H s a E) as (n & Hn & _ & <-). destruct (nm_some d H t a F) as (m & Hm & _ & <-). congruence. Qed.
Lemma is_nested_stable d d' a : wf d -> wf d' -> grow d d' -> size_ok d' -> a < N.of_nat (length (d_nodes d)) -> is_nested d' a = is_nested d a.
Proof. intros (Hd & _) (Hd' & _) [He _ _] Hs Ha. unfold is_nested, attr_props. rewrite (climb_stable d d'); auto. Qed.
Lemma attr_type_stable d d' a : wf d -> wf d' -> grow d d' -> size_ok d' -> a < N.of_nat (length (d_nodes d)) -> attr_type d' a = attr_type d a.
Proof. intros (Hd & _) (Hd' & _) [He _ _] Hs Ha. unfold attr_type. rewrite (climb_stable d d'); auto. Qed.
Lemma is_key_spec d q a : wf d -> size_ok d -> a < N.of_nat (length (d_nodes d)) -> is_key d (q_keys q) a = true <-> key_attr d q a.
Proof.
  intros (Hd & Hn) Hs Ha. unfold is_key, key_attr. rewrite existsb_exists. destruct (npath_ex d a Hd Hs Ha) as (l & Hl). split.
  - intros (s & Hin & H). destruct (get_attr d s) as [k|] eqn:E; [|discriminate]. exists s, k. split; auto. split; auto. apply orb_true_iff in H as [H|H].
    + apply N.eqb_eq in H. auto.
    + right. exists l. rewrite (climb_ok d a l k) in H by auto. destruct (fnd k l) eqn:F; [|discriminate]. destruct (proj1 (fnd_in k l) ltac:(congruence)) as (v' & Hv). eauto.
  - intros (s & k & Hin & E & H). exists s. split; auto. rewrite E. apply orb_true_iff. destruct H as [->|(l' & v & Hl' & Hv)]; [left; apply N.eqb_refl|right].
    assert (l' = l) by (eapply npath_fun; eauto). subst l'. rewrite (climb_ok d a l k) by auto. assert (F : fnd k l <> None) by (apply fnd_in; eauto). destruct (fnd k l); congruence.
Qed.
Lemma key_attr_stable d d' q a : wf d -> wf d' -> grow d d' -> size_ok d' -> a < N.of_nat (length (d_nodes d)) -> key_attr d' q a <-> key_attr d q a.
Proof.
  intros (Hd & Hn) (Hd' & Hn') [He Hk Hnew] Hs Ha. assert (Hs0 := size_dext _ _ He Hs). destruct (npath_ex d a Hd Hs0 Ha) as (l & Hl). assert (Hl' := npath_dext _ _ _ _ He Hl). split.
  - intros (s & k & Hin & E & H). exists s, k. split; auto.
    assert (Lk : k < N.of_nat (length (d_nodes d))).
    { destruct H as [<-|(l' & v & Hl2 & Hv)]; auto. assert (l' = l) by (eapply npath_fun; eauto). subst l'. assert (Hx := npath_attr d a l (k, v) Hl Hd Hv). apply is_attr_lt in Hx. exact Hx. }
    destruct (get_attr d s) as [k'|] eqn:F.
    + rewrite (Hk s k' F) in E. injection E as ->. split; auto. destruct H as [<-|(l' & v & Hl2 & Hv)]; auto. assert (l' = l) by (eapply npath_fun; eauto). subst l'. right. eauto.
    + exfalso. assert (X := Hnew s k F E). lia.
  - intros (s & k & Hin & E & H). exists s, k. split; auto. split; auto. destruct H as [<-|(l' & v & Hl2 & Hv)]; auto. right. exists l', v. split; auto. eapply npath_dext; eauto.
Qed.
Lemma selected_spec d q a : wf d -> size_ok d -> a < N.of_nat (length (d_nodes d)) -> selected d q a = true <-> grouped d q a.
Proof.
  intros H Hs Ha. unfold selected, grouped. rewrite !orb_true_iff, andb_true_iff, is_key_spec by auto. tauto.
Qed.
Lemma grouped_stable d d' q a : wf d -> wf d' -> grow d d' -> size_ok d' -> a < N.of_nat (length (d_nodes d)) -> grouped d' q a <-> grouped d q a.
Proof. intros H H' Hg Hs Ha. unfold grouped. rewrite (key_attr_stable d d') by auto. rewrite (is_nested_stable d d') by auto. reflexivity. Qed.

(* ---------- keep ---------- *)
Lemma keep_filter {A} (P : A -> Prop) f (l : list A) : (forall x, In x l -> f x = true <-> P x) -> keep P l (filter f l).
Proof.
  induction l as [|x l IH]; intro H; cbn [filter]; [constructor|]. assert (Hx := H x (or_introl eq_refl)). assert (HI := IH (fun y Hy => H y (or_intror Hy))).
  destruct (f x); constructor; auto; [apply Hx; auto|]. intro C. apply Hx in C. discriminate.
Qed.
Lemma keep_fun {A} (P : A -> Prop) (l a : list A) : keep P l a -> forall b, keep P l b -> a = b.
Proof. induction 1; intros b Hb; inversion Hb; subst; auto; try contradiction. f_equal; auto. Qed.
Lemma keep_ext {A} (P Q : A -> Prop) (l a : list A) : (forall x, In x l -> P x <-> Q x) -> keep P l a -> keep Q l a.
Proof. intros H K. induction K; constructor; try (apply IHK; intros; apply H; right; auto); [apply H; [left|]; auto|]. intro C. apply H in C; [auto|left; auto]. Qed.
Lemma keep_all {A} (P : A -> Prop) (l : list A) : Forall P l -> keep P l l.
Proof. induction 1; constructor; auto. Qed.
Lemma keep_none {A} (P : A -> Prop) (l : list A) : Forall (fun x => ~ P x) l -> keep P l [].
Proof. induction 1; constructor; auto. Qed.
Lemma keep_app {A} (P : A -> Prop) (l l' a a' : list A) : keep P l a -> keep P l' a' -> keep P (l ++ l') (a ++ a').
Proof. induction 1; intro H'; cbn [app]; auto; constructor; auto. Qed.
Lemma keep_sat {A} (P : A -> Prop) (l a : list A) : keep P l a -> Forall P a.
Proof. induction 1; auto. Qed.
Lemma keep_incl {A} (P : A -> Prop) (l a : list A) : keep P l a -> incl a l.
Proof. induction 1; intros y Hy; [destruct Hy| |]; cbn in *; intuition. Qed.
