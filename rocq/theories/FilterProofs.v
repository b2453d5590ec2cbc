(* Proofs about WHERE conditions (FilterModel) *)
From Verif Require Import Base VariantModel VariantSpec VariantOrderProofs NamesModel TextModel TreeModel TreeProofs CaliFileModel CaliFileProofs2 CaliFileProofs4 ArithSpec FloatModel AggModel AggSpec AggProofs2 AggProofs3 FilterModel FilterSpec.
Open Scope N_scope.

(* vcompare is the byte-level compare on every encoding of the values *)
Lemma vcompare_order a b : in_range a -> in_range b -> cmp_exact a b -> sgn (vcompare a b) = vorder a b.
Proof.
  intros Ha Hb Hc. destruct a, b; cbn [vcompare vorder val_type in_range cmp_exact] in *; try (rewrite sgn_sub; reflexivity); try reflexivity.
  - apply memcmp_lex.
  - rewrite sgn_trunc32 by lia. apply sgn_sub.
  - apply u64_diff_cmp; assumption.
  - apply strncmp_lex. exact Hc.
  - apply u64_diff_cmp; assumption.
  - apply dcmp_order; apply Hc.
  - unfold MAXTYPE in *. rewrite sgn_trunc32 by lia. rewrite sgn_sub. apply N2Z.inj_compare.
  - rewrite sgn_trunc32 by lia. rewrite sgn_sub. apply N2Z.inj_compare.
Qed.
Lemma vltb_order a b : in_range a -> in_range b -> cmp_exact a b -> vltb a b = true <-> vorder a b = Lt.
Proof. intros Ha Hb Hc. unfold vltb. rewrite sgn_lt, (vcompare_order a b Ha Hb Hc). destruct (vorder a b); split; congruence. Qed.
Lemma vgtb_order a b : in_range a -> in_range b -> cmp_exact a b -> vgtb a b = true <-> vorder a b = Gt.
Proof. intros Ha Hb Hc. unfold vgtb. rewrite sgn_gt, (vcompare_order a b Ha Hb Hc). destruct (vorder a b); split; congruence. Qed.
(* the comparison used by the model is the one of the C code on any two built variants *)
Lemma vcompare_built m a b va vb : built m a va -> built m b vb -> cmp_exact va vb -> exists c, compare m a b = Some c /\ sgn c = sgn (vcompare va vb).
Proof.
  intros Ha Hb Hc. destruct (compare_spec m a b va vb Ha Hb Hc) as (c & E & S). exists c. split; [exact E|]. rewrite S. symmetry.
  apply vcompare_order; [exact (built_u64' m a va Ha)|exact (built_u64' m b vb Hb)|exact Hc].
Qed.

Section D.
Variable d : mdb.
Hypothesis Hw : wf d.
Hypothesis Hs : size_ok d.
Let Hd : db_ok d := proj1 Hw.

Lemma lt_not_inv i : i < N.of_nat (length (d_nodes d)) -> i <> INV_ID.
Proof. unfold size_ok in Hs. lia. Qed.
Lemma attr_not_inv a : is_attr d a = true -> a <> INV_ID.
Proof. intro H. apply lt_not_inv. apply is_attr_lt. exact H. Qed.

(* some entry matches: the record carries a matching value *)
Lemma any_match_spec rec m : Forall (entry_ok d) rec -> any_match d rec m = true <-> exists a v, carries d rec a v /\ m a v = true.
Proof.
  intro Hr. rewrite Forall_forall in Hr. unfold any_match. rewrite existsb_exists. split.
  - intros (e & Hin & Hm). destruct e as [i|a v]; cbn [have_match] in Hm.
    + destruct (Hr _ Hin) as (Hlt & _). destruct (npath_ex d i Hd Hs Hlt) as (p & Hp). rewrite (node_path_ok d i p Hd Hs Hp (lt_not_inv i Hlt)) in Hm.
      apply existsb_exists in Hm as ((a, v) & Hx & Hm). apply in_rev in Hx. exists a, v. split; [|exact Hm]. right. exists i, p. auto.
    + exists a, v. split; [left; exact Hin|exact Hm].
  - intros (a & v & [Hin|(i & p & Hin & Hp & Hx)] & Hm).
    + exists (EImm a v). split; [exact Hin|exact Hm].
    + exists (ERef i). split; [exact Hin|]. cbn [have_match]. destruct (Hr _ Hin) as (Hlt & _). rewrite (node_path_ok d i p Hd Hs Hp (lt_not_inv i Hlt)).
      apply existsb_exists. exists (a, v). split; [apply (proj1 (in_rev p (a, v))); exact Hx|exact Hm].
Qed.
Lemma carries_attr rec a v : Forall (entry_ok d) rec -> carries d rec a v -> is_attr d a = true.
Proof.
  intros Hr. rewrite Forall_forall in Hr. intros [Hin|(i & p & Hin & Hp & Hx)].
  - exact (Hr _ Hin).
  - exact (npath_attr d i p (a, v) Hp Hd Hx).
Qed.
Variable parse : N -> bytes -> value.
(* a match restricted to the attribute of the condition *)
Lemma clause_match rec c (f : value -> value -> bool) (P : value -> value -> Prop) : Forall (entry_ok d) rec ->
  (forall a v, get_attr d (c_name c) = Some a -> carries d rec a v -> f v (parse (attr_type d a) (c_text c)) = true <-> P v (parse (attr_type d a) (c_text c))) ->
  any_match d rec (fun a v => (a =? clause_attr d c) && f v (clause_value parse d c)) = true <->
  exists a v, get_attr d (c_name c) = Some a /\ carries d rec a v /\ P v (parse (attr_type d a) (c_text c)).
Proof.
  intros Hr Hf. rewrite any_match_spec by exact Hr. unfold clause_attr, clause_value. split.
  - intros (a & v & Hc & Hm). apply andb_prop in Hm as (Ha & Hm). apply N.eqb_eq in Ha. destruct (get_attr d (c_name c)) as [b|] eqn:E.
    + subst b. exists a, v. split; [reflexivity|]. split; [exact Hc|]. apply (proj1 (Hf a v eq_refl Hc)). exact Hm.
    + exfalso. exact (attr_not_inv a (carries_attr rec a v Hr Hc) Ha).
  - intros (a & v & E & Hc & HP). exists a, v. split; [exact Hc|]. rewrite E, N.eqb_refl. cbn [andb]. apply (proj2 (Hf a v E Hc)). exact HP.
Qed.
Lemma clause_exist rec c : Forall (entry_ok d) rec ->
  any_match d rec (fun a _ => a =? clause_attr d c) = true <-> exists a v, get_attr d (c_name c) = Some a /\ carries d rec a v /\ True.
Proof.
  intro Hr. assert (H := clause_match rec c (fun _ _ => true) (fun _ _ => True) Hr ltac:(intros; split; auto)). rewrite <- H.
  rewrite !any_match_spec by exact Hr. split; intros (a & v & Hc & Hm); exists a, v; (split; [exact Hc|]); rewrite ?andb_true_r in *; exact Hm.
Qed.
Lemma negb_iff (b : bool) P : b = true <-> P -> negb b = true <-> ~ P.
Proof. intro H. destruct b; cbn; split; intro E; try discriminate; try reflexivity. - exfalso. apply E, H. reflexivity. - intro p. apply H in p. discriminate. Qed.
Lemma pass1_spec rec c : Forall (entry_ok d) rec -> comparable parse d rec c -> pass1 parse d rec c = true <-> satisfies parse d rec c.
Proof.
  intros Hr Hc. unfold pass1, satisfies, comparable in *. cbv zeta in *. destruct (c_op c).
  - split; auto.
  - apply clause_exist. exact Hr.
  - apply negb_iff. apply clause_exist. exact Hr.
  - apply (clause_match rec c veqb eq); [exact Hr|]. intros a v _ _. apply veqb_eq.
  - apply negb_iff. apply (clause_match rec c veqb eq); [exact Hr|]. intros a v _ _. apply veqb_eq.
  - apply (clause_match rec c vltb (fun v w => vorder v w = Lt)); [exact Hr|]. intros a v E H. destruct (Hc a v E H) as (H1 & H2 & H3). apply vltb_order; assumption.
  - apply (clause_match rec c vgtb (fun v w => vorder v w = Gt)); [exact Hr|]. intros a v E H. destruct (Hc a v E H) as (H1 & H2 & H3). apply vgtb_order; assumption.
  - apply (clause_match rec c (fun v w => vltb v w || veqb v w) (fun v w => vorder v w = Lt \/ v = w)); [exact Hr|]. intros a v E H. destruct (Hc a v E H) as (H1 & H2 & H3).
    rewrite orb_true_iff, vltb_order, veqb_eq by assumption. reflexivity.
  - apply (clause_match rec c (fun v w => vgtb v w || veqb v w) (fun v w => vorder v w = Gt \/ v = w)); [exact Hr|]. intros a v E H. destruct (Hc a v E H) as (H1 & H2 & H3).
    rewrite orb_true_iff, vgtb_order, veqb_eq by assumption. reflexivity.
Qed.
Lemma pass_spec rec cs : Forall (entry_ok d) rec -> Forall (comparable parse d rec) cs -> pass parse d cs rec = true <-> Forall (satisfies parse d rec) cs.
Proof.
  intros Hr Hc. unfold pass. rewrite forallb_forall, Forall_forall. rewrite Forall_forall in Hc.
  split; intros H c Hi; [apply (proj1 (pass1_spec rec c Hr (Hc c Hi)))|apply (proj2 (pass1_spec rec c Hr (Hc c Hi)))]; auto.
Qed.
End D.
