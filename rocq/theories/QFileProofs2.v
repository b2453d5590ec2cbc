(* Proofs: what a query does to the database *)
From Verif Require Import Base VariantModel VariantSpec NamesModel NamesProps TextModel TextProofs TextProofs2 TreeModel TreeProofs CaliFileModel CaliFileProofs CaliFileProofs2 CaliFileProofs3 CaliFileProofs4 CaliFileProofs5 CaliFileProps ArithSpec AggModel AggSpec AggProofs AggProofs2 AggProofs3 AggProofs4 AggProofs5 AggProofs6 FilterModel QFileModel QFileSpec QFileProofs.
Open Scope N_scope.

(* registered names and number of nodes *)
Definition adds (names : list bytes) (k : nat) (d d' : mdb) : Prop :=
  (forall s a, get_attr d' s = Some a -> get_attr d s = Some a \/ In s names) /\ (length (d_nodes d') <= length (d_nodes d) + k)%nat.
Lemma adds_refl d : adds [] 0 d d. Proof. split; [auto|lia]. Qed.
Lemma adds_trans n1 n2 k1 k2 a b c : adds n1 k1 a b -> adds n2 k2 b c -> adds (n1 ++ n2) (k1 + k2) a c.
Proof.
  intros (A1 & A2) (B1 & B2). split; [|lia]. intros s x H. destruct (B1 s x H) as [H1|H1]; [|right; apply in_or_app; auto].
  destruct (A1 s x H1); [auto|right; apply in_or_app; auto].
Qed.
Lemma adds_mono n k n' k' a b : incl n n' -> (k <= k')%nat -> adds n k a b -> adds n' k' a b.
Proof. intros Hi Hk (A & B). split; [|lia]. intros s x H. destruct (A s x H); auto. Qed.
Lemma mte_adds l : forall d p, adds [] (length l) d (snd (make_tree_entry d l p)).
Proof.
  intros d p. split; [intros s a H; left; rewrite <- H; symmetry; apply get_attr_same, mte_attrs|]. revert d p.
  induction l as [|(a, v) l IH]; intros d p; cbn [make_tree_entry length snd]; [lia|].
  destruct (dfind d p a v); [specialize (IH d (n_id t)); lia|]. cbn [dcreate].
  match goal with |- context [make_tree_entry ?x l ?y] => specialize (IH x y); replace (length (d_nodes x)) with (S (length (d_nodes d))) in IH by (cbn [d_nodes]; rewrite app_length; cbn [length]; lia) end. lia.
Qed.
Lemma create_adds d name ty prop : adds [name] 2 d (snd (create_attribute d name ty prop)).
Proof.
  unfold create_attribute. destruct (alookup (d_attrs d) name) eqn:E; [apply (adds_mono [] 0); [intros ? []|lia|apply adds_refl]|].
  destruct (make_tree_entry d _ _) as (i, d1) eqn:Em. pose proof (mte_adds [(10, VInt prop); (8, VStr name)] d (match type_node ty with Some t => t | None => ROOT end)) as (_ & B).
  pose proof (mte_attrs [(10, VInt prop); (8, VStr name)] d (match type_node ty with Some t => t | None => ROOT end)) as C. rewrite Em in B, C. cbn [snd] in *. split; cbn [d_nodes]; [|exact B].
  intros s a H. unfold get_attr in H. cbn [d_attrs alookup] in H. destruct (beqb name s) eqn:Eb; [apply beqb_eq in Eb; subst; right; left; reflexivity|left]. rewrite C in H. exact H.
Qed.
Lemma make_attrs_adds t l : forall d, adds (map ka_name l) (2 * length l) d (snd (make_attrs d t l)).
Proof.
  induction l as [|k l IH]; intro d; cbn [make_attrs map length]; [apply adds_refl|]. unfold make_attr. pose proof (create_adds d (ka_name k) (match ka_type k with Some t0 => t0 | None => match t with Some t0 => attr_type d t0 | None => T_INV end end) (ka_prop k)) as H.
  destruct (create_attribute d _ _ _) as (i, d1). cbn [snd] in H. specialize (IH d1). destruct (make_attrs d1 t l) as (is, d2). cbn [snd] in *.
  eapply adds_mono; [| |exact (adds_trans _ _ _ _ _ _ _ H IH)]; [apply incl_refl|lia].
Qed.
Definition tnames (x : bytes * list kattr) : list bytes := map ka_name (snd x).
Lemma kmatch1_adds c d rec x : adds (tnames x) (2 * length (tnames x)) d (snd (kmatch1 c d rec x)).
Proof.
  unfold kmatch1, tnames. rewrite map_length. destruct (no_target c).
  - pose proof (make_attrs_adds None (snd x) d) as H. destruct (make_attrs d None (snd x)). exact H.
  - destruct (get_attr d (fst x)) as [t|]; [|apply (adds_mono [] 0); [intros ? []|lia|apply adds_refl]].
    pose proof (make_attrs_adds (Some t) (snd x) d) as H. destruct (make_attrs d (Some t) (snd x)). exact H.
Qed.
Lemma kmatch_l_adds c rec l : forall d b, adds (flat_map tnames l) (2 * length (flat_map tnames l)) d (snd (kmatch_l c d rec l b)).
Proof.
  induction l as [|x l IH]; intros d b; cbn [kmatch_l flat_map]; [apply adds_refl|]. pose proof (kmatch1_adds c d rec x) as H. destruct (kmatch1 c d rec x) as (m, d1). cbn [snd] in H.
  specialize (IH d1 (b + 10)%nat). destruct (kmatch_l c d1 rec l (b + 10)%nat) as (m2, d2). cbn [snd] in *.
  eapply adds_mono; [| |exact (adds_trans _ _ _ _ _ _ _ H IH)]; [apply incl_refl|rewrite app_length; lia].
Qed.
Definition knames (c : kcfg) : list bytes := flat_map tnames (kattrs c).
Lemma match_all_adds rec cs : forall d, adds (flat_map knames cs) (2 * length (flat_map knames cs)) d (snd (match_all d rec cs)).
Proof.
  induction cs as [|c cs IH]; intro d; cbn [match_all flat_map]; [apply adds_refl|]. pose proof (kmatch_l_adds c rec (kattrs c) d 0) as H. fold (knames c) in H. unfold kmatch.
  destruct (kmatch_l c d rec (kattrs c) 0) as (m, d1). cbn [snd] in H. specialize (IH d1). destruct (match_all d1 rec cs) as (ms, d2). cbn [snd] in *.
  eapply adds_mono; [| |exact (adds_trans _ _ _ _ _ _ _ H IH)]; [apply incl_refl|rewrite app_length; lia].
Qed.
Lemma result_names_eq q : flat_map knames (q_ker q) = result_names q. Proof. reflexivity. Qed.
Lemma make_key_adds d q rec key anc d2 : make_key d q rec = (key, anc, d2) -> adds [] (length (nonpath_part d q rec) + length (path_part d q rec)) d d2.
Proof.
  unfold make_key. set (np := nonpath_part d q rec). set (pp := path_part d q rec). set (imms := map _ _).
  assert (H1 : exists k1 d1, (match np with [] => (imms, d) | _ => let (i, d1) := make_tree_entry d np ROOT in (imms ++ [ERef i], d1) end) = (k1, d1) /\ adds [] (length np) d d1).
  { destruct np as [|x np']; [exists imms, d; split; [reflexivity|apply adds_refl]|]. pose proof (mte_adds (x :: np') d ROOT) as H. destruct (make_tree_entry d (x :: np') ROOT) as (i, d1). exists (imms ++ [ERef i]), d1. auto. }
  destruct H1 as (k1 & d1 & -> & H1). destruct pp as [|y pp'].
  - intro E. assert (d1 = d2) by congruence. subst d2. cbn [length]. eapply adds_mono; [apply incl_refl| |exact H1]. lia.
  - pose proof (mte_adds (y :: pp') d1 ROOT) as H. destruct (make_tree_entry d1 (y :: pp') ROOT) as (i, d3). intro E. assert (d3 = d2) by congruence. subst d3. exact (adds_trans _ _ _ _ _ _ _ H1 H).
Qed.
Lemma filter_two {A} (f : A -> bool) l : (length (filter (fun x => negb (f x)) l) + length (filter f l) = length l)%nat.
Proof. induction l as [|x l IH]; [reflexivity|]. cbn [filter]. destruct (f x); cbn [negb length]; lia. Qed.
Lemma sel_len d q rec : (length (nonpath_part d q rec) + length (path_part d q rec) = length (sel_nodes d q rec))%nat.
Proof. unfold nonpath_part, path_part. rewrite !rev_length. apply (filter_two (fun x => is_nested d (fst x))). Qed.
Lemma process_adds q d g rec d' g' : process q (d, g) rec = (d', g') -> adds (result_names q) (length (sel_nodes d q rec) + 2 * length (result_names q)) d d'.
Proof.
  unfold process, mk_step. cbn [fst snd]. destruct (make_key d q rec) as ((key, anc), d1) eqn:Ek. pose proof (match_all_adds rec (q_ker q) d1) as H. destruct (match_all d1 rec (q_ker q)) as (ms, d2). cbn [snd] in H.
  intro E. assert (d2 = d') by congruence. subst d2. rewrite result_names_eq in H. pose proof (make_key_adds _ _ _ _ _ _ Ek) as H1. rewrite sel_len in H1. exact (adds_trans _ _ _ _ _ _ _ H1 H).
Qed.

(* ---------------- records of the query ---------------- *)
Section Rec.
Variables (D : dict) (q : qspec) (d : mdb).
Hypothesis Hw : wf d.
Hypothesis Hs : size_ok d.
Notation aokd := (aok D (q_keys q) d).
Notation goodd := (good D (q_keys q) d).

Lemma ref_node i l p : i < N.of_nat (length (d_nodes d)) -> npath d i l -> Forall2 aokd (rev l) p ->
  exists n l0 y p0, dnode d i = Some n /\ i <> INV_ID /\ l = l0 ++ [(n_attr n, n_val n)] /\ p = y :: p0 /\ aokd (n_attr n, n_val n) y.
Proof.
  intros Hi Hl HF. destruct Hl as [|i n l0 Hne Hn Hl0]; [unfold size_ok in Hs; lia|]. rewrite rev_app_distr in HF. cbn [rev app] in HF.
  destruct p as [|y p0]; inversion HF; subst. exists n, l0, y, p0. auto.
Qed.
Lemma good_entry_ok e w : goodd e w -> entry_ok d e.
Proof.
  intros [a s v H|i p l Hi Hl HF]; cbn [entry_ok].
  - destruct (ao_call _ _ _ _ _ H) as (n & H1 & H2 & H3). unfold is_attr. rewrite H1, H2. reflexivity.
  - split; [exact Hi|]. intros l' Hl'. rewrite (npath_fun _ _ _ Hl' _ Hl). apply Forall_forall. intros x Hx. apply in_rev in Hx. destruct (AggProofs6.F2_l _ _ _ HF x Hx) as (y & _ & (Hy & _)). pose proof (ao_min _ _ _ _ _ Hy). lia.
Qed.
Lemma good_rec_ok rec w : Forall2 goodd rec w -> Forall (entry_ok d) rec.
Proof. induction 1; constructor; auto. eapply good_entry_ok; eauto. Qed.
Lemma good_refpath rec w : Forall2 goodd rec w -> exists l, refpath d rec l /\ Forall2 aokd l (wpath w).
Proof.
  induction 1 as [|e x rec w He Hr (l & IH1 & IH2)]; [exists []; split; constructor|]. destruct He as [a s v H|i p l0 Hi Hl HF]; cbn [wpath].
  - exists l. split; [constructor|]; auto.
  - exists (l ++ l0). split; [constructor; auto|]. apply Forall2_app; [exact IH2|]. rewrite <- (rev_involutive l0). clear - HF. induction HF as [|x y a b H HF IH]; [constructor|]. cbn [rev]. apply Forall2_app; auto.
Qed.
Lemma filter_len {A} (f : A -> bool) l : (length (filter f l) <= length l)%nat.
Proof. induction l as [|x l IH]; [auto|]. cbn [filter]. destruct (f x); cbn [length]; lia. Qed.
Lemma good_sel rec w : Forall2 goodd rec w -> (length (sel_nodes d q rec) <= length (wpath w))%nat.
Proof.
  intros H. destruct (good_refpath rec w H) as (l & Hl & HF). rewrite (sel_nodes_ok d q rec l (proj1 Hw) Hs (good_rec_ok _ _ H) Hl). rewrite filter_len, rev_length, (AggProofs6.F2_len _ _ _ HF). lia.
Qed.
Lemma aok_name s a t : attr_ok D (q_keys q) d s a -> get_attr d t = Some a -> t = s.
Proof. intros H Ht. exact (get_attr_inj d t s a (proj2 Hw) Ht (ao_get _ _ _ _ _ H)). Qed.
Lemma good_targets rec w : fresh D q -> Forall2 goodd rec w -> rec_ok d q rec.
Proof.
  intros Hf H. split; [exact (good_rec_ok _ _ H)|]. intros c x k a e Hc Hnt Hx Hg Hk Ha He Ee.
  assert (Hin : In (ka_name k) (result_names q)). { unfold result_names. apply in_flat_map. exists c. split; [exact Hc|]. apply in_flat_map. exists x. split; [exact Hx|]. apply in_map, Hk. }
  assert (No : forall s, attr_ok D (q_keys q) d s a -> False). { intros s Hs'. pose proof (aok_name s a (ka_name k) Hs' Ha). subst s. destruct (ao_dict _ _ _ _ _ Hs') as (M & HM). rewrite (Hf _ Hin) in HM. discriminate HM. }
  destruct (AggProofs6.F2_l _ _ _ H e He) as (y & _ & Hy). destruct Hy as [b s v Hb|i p l Hi Hl HF].
  - unfold e_id in Ee. destruct (by_attribute c); cbn [e_attr entry_node] in Ee; subst b; exact (No s Hb).
  - destruct (ref_node i l p Hi Hl HF) as (n & l0 & y & p0 & Hn & _ & _ & _ & (Hy & _)). cbn [fst] in Hy. unfold e_id in Ee. destruct (by_attribute c); cbn [e_attr entry_node] in Ee.
    + rewrite Hn in Ee. subst a. exact (No _ Hy).
    + subst i. destruct (nm_some d (proj2 Hw) _ _ Ha) as (n' & E1 & E2 & _). assert (n' = n) by congruence. subst n'. pose proof (ao_min _ _ _ _ _ Hy). lia.
Qed.

(* ---------------- WHERE ---------------- *)
Definition delems (e : entry) : list (N * value) := match e with ERef i => node_path d i | EImm a v => [(a, v)] end.
Lemma good_elems rec w : Forall2 goodd rec w -> Forall2 aokd (flat_map delems rec) (flat_map elems w).
Proof.
  induction 1 as [|e x rec w He Hr IH]; [constructor|]. cbn [flat_map]. apply Forall2_app; [|exact IH]. destruct He as [a s v H|i p l Hi Hl HF]; cbn [delems elems].
  - constructor; [|constructor]. split; auto.
  - destruct (ref_node i l p Hi Hl HF) as (n & _ & _ & _ & _ & Hne & _). rewrite (node_path_ok d i l (proj1 Hw) Hs Hl Hne). exact HF.
Qed.
Lemma any_match_elems rec m : any_match d rec m = existsb (fun x => m (fst x) (snd x)) (flat_map delems rec).
Proof.
  unfold any_match. induction rec as [|e rec IH]; [reflexivity|]. cbn [existsb flat_map]. rewrite existsb_app, IH. f_equal. destruct e as [i|a v]; cbn [have_match delems]; [reflexivity|]. cbn [existsb fst snd]. rewrite orb_false_r. reflexivity.
Qed.
Lemma values_exists (P : value -> bool) s L : existsb P (values s L) = existsb (fun y => beqb (fst y) s && P (snd y)) L.
Proof.
  induction L as [|y L IH]; [reflexivity|]. unfold values in *. cbn [flat_map existsb]. rewrite existsb_app, IH. destruct (beqb (fst y) s); [cbn [existsb andb]; rewrite orb_false_r; reflexivity|reflexivity].
Qed.
Lemma clause_same x y s : aokd x y -> (fst x =? match get_attr d s with Some a => a | None => INV_ID end) = beqb (fst y) s.
Proof.
  intros (Hx & _). destruct (get_attr d s) as [a|] eqn:E.
  - destruct (N.eqb_spec (fst x) a) as [E0|Hne].
    + symmetry. apply beqb_eq. symmetry. rewrite E0 in Hx. exact (aok_name _ _ _ Hx E).
    + symmetry. destruct (beqb (fst y) s) eqn:Eb; [|reflexivity]. apply beqb_eq in Eb. subst s. exfalso. apply Hne. pose proof (ao_get _ _ _ _ _ Hx). congruence.
  - pose proof (ao_lt _ _ _ _ _ Hx) as Hlt. unfold size_ok in Hs. destruct (N.eqb_spec (fst x) INV_ID); [lia|]. symmetry. destruct (beqb (fst y) s) eqn:Eb; [|reflexivity]. apply beqb_eq in Eb. subst s. pose proof (ao_get _ _ _ _ _ Hx). congruence.
Qed.
Lemma match_values parse rec w c (P : value -> value -> bool) : Forall2 goodd rec w ->
  any_match d rec (fun a v => (a =? clause_attr d c) && P v (clause_value parse d c)) = existsb (fun v => P v (parse (dc_type D (c_name c)) (c_text c))) (values (c_name c) (flat_map elems w)).
Proof.
  intros H. rewrite any_match_elems, values_exists. pose proof (good_elems rec w H) as HF. induction HF as [|x y L L' Hx HF IH]; [reflexivity|]. cbn [existsb]. f_equal; [|exact IH].
  unfold clause_attr. rewrite (clause_same x y (c_name c) Hx). destruct (beqb (fst y) (c_name c)) eqn:Eb; [|reflexivity]. cbn [andb]. apply beqb_eq in Eb.
  destruct Hx as (Hx & Hv). rewrite Hv. unfold clause_value. rewrite <- Eb. rewrite (ao_get _ _ _ _ _ Hx). rewrite (ao_type _ _ _ _ _ Hx). reflexivity.
Qed.
Lemma match_exists rec w c : Forall2 goodd rec w -> any_match d rec (fun a _ => a =? clause_attr d c) = existsb (fun _ => true) (values (c_name c) (flat_map elems w)).
Proof.
  intros H. rewrite any_match_elems, values_exists. pose proof (good_elems rec w H) as HF. induction HF as [|x y L L' Hx HF IH]; [reflexivity|]. cbn [existsb]. f_equal; [|exact IH].
  unfold clause_attr. rewrite (clause_same x y (c_name c) Hx). rewrite andb_true_r. reflexivity.
Qed.
Lemma pass_names parse conds rec w : Forall2 goodd rec w -> pass parse d conds rec = forallb (holds parse D w) conds.
Proof.
  intros H. unfold pass. induction conds as [|c conds IH]; [reflexivity|]. cbn [forallb]. rewrite IH. f_equal. unfold pass1, holds. destruct (c_op c); try reflexivity.
  - exact (match_exists rec w c H).
  - f_equal. exact (match_exists rec w c H).
  - exact (match_values parse rec w c veqb H).
  - f_equal. exact (match_values parse rec w c veqb H).
  - exact (match_values parse rec w c vltb H).
  - exact (match_values parse rec w c vgtb H).
  - exact (match_values parse rec w c (fun v cv => vltb v cv || veqb v cv) H).
  - exact (match_values parse rec w c (fun v cv => vgtb v cv || veqb v cv) H).
Qed.
End Rec.
