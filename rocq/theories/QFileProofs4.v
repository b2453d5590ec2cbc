(* Proofs: groups by attribute id and groups by attribute name *)
From Coq Require Import Sorting.Sorted.
From Verif Require Import Base VariantModel VariantSpec NamesModel NamesProps TextModel TreeModel TreeProofs CaliFileModel CaliFileProofs CaliFileProofs2 CaliFileProofs3 CaliFileProofs4 CaliFileProps ArithSpec AggModel AggSpec AggProofs AggProofs2 AggProofs3 AggProofs4 AggProofs5 AggProofs6 FilterModel QFileModel QFileSpec QFileProofs QFileProofs2.
Open Scope N_scope.

(* ---------------- sorting ---------------- *)
Definition at_ (a : N) (l : list (N * value)) : list (N * value) := filter (fun x => fst x =? a) l.
Lemma at_app a l m : at_ a (l ++ m) = at_ a l ++ at_ a m. Proof. apply filter_app. Qed.
Lemma at_none a l : Forall (fun x => fst x <> a) l -> at_ a l = [].
Proof. induction 1 as [|x l H HF IH]; [reflexivity|]. unfold at_ in *. cbn [filter]. destruct (N.eqb_spec (fst x) a); [contradiction|exact IH]. Qed.
Lemma ins_at a x l : lsorted l -> at_ a (ins_sorted x l) = at_ a l ++ at_ a [x].
Proof.
  induction 1 as [|y l Hl IH Hy]; [reflexivity|]. cbn [ins_sorted]. destruct (N.ltb_spec (fst x) (fst y)) as [H|H].
  - change (x :: y :: l) with ([x] ++ (y :: l)). rewrite at_app. destruct (N.eq_dec (fst x) a) as [E|E].
    + rewrite (at_none a (y :: l)); [rewrite app_nil_r; reflexivity|]. constructor; [lia|]. eapply Forall_impl; [|exact Hy]. intros z Hz. unfold le1 in Hz. lia.
    + rewrite (at_none a [x]) by (constructor; auto). rewrite app_nil_r. reflexivity.
  - change (y :: ins_sorted x l) with ([y] ++ ins_sorted x l). rewrite at_app, IH, app_assoc, <- at_app. reflexivity.
Qed.
Lemma sort_at_acc a l : forall acc, lsorted acc -> at_ a (fold_left (fun acc x => ins_sorted x acc) l acc) = at_ a acc ++ at_ a l.
Proof.
  induction l as [|x l IH]; intros acc Ha; cbn [fold_left]; [cbn; rewrite app_nil_r; reflexivity|]. rewrite IH by (apply ins_sorted_ok; auto). rewrite (ins_at a x acc Ha), <- app_assoc. f_equal. rewrite <- at_app. reflexivity.
Qed.
Lemma sort_at a l : at_ a (sort_imms l) = at_ a l.
Proof. unfold sort_imms. rewrite sort_at_acc by constructor. reflexivity. Qed.
Lemma sorted_ext l : lsorted l -> forall l', lsorted l' -> (forall a, map snd (at_ a l) = map snd (at_ a l')) -> l = l'.
Proof.
  induction 1 as [|x l Hl IH Hx]; intros l' Hl' H.
  - destruct l' as [|y l']; [reflexivity|]. specialize (H (fst y)). unfold at_ in H. cbn [filter map] in H. rewrite N.eqb_refl in H. discriminate H.
  - destruct Hl' as [|y l' Hl' Hy].
    { specialize (H (fst x)). unfold at_ in H. cbn [filter map] in H. rewrite N.eqb_refl in H. discriminate H. }
    assert (E : fst x = fst y).
    { destruct (N.lt_trichotomy (fst x) (fst y)) as [L|[E|L]]; [exfalso|exact E|exfalso].
      - specialize (H (fst x)). rewrite (at_none (fst x) (y :: l')) in H; [unfold at_ in H; cbn [filter map] in H; rewrite N.eqb_refl in H; discriminate H|].
        constructor; [lia|]. eapply Forall_impl; [|exact Hy]. intros z Hz. unfold le1 in Hz. lia.
      - specialize (H (fst y)). rewrite (at_none (fst y) (x :: l)) in H; [unfold at_ in H; cbn [filter map] in H; rewrite N.eqb_refl in H; discriminate H|].
        constructor; [lia|]. eapply Forall_impl; [|exact Hx]. intros z Hz. unfold le1 in Hz. lia. }
    assert (E2 : snd x = snd y). { specialize (H (fst x)). unfold at_ in H. cbn [filter map] in H. rewrite N.eqb_refl, <- E, N.eqb_refl in H. cbn [map] in H. injection H as H _. exact H. }
    f_equal; [destruct x, y; cbn [fst snd] in *; congruence|]. apply IH; [exact Hl'|]. intro a. specialize (H a). unfold at_ in *. cbn [filter] in H. rewrite <- E in H. destruct (fst x =? a); [cbn [map] in H; injection H as _ H; exact H|exact H].
Qed.

Section Groups.
Variables (D : dict) (q : qspec) (d : mdb).
Hypothesis Hw : wf d.
Hypothesis Hs : size_ok d.
Notation aokd := (aok D (q_keys q) d).
Notation goodd := (good D (q_keys q) d).

Lemma aok_fun x y z : aokd x y -> aokd x z -> y = z.
Proof.
  intros (A1 & A2) (B1 & B2). assert (fst y = fst z) by exact (get_attr_inj d _ _ _ (proj2 Hw) (ao_get _ _ _ _ _ A1) (ao_get _ _ _ _ _ B1)). destruct y, z; cbn [fst snd] in *; congruence.
Qed.
Lemma aok_inj x y z : aokd x z -> aokd y z -> x = y.
Proof. intros (A1 & A2) (B1 & B2). pose proof (ao_get _ _ _ _ _ A1). pose proof (ao_get _ _ _ _ _ B1). destruct x, y; cbn [fst snd] in *; congruence. Qed.
Lemma aoks_fun l m : Forall2 aokd l m -> forall m', Forall2 aokd l m' -> m = m'.
Proof. induction 1 as [|x y l m H HF IH]; intros m' H'; inversion H'; subst; [reflexivity|]. f_equal; [eapply aok_fun; eauto|auto]. Qed.
Lemma aoks_inj l m : Forall2 aokd l m -> forall l', Forall2 aokd l' m -> l = l'.
Proof. induction 1 as [|x y l m H HF IH]; intros m' H'; inversion H'; subst; [reflexivity|]. f_equal; [eapply aok_inj; eauto|auto]. Qed.
Lemma aok_key x y : aokd x y -> key_attr d q (fst x) <-> in_keys q (fst y) = true.
Proof.
  intros (A & _). unfold in_keys. rewrite existsb_exists. split.
  - intros (s & k & Hin & Hk & [E|(l & v & Hl & Hv)]).
    + exists s. split; [exact Hin|]. apply beqb_eq. rewrite <- E in Hk. symmetry. exact (get_attr_inj d _ _ _ (proj2 Hw) Hk (ao_get _ _ _ _ _ A)).
    + exfalso. exact (ao_keys _ _ _ _ _ A l s k v Hl Hin Hk Hv).
  - intros (s & Hin & Eb). apply beqb_eq in Eb. subst s. exists (fst y), (fst x). split; [exact Hin|]. split; [exact (ao_get _ _ _ _ _ A)|auto].
Qed.
Lemma aok_grouped x y : aokd x y -> grouped d q (fst x) <-> in_group D q (fst y) = true.
Proof.
  intros A. unfold grouped, in_group. rewrite !orb_true_iff, andb_true_iff, (aok_key x y A), (ao_nest _ _ _ _ _ (proj1 A)). tauto.
Qed.
Lemma keep_rel {A B} (P : A -> Prop) (f : B -> bool) (r : A -> B -> Prop) : (forall x y, r x y -> P x <-> f y = true) -> forall l m, Forall2 r l m -> forall l', keep P l l' -> Forall2 r l' (filter f m).
Proof.
  intros Hp. induction 1 as [|x y l m H HF IH]; intros l' K; [inversion K; constructor|]. cbn [filter]. inversion K as [|x' ? l1 Hx Hk|x' ? l1 Hx Hk]; subst.
  - rewrite (proj1 (Hp x y H) Hx). constructor; auto.
  - destruct (f y) eqn:E; [exfalso; apply Hx, (Hp x y H), E|auto].
Qed.

(* values of the attribute k *)
Definition idvals (k : bytes) (l : list (N * value)) : list value := match get_attr d k with Some a => map snd (at_ a l) | None => [] end.
Lemma idvals_values k l m : Forall2 aokd l m -> idvals k l = values k m.
Proof.
  unfold idvals. induction 1 as [|x y l m H HF IH]; [destruct (get_attr d k); reflexivity|]. unfold values. cbn [flat_map]. fold (values k m). rewrite <- IH.
  destruct (get_attr d k) as [a|] eqn:E.
  - unfold at_. cbn [filter]. pose proof (clause_same D q d Hw Hs x y k H) as C. rewrite E in C. rewrite C. destruct (beqb (fst y) k); [|reflexivity]. cbn [map app]. f_equal. exact (proj2 H).
  - pose proof (clause_same D q d Hw Hs x y k H) as C. rewrite E in C. assert (fst x =? INV_ID = false). { apply N.eqb_neq. pose proof (ao_lt _ _ _ _ _ (proj1 H)). unfold size_ok in Hs. lia. }
    rewrite H0 in C. rewrite <- C. reflexivity.
Qed.
Record krel (K : gkey) (G : ngroup) : Prop := mkkrel {
  kr_np : Forall2 aokd (gk_np K) (ng_np G);
  kr_path : Forall2 aokd (gk_path K) (ng_path G);
  kr_sorted : lsorted (gk_imm K);
  kr_keys : Forall (fun x => exists y, aokd x y /\ In (fst y) (q_keys q)) (gk_imm K);
  kr_imm : ng_imm G = map (fun k => idvals k (gk_imm K)) (q_keys q) }.
Lemma map_in_eq {A B} (f g : A -> B) l : map f l = map g l -> forall x, In x l -> f x = g x.
Proof. induction l as [|y l IH]; intros H x []; cbn [map] in H; injection H as H1 H2; [subst; exact H1|auto]. Qed.
Lemma imm_inj a b : lsorted a -> lsorted b -> Forall (fun x => exists y, aokd x y /\ In (fst y) (q_keys q)) a -> Forall (fun x => exists y, aokd x y /\ In (fst y) (q_keys q)) b ->
  map (fun k => idvals k a) (q_keys q) = map (fun k => idvals k b) (q_keys q) -> a = b.
Proof.
  intros Sa Sb Fa Fb H. apply sorted_ext; auto. intro n.
  assert (Z : (exists k, In k (q_keys q) /\ get_attr d k = Some n) \/ (forall k, In k (q_keys q) -> get_attr d k <> Some n)).
  { clear. induction (q_keys q) as [|k ks IH]; [right; intros ? []|]. destruct IH as [(k' & I & E)|IH]; [left; exists k'; split; [right; exact I|exact E]|].
    destruct (get_attr d k) as [m|] eqn:E; [destruct (N.eq_dec m n) as [->|Hne]; [left; exists k; split; [left; reflexivity|exact E]|]|]; right; intros k' [<-|I]; auto; congruence. }
  destruct Z as [(k & I & E)|Z].
  - pose proof (map_in_eq _ _ _ H k I) as Hk. unfold idvals in Hk. rewrite E in Hk. exact Hk.
  - assert (No : forall l, Forall (fun x => exists y, aokd x y /\ In (fst y) (q_keys q)) l -> at_ n l = []).
    { intros l Hl. apply at_none. eapply Forall_impl; [|exact Hl]. intros x (y & Hy & Iy) E. apply (Z (fst y) Iy). rewrite <- E. exact (ao_get _ _ _ _ _ (proj1 Hy)). }
    rewrite (No a Fa), (No b Fb). reflexivity.
Qed.
Lemma krel_fun K G G' : krel K G -> krel K G' -> G = G'.
Proof.
  intros [A1 A2 A3 A4 A5] [B1 B2 B3 B4 B5]. destruct G as [g1 g2 g3], G' as [h1 h2 h3]. cbn [ng_imm ng_np ng_path] in *. f_equal; [congruence|eapply aoks_fun; eauto|eapply aoks_fun; eauto].
Qed.
Lemma krel_inj K K' G : krel K G -> krel K' G -> K = K'.
Proof.
  intros [A1 A2 A3 A4 A5] [B1 B2 B3 B4 B5]. destruct K as [g1 g2 g3], K' as [h1 h2 h3]. cbn [gk_imm gk_np gk_path] in *. f_equal; [apply imm_inj; auto; congruence|eapply aoks_inj; eauto|eapply aoks_inj; eauto].
Qed.
Lemma krel_iff K K' G G' : krel K G -> krel K' G' -> K = K' <-> G = G'.
Proof. intros H H'. split; intros ->; [eapply krel_fun|eapply krel_inj]; eauto. Qed.

(* the group of a record *)
Lemma group_rel rec w l K : refpath d rec l -> Forall2 aokd l (wpath w) -> Forall2 aokd (imms_of rec) (wimms w) -> group_key d q rec K -> krel K (group_of D q w).
Proof.
  intros Hl HF HI (l' & m & Hl' & Knp & Kp & Km & Ei). rewrite (refpath_fun _ _ _ Hl' _ Hl) in Knp, Kp. clear l' Hl'. unfold group_of. constructor; cbn [ng_imm ng_np ng_path].
  - eapply keep_rel; [|exact HF|exact Knp]. intros x y A. cbv beta. rewrite (aok_grouped x y A), (ao_nest _ _ _ _ _ (proj1 A)), andb_true_iff, negb_true_iff. tauto.
  - eapply keep_rel; [|exact HF|exact Kp]. intros x y A. cbv beta. rewrite (aok_grouped x y A), (ao_nest _ _ _ _ _ (proj1 A)), andb_true_iff. tauto.
  - rewrite Ei. apply sort_sorted.
  - rewrite Ei. pose proof (sort_perm m) as P. eapply Permutation.Permutation_Forall; [exact P|]. apply Forall_forall. intros x Hx.
    destruct (AggProofs6.F2_l _ _ _ HI x (keep_incl _ _ _ Km x Hx)) as (y & _ & Hy). exists y. split; [exact Hy|].
    pose proof (proj1 (Forall_forall _ _) (keep_sat _ _ _ Km) x Hx) as Kx. apply (aok_key x y Hy) in Kx. apply existsb_exists in Kx as (s & Is & Eb). apply beqb_eq in Eb. subst s. exact Is.
  - apply map_ext_in. intros k Hk. rewrite <- (idvals_values k _ _ HI), Ei. unfold idvals. destruct (get_attr d k) as [a|] eqn:E; [|reflexivity]. rewrite sort_at. f_equal. clear - Km E Hk.
    induction Km as [|x l l' Hx Km IH|x l l' Hx Km IH]; [reflexivity| |]; unfold at_ in *; cbn [filter]; destruct (N.eqb_spec (fst x) a) as [Ex|Ex]; try (rewrite IH; reflexivity); try exact IH.
    exfalso. apply Hx. exists k, a. auto.
Qed.
Lemma good_imms rec w : Forall2 goodd rec w -> Forall2 aokd (imms_of rec) (wimms w).
Proof. induction 1 as [|e x rec w He Hr IH]; [constructor|]. destruct He as [a s v H|i p l Hi Hl HF]; cbn; [constructor; [split; auto|exact IH]|exact IH]. Qed.
Lemma good_group rec w K : Forall2 goodd rec w -> group_key d q rec K -> krel K (group_of D q w).
Proof. intros H HK. destruct (good_refpath D q d rec w H) as (l & Hl & HF). exact (group_rel rec w l K Hl HF (good_imms _ _ H) HK). Qed.
Lemma good_key rec w : Forall2 goodd rec w -> exists K, group_key d q rec K /\ krel K (group_of D q w).
Proof. intro H. exists (key_of d q rec). assert (HK : group_key d q rec (key_of d q rec)) by exact (key_of_ok d q rec Hw Hs (good_rec_ok D q d _ _ H)). split; [exact HK|exact (good_group _ _ _ H HK)]. Qed.

(* enclosing groups *)
Lemma encl_rel A K GA GK : krel A GA -> krel K GK -> encloses A K <-> encl GA GK.
Proof.
  intros [A1 A2 A3 A4 A5] [B1 B2 B3 B4 B5]. unfold encloses, encl. split.
  - intros (E1 & E2 & E3 & x & l & E4). split; [rewrite A5, B5, E1; reflexivity|]. split; [rewrite E2 in A1; eapply aoks_fun; eauto|]. split.
    + intro Z. rewrite Z in A2. inversion A2. congruence.
    + rewrite E4 in B2. apply Forall2_app_inv_l in B2 as (m1 & m2 & M1 & M2 & ->). inversion M2 as [|? y ? m3 Hy M3]; subst. exists y, m3. f_equal. eapply aoks_fun; eauto.
  - intros (E1 & E2 & E3 & x & l & E4). split; [apply imm_inj; auto; congruence|]. split; [rewrite E2 in A1; eapply aoks_inj; eauto|]. split.
    + intro Z. rewrite Z in A2. inversion A2. congruence.
    + rewrite E4 in B2. apply Forall2_app_inv_r in B2 as (m1 & m2 & M1 & M2 & E5). inversion M2 as [|y ? m3 ? Hy M3]; subst. exists y, m3. rewrite E5. f_equal. eapply aoks_inj; eauto.
Qed.
Lemma encl_down A K GK : krel K GK -> encloses A K -> exists GA, krel A GA /\ encl GA GK.
Proof.
  intros HK HE. pose proof HE as (E1 & E2 & E3 & x & l & E4). pose proof HK as [B1 B2 B3 B4 B5]. rewrite E4 in B2. apply Forall2_app_inv_l in B2 as (m1 & m2 & M1 & M2 & _).
  assert (HA : krel A (mkng (ng_imm GK) (ng_np GK) m1)). { constructor; cbn [ng_imm ng_np ng_path]; [rewrite E2; exact B1|exact M1|rewrite E1; exact B3|rewrite E1; exact B4|rewrite E1; exact B5]. }
  exists (mkng (ng_imm GK) (ng_np GK) m1). split; [exact HA|]. exact (proj1 (encl_rel _ _ _ _ HA HK) HE).
Qed.
Lemma encl_up GA K GK : krel K GK -> encl GA GK -> exists A, krel A GA /\ encloses A K.
Proof.
  intros HK HE. pose proof HE as (E1 & E2 & E3 & x & l & E4). pose proof HK as [B1 B2 B3 B4 B5]. rewrite E4 in B2. apply Forall2_app_inv_r in B2 as (m1 & m2 & M1 & M2 & _).
  assert (HA : krel (mkgk (gk_imm K) (gk_np K) m1) GA). { constructor; cbn [gk_imm gk_np gk_path]; [rewrite E2; exact B1|exact M1|exact B3|exact B4|rewrite E1; exact B5]. }
  exists (mkgk (gk_imm K) (gk_np K) m1). split; [exact HA|]. exact (proj2 (encl_rel _ _ _ _ HA HK) HE).
Qed.
Lemma encl_in_ok A G : encl_in A G = true <-> encl A G.
Proof.
  unfold encl_in, encl. destruct (list_eq_dec (list_eq_dec value_eq_dec) (ng_imm A) (ng_imm G)) as [E|E]; [|split; [discriminate|tauto]].
  destruct (ngroup_eq_dec _ _) as [E2|E2].
  - injection E2 as E2 E3. rewrite andb_true_iff, negb_true_iff, Nat.eqb_neq, Nat.ltb_lt. split.
    + intros (L1 & L2). split; [exact E|]. split; [exact E2|]. split; [intro Z; rewrite Z in L1; cbn in L1; congruence|].
      destruct (skipn (length (ng_path A)) (ng_path G)) as [|x l] eqn:Es; [apply (f_equal (@length _)) in Es; rewrite skipn_length in Es; cbn in Es; lia|]. exists x, l. rewrite <- (firstn_skipn (length (ng_path A)) (ng_path G)) at 1. rewrite Es. f_equal. symmetry. exact E3.
    + intros (_ & _ & N1 & x & l & E4). split; [destruct (ng_path A); [congruence|cbn; lia]|]. rewrite E4, app_length. cbn [length]. lia.
  - split; [discriminate|]. intros (_ & F1 & _ & x & l & F2). exfalso. apply E2. rewrite F2, firstn_app, Nat.sub_diag, firstn_all. cbn [firstn]. rewrite app_nil_r, F1. reflexivity.
Qed.
Lemma encl_irr A : ~ encl A A.
Proof. intros (_ & _ & _ & x & l & E). apply (f_equal (@length _)) in E. rewrite app_length in E. cbn [length] in E. lia. Qed.
End Groups.
