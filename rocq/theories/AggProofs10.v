(* Merging partial results: aggregating the outputs of two aggregations gives the aggregation of all records *)
From Verif Require Import Base VariantModel VariantSpec NamesModel NamesProps TextModel TreeModel TreeProofs CaliFileModel CaliFileProofs2 CaliFileProofs3 CaliFileProofs4 FloatModel ArithSpec ArithProofs AggModel AggSpec AggSpec2 AggProofs AggProofs2 AggProofs3 AggProofs4 AggProofs5 AggProofs6 AggProofs7 AggProofs8 AggProofs9.
From Coq Require Import Permutation Sorted.
Open Scope N_scope.

Lemma contrib_plain d q c K r : is_incl c = false -> contrib d q c K r = if gkey_eq_dec K (key_of d q r) then [(true, smatch c d r)] else [].
Proof. intro H. unfold contrib. rewrite H. cbn [andb]. destruct (gkey_eq_dec K (key_of d q r)); auto. destruct (encl_dec K (key_of d q r)); auto. Qed.
Lemma mergeable_plain d recs c : mergeable d recs c -> is_incl c = false.
Proof. destruct c; cbn; auto; destruct incl; tauto. Qed.
Definition klist (d : mdb) (q : qspec) (K : gkey) (recs : list (list entry)) : list (list entry) := filter (fun r => if gkey_eq_dec K (key_of d q r) then true else false) recs.
Lemma contribs_plain d q c K recs : is_incl c = false -> flat_map (contrib d q c K) recs = map (fun r => (true, smatch c d r)) (klist d q K recs).
Proof.
  intro H. induction recs as [|r recs IH]; cbn [flat_map klist filter]; auto. rewrite contrib_plain by auto. fold (klist d q K recs). destruct (gkey_eq_dec K (key_of d q r)); cbn [app map]; rewrite IH; auto.
Qed.
(* ---------- matches by name ---------- *)
Lemma single_match c x ks d r : kattrs c = [(x, ks)] -> smatch c d r = smatch1 c d r (x, ks).
Proof. intro E. unfold smatch. rewrite E. cbn [smatch_l]. rewrite app_nil_r. induction (smatch1 c d r (x, ks)) as [|(a, b) l IH]; cbn [map fst snd]; [reflexivity|]. f_equal. exact IH. Qed.
Lemma count_vals d c r : match c with CCount | CScount _ _ => True | _ => False end -> cnt1 (smatch c d r) = counts_for d c r.
Proof.
  intro Hc. assert (E : map snd (smatch c d r) = avals d [count_name c] r).
  { assert (X : forall n ty pr, match_rec c d (flat_map (kid d) [mkka 1 n ty pr]) r = match_rec c d (flat_map (kid d) [mkka 1 n ty pr]) r -> map snd (match_rec c d (flat_map (kid d) [mkka 1 n ty pr]) r) = avals d [n] r).
    { intros n ty pr _. apply match_avals; [destruct c; try contradiction; reflexivity|]. intro a. unfold is_named. cbn [flat_map existsb]. unfold kid. cbn [ka_name ka_role]. rewrite app_nil_r, orb_false_r. destruct (get_attr d n) as [b|]; cbn [In]; [|split; [intros (k & [])|discriminate]]. rewrite N.eqb_eq. split; [intros (k & [E|[]]); congruence|intros ->; exists 1%nat; auto]. }
    destruct c; try contradiction; [rewrite (single_match CCount _ _ d r eq_refl)|rewrite (single_match (CScount arg scale) _ _ d r eq_refl)]; unfold smatch1; cbn [no_target snd count_name]; eapply X; reflexivity. }
  unfold cnt1, counts_for. rewrite <- E. destruct (smatch c d r) as [|(ro, v) ms]; reflexivity.
Qed.
Lemma name_neq d n m a b : names_ok d -> get_attr d n = Some a -> get_attr d m = Some b -> n <> m -> (a =? b) = false.
Proof. intros Hn A B Hne. apply N.eqb_neq. intros ->. apply Hne. exact (get_attr_inj d n m b Hn A B). Qed.
Lemma len_neq (p x : bytes) : p <> [] -> p ++ x <> x.
Proof. intros Hp E. apply (f_equal (@length N)) in E. rewrite app_length in E. destruct p; [auto|cbn in E; lia]. Qed.
Lemma pre_neq (p p' x : bytes) : p <> p' -> p ++ x <> p' ++ x.
Proof. intros Hp E. apply app_inv_tail in E. auto. Qed.
Lemma avg_vals d x r : names_ok d -> get_attr d x <> None -> nsum (map acnt (smatch (CAvg x) d r)) = avg_count d x r /\ asum (smatch (CAvg x) d r) = avals d [x; p_avgsum ++ x] r.
Proof.
  intros Hn Hx. rewrite (single_match (CAvg x) _ _ _ _ eq_refl). unfold smatch1. cbn [no_target fst snd]. destruct (get_attr d x) as [t|] eqn:Et; [|congruence].
  cbn [flat_map]. rewrite app_nil_r. unfold avg_count. induction r as [|e r (IH1 & IH2)]; [split; reflexivity|].
  unfold match_rec. cbn [flat_map]. fold (match_rec (CAvg x) d ((t, 0%nat) :: kid d (mkka 1 (p_avgsum ++ x) None (AGGPROP + HIDDEN)) ++ kid d (mkka 2 (p_avgcnt ++ x) (Some T_UINT) (AGGPROP + HIDDEN))) r).
  rewrite map_app, nsum_app, asum_app, IH1, IH2. unfold avals. cbn [flat_map]. fold (avals d [x] r). fold (avals d [p_avgcnt ++ x] r). fold (avals d [x; p_avgsum ++ x] r). rewrite !app_length, !map_app, nsum_app, Nat2N.inj_add.
  change (e_id (CAvg x) d e) with (e_attr d e). unfold is_named. cbn [existsb]. rewrite Et, !orb_false_r. unfold kid. cbn [ka_name ka_role].
  assert (N1 := len_neq p_avgsum x ltac:(discriminate)). assert (N2 := len_neq p_avgcnt x ltac:(discriminate)). assert (N3 := pre_neq p_avgsum p_avgcnt x ltac:(discriminate)).
  destruct (get_attr d (p_avgsum ++ x)) as [s|] eqn:Es; destruct (get_attr d (p_avgcnt ++ x)) as [u|] eqn:Eu; cbn [app role_of];
    destruct (N.eqb_spec t (e_attr d e)) as [->|Ht]; cbn [orb];
  repeat match goal with
    | H : get_attr d ?n = Some (e_attr d e), K : get_attr d ?m = Some ?b |- context [?b =? e_attr d e] => rewrite (name_neq d m n b (e_attr d e) Hn K H) by congruence
    end;
  try (split; [cbn [map acnt fst snd nsum fold_right length]; lia|reflexivity]).
  - destruct (N.eqb_spec s (e_attr d e)) as [->|Hs]; [rewrite (name_neq d (p_avgcnt ++ x) (p_avgsum ++ x) u (e_attr d e) Hn Eu Es) by congruence|destruct (N.eqb_spec u (e_attr d e))]; (split; [cbn [map acnt fst snd nsum fold_right length]; lia|reflexivity]).
  - destruct (N.eqb_spec s (e_attr d e)); (split; [cbn [map acnt fst snd nsum fold_right length]; lia|reflexivity]).
  - destruct (N.eqb_spec u (e_attr d e)); (split; [cbn [map acnt fst snd nsum fold_right length]; lia|reflexivity]).
Qed.
(* ---------- conditions on the contributions ---------- *)
Lemma nsum_filter {A} (f : A -> N) (g : A -> bool) l : nsum (map f (filter g l)) <= nsum (map f l).
Proof. induction l as [|x l IH]; cbn [filter map nsum fold_right]; [lia|]. fold (nsum (map f l)). destruct (g x); cbn [map nsum fold_right]; fold (nsum (map f (filter g l))); lia. Qed.
Lemma gl_ok d q recs c : wf d -> size_ok d -> Forall (Forall (entry_ok d)) recs -> (forall x, In x (kattrs c) -> no_target c = false -> get_attr d (fst x) <> None) -> mergeable d recs c ->
  exists t, forall K recs', incl recs' recs -> (forall f : list entry -> N, nsum (map f recs') <= nsum (map f recs)) -> gl c t (flat_map (contrib d q c K) recs').
Proof.
  intros Hw Hs F HT HM. assert (Hi := mergeable_plain _ _ _ HM).
  assert (IN : forall K recs', incl recs' recs -> incl (klist d q K recs') recs). { intros K recs' H r Hr. apply filter_In in Hr as (Hr & _). auto. }
  assert (OP : match c with CSum _ _ | CScale _ _ _ | CMin _ _ | CMax _ _ => True | _ => False end -> integral d recs c -> exists t, forall K recs', incl recs' recs -> gl c t (flat_map (contrib d q c K) recs')).
  { intros Hc HI. destruct (integral_okp d recs c Hw Hs F HT HI) as (_ & t & u & Hok). exists t. intros K recs' Hin. rewrite contribs_plain by auto. rewrite Forall_forall in Hok.
    assert (X : Forall (isty t) (map snd (mflat (map (fun r => (true, smatch c d r)) (klist d q K recs'))))).
    { apply Forall_forall. intros v Hv. apply in_map_iff in Hv as (p & <- & Hp). apply in_flat_map in Hp as (y & Hy & Hp). apply in_map_iff in Hy as (r & <- & Hr). cbn [snd] in Hp. specialize (Hok r (IN K recs' Hin r Hr)). rewrite Forall_forall in Hok. specialize (Hok p Hp). destruct c; try contradiction; exact Hok. }
    destruct c; try contradiction; exact X. }
  destruct c; cbn [mergeable] in HM; try contradiction.
  - exists TI. intros K recs' Hin Hle. rewrite contribs_plain by auto. destruct HM as (H1 & H2). cbn [gl]. rewrite map_map. cbn [snd]. rewrite (map_ext _ (counts_for d CCount)) by (intro r; apply count_vals; exact Logic.I). split.
    + rewrite Forall_map. cbn [snd]. apply Forall_forall. intros r Hr. rewrite count_vals by exact Logic.I. rewrite Forall_forall in H1. apply H1. exact (IN K recs' Hin r Hr).
    + unfold u64_ok in *. assert (X := nsum_filter (counts_for d CCount) (fun r => if gkey_eq_dec K (key_of d q r) then true else false) recs'). specialize (Hle (counts_for d CCount)). unfold klist. lia.
  - exists TI. intros K recs' Hin Hle. rewrite contribs_plain by auto. destruct HM as (H1 & H2). cbn [gl]. rewrite map_map. cbn [snd]. rewrite (map_ext _ (counts_for d (CScount arg scale))) by (intro r; apply count_vals; exact Logic.I). split.
    + rewrite Forall_map. cbn [snd]. apply Forall_forall. intros r Hr. rewrite count_vals by exact Logic.I. rewrite Forall_forall in H1. apply H1. exact (IN K recs' Hin r Hr).
    + unfold u64_ok in *. assert (X := nsum_filter (counts_for d (CScount arg scale)) (fun r => if gkey_eq_dec K (key_of d q r) then true else false) recs'). specialize (Hle (counts_for d (CScount arg scale))). unfold klist. lia.
  - destruct incl; [contradiction|]. destruct (OP Logic.I HM) as (t & Ht). exists t. auto.
  - destruct incl; [contradiction|]. destruct (OP Logic.I HM) as (t & Ht). exists t. auto.
  - destruct incl; [contradiction|]. destruct (OP Logic.I HM) as (t & Ht). exists t. auto.
  - destruct incl; [contradiction|]. destruct (OP Logic.I HM) as (t & Ht). exists t. auto.
  - destruct HM as (H1 & H2 & H3). assert (Hx : get_attr d x <> None) by (apply (HT _ (or_introl eq_refl) eq_refl)). destruct (one_type_isty _ H1) as (t & Ht). exists t. intros K recs' Hin Hle. rewrite contribs_plain by auto.
    assert (AV := fun r => avg_vals d x r (proj2 Hw) Hx).
    assert (E1 : forall rs, map acnt (mflat (map (fun r => (true, smatch (CAvg x) d r)) rs)) = flat_map (fun r => map acnt (smatch (CAvg x) d r)) rs) by (induction rs as [|r rs IHr]; cbn [mflat map flat_map snd]; auto; rewrite map_app; f_equal; exact IHr).
    assert (E2 : forall rs, asum (mflat (map (fun r => (true, smatch (CAvg x) d r)) rs)) = flat_map (avals d [x; p_avgsum ++ x]) rs) by (induction rs as [|r rs IHr]; cbn [mflat map flat_map snd]; auto; rewrite asum_app, (proj2 (AV r)); f_equal; exact IHr).
    assert (E3 : forall rs, nsum (flat_map (fun r => map acnt (smatch (CAvg x) d r)) rs) = nsum (map (avg_count d x) rs)) by (induction rs as [|r rs IHr]; cbn [flat_map map]; auto; rewrite nsum_app, (proj1 (AV r)), IHr; reflexivity).
    cbn [gl]. rewrite E1, E2, E3. split; [|split].
    + apply fm_forall. apply fm_forall in Ht. rewrite Forall_forall in *. intros r Hr. apply Ht. exact (IN K recs' Hin r Hr).
    + unfold u64_ok in *. assert (X := nsum_filter (avg_count d x) (fun r => if gkey_eq_dec K (key_of d q r) then true else false) recs'). specialize (Hle (avg_count d x)). unfold klist. lia.
    + rewrite Forall_map. cbn [snd]. rewrite Forall_forall in *. intros r Hr. destruct (AV r) as (-> & ->). apply H2. exact (IN K recs' Hin r Hr).
Qed.
(* ---------- what the kernels read from an output record ---------- *)
Definition mk1 (c : kcfg) : Prop := match c with CCount | CScount _ _ | CSum _ false | CScale _ _ false | CMin _ false | CMax _ false | CAvg _ => True | _ => False end.
Lemma mergeable_mk1 d recs c : mergeable d recs c -> mk1 c.
Proof. destruct c; cbn; try tauto; destruct incl; tauto. Qed.
Lemma smatch_app c d a b : mk1 c -> smatch c d (a ++ b) = smatch c d a ++ smatch c d b.
Proof.
  intro H. assert (X : forall x ks, smatch1 c d (a ++ b) (x, ks) = smatch1 c d a (x, ks) ++ smatch1 c d b (x, ks)).
  { intros x ks. unfold smatch1. cbn [fst snd]. destruct (no_target c); [unfold match_rec; apply flat_map_app|]. destruct (get_attr d x); [unfold match_rec; apply flat_map_app|reflexivity]. }
  destruct c; try contradiction; erewrite !single_match by reflexivity; apply X.
Qed.
Lemma smatch_concat c d l : mk1 c -> smatch c d (concat l) = flat_map (smatch c d) l.
Proof.
  intro H. induction l as [|a l IH]; cbn [concat flat_map]; [|rewrite smatch_app, IH by auto; reflexivity].
  destruct c; try contradiction; erewrite single_match by reflexivity; unfold smatch1; cbn [no_target fst snd]; try (destruct (get_attr d _)); reflexivity.
Qed.
Lemma smatch_none c d es : mk1 c -> Forall (fun e => is_named d (in_names c) (e_id c d e) = false) es -> smatch c d es = [].
Proof.
  intros H F.
  assert (X : forall ids, (forall a r, In (a, r) ids -> is_named d (in_names c) a = true) -> match_rec c d ids es = []).
  { intros ids Hid. apply match_rec_none. intros e a r He Hin E. rewrite Forall_forall in F. specialize (F e He). rewrite E, (Hid a r Hin) in F. discriminate. }
  assert (Y : forall ks, incl (map ka_name ks) (in_names c) -> forall a r, In (a, r) (flat_map (kid d) ks) -> is_named d (in_names c) a = true).
  { intros ks Hk a r Hin. apply in_flat_map in Hin as (k & Hk1 & Hin). unfold kid in Hin. destruct (get_attr d (ka_name k)) as [b|] eqn:E; [|destruct Hin]. destruct Hin as [E2|[]]. injection E2 as -> _. unfold is_named. apply existsb_exists. exists (ka_name k). split; [apply Hk; apply in_map; auto|]. rewrite E. apply N.eqb_refl. }
  assert (Z : forall x ks, incl (map ka_name ks) (in_names c) -> (no_target c = false -> In x (in_names c)) -> smatch1 c d es (x, ks) = []).
  { intros x ks Hk Hx. unfold smatch1. cbn [fst snd]. destruct (no_target c) eqn:En; [apply X; intros; eapply Y; eauto|]. destruct (get_attr d x) as [t|] eqn:E; [|reflexivity]. apply X. intros a r [E2|Hin]; [|eapply Y; eauto]. injection E2 as <- _. unfold is_named. apply existsb_exists. exists x. split; [auto|]. rewrite E. apply N.eqb_refl. }
  destruct c; try contradiction; erewrite single_match by reflexivity; apply Z; unfold in_names; cbn; intros; try discriminate; auto; try (intros y [<-|Hy]; cbn; auto; try destruct Hy as [<-|[]]; auto; fail).
Qed.
Lemma kresult_names c tot k rs : kresult c tot k = Some rs -> incl (map fst rs) (out_names c).
Proof.
  destruct c; cbn [kresult out_names]; intro E.
  - injection E as <-. destruct (0 <? k_n k); cbn; [apply incl_refl|apply incl_nil_l].
  - injection E as <-. destruct (0 <? k_n k); cbn [map fst]; [apply incl_refl|apply incl_nil_l].
  - injection E as <-. unfold opt_res. destruct (nonempty (k_a k)); cbn [map fst]; [apply incl_refl|apply incl_nil_l].
  - injection E as <-. destruct (nonempty (k_a k)); cbn [map fst]; [apply incl_refl|apply incl_nil_l].
  - injection E as <-. unfold opt_res. destruct (nonempty (k_a k)); cbn [map fst]; [apply incl_refl|apply incl_nil_l].
  - injection E as <-. unfold opt_res. destruct (nonempty (k_a k)); cbn [map fst]; [apply incl_refl|apply incl_nil_l].
  - destruct (0 <? k_n k); [|injection E as <-; apply incl_nil_l]. cbv zeta in E. destruct ((k_n k mod 4294967296 =? 0) && negb (is_double (k_a k)) && nonempty (k_a k)); [discriminate|]. injection E as <-. cbn [map fst]. apply incl_refl.
  - injection E as <-. unfold opt_res. rewrite !map_app. apply incl_app; [|apply incl_app].
    + destruct (nonempty (k_a k)); cbn [map fst]; [|apply incl_nil_l]. intros z [<-|[]]. left. auto.
    + destruct (nonempty (k_b k)); cbn [map fst]; [|apply incl_nil_l]. intros z [<-|[]]. right. left. auto.
    + destruct (nonempty (k_b k) && nonempty (k_a k)); cbn [map fst]; [|apply incl_nil_l]. intros z [<-|[]]. right. right. left. auto.
  - injection E as <-. destruct (nonempty (k_b k) && dltb 0 (v_f64 tot)); cbn [map fst]; [apply incl_refl|apply incl_nil_l].
  - injection E as <-. unfold opt_res. destruct (nonempty (k_a k)); cbn [map fst]; [apply incl_refl|apply incl_nil_l].
  - injection E as <-. destruct (0 <? k_n k); cbn [map fst]; [apply incl_refl|apply incl_nil_l].
Qed.
Lemma named_imms d rs es : named d rs es -> Forall (fun e => exists n a v, In n (map fst rs) /\ get_attr d n = Some a /\ e = EImm a v) es.
Proof.
  intro H. assert (G : forall l, incl (map fst rs) l -> Forall (fun e => exists n a v, In n l /\ get_attr d n = Some a /\ e = EImm a v) es); [|apply G; apply incl_refl].
  induction H as [|r e rs es (a & Ha & ->) H IH]; intros l Hl; constructor.
  - exists (fst r), a, (snd r). split; auto. apply Hl. left. auto.
  - apply IH. intros n Hn. apply Hl. right. auto.
Qed.
Lemma own_match c d tot k rs es : mk1 c -> names_ok d -> (forall x, In x (kattrs c) -> no_target c = false -> get_attr d (fst x) <> None) -> kresult c tot k = Some rs -> named d rs es -> smatch c d es = enc c k.
Proof.
  intros Hm Hn HT E Na.
  assert (OP : forall x p k0, match c with CSum _ _ | CScale _ _ _ | CMin _ _ | CMax _ _ => True | _ => False end -> p <> [] -> kattrs c = [(x, [k0])] -> ka_role k0 = 1%nat -> ka_name k0 = p ++ x ->
    forall a v tl, get_attr d (p ++ x) = Some a -> Forall (fun e => exists b w n, e = EImm b w /\ get_attr d n = Some b /\ n <> x /\ n <> p ++ x) tl -> smatch c d (EImm a v :: tl) = [(1%nat, v)]).
  { intros x p k0 Hc Hp Hk Hr Hnm a v tl Ha Ft. rewrite (single_match c x [k0] d _ Hk). assert (Hx : get_attr d x <> None). { apply (HT (x, [k0])); [rewrite Hk; left; auto|destruct c; try contradiction; auto]. }
    unfold smatch1. cbn [fst snd]. replace (no_target c) with false by (destruct c; try contradiction; auto). destruct (get_attr d x) as [t|] eqn:Et; [|congruence]. cbn [flat_map]. unfold kid. rewrite Hnm, Ha, Hr. cbn [app].
    unfold match_rec. cbn [flat_map]. replace (e_id c d (EImm a v)) with a by (destruct c; try contradiction; auto). cbn [role_of e_val]. rewrite (name_neq d x (p ++ x) t a Hn Et Ha) by (intro X; symmetry in X; revert X; apply len_neq; auto). rewrite N.eqb_refl. cbn [app]. f_equal.
    induction Ft as [|e tl (b & w & n & -> & Hb & N1 & N2) Ft IH]; cbn [flat_map]; auto. replace (e_id c d (EImm b w)) with b by (destruct c; try contradiction; auto). cbn [role_of]. rewrite (name_neq d x n t b Hn Et Hb), (name_neq d (p ++ x) n a b Hn Ha Hb) by auto. exact IH. }
  assert (CT : forall n k0, match c with CCount | CScount _ _ => True | _ => False end -> kattrs c = [([], [k0])] -> ka_role k0 = 1%nat -> ka_name k0 = n ->
    forall a v tl, get_attr d n = Some a -> Forall (fun e => exists b w m, e = EImm b w /\ get_attr d m = Some b /\ m <> n) tl -> smatch c d (EImm a v :: tl) = [(1%nat, v)]).
  { intros n k0 Hc Hk Hr Hnm a v tl Ha Ft. rewrite (single_match c [] [k0] d _ Hk). unfold smatch1. cbn [fst snd]. replace (no_target c) with true by (destruct c; try contradiction; auto). cbn [flat_map]. unfold kid. rewrite Hnm, Ha, Hr. cbn [app].
    unfold match_rec. cbn [flat_map]. replace (e_id c d (EImm a v)) with a by (destruct c; try contradiction; auto). cbn [role_of e_val]. rewrite N.eqb_refl. cbn [app]. f_equal.
    induction Ft as [|e tl (b & w & m & -> & Hb & N1) Ft IH]; cbn [flat_map]; auto. replace (e_id c d (EImm b w)) with b by (destruct c; try contradiction; auto). cbn [role_of]. rewrite (name_neq d n m a b Hn Ha Hb) by auto. exact IH. }
  assert (NIL : smatch c d [] = []) by (apply smatch_none; [auto|constructor]).
  assert (N1 : forall r e, named d [r] e -> exists a, get_attr d (fst r) = Some a /\ e = [EImm a (snd r)]) by (intros r e H; inversion H as [|? ? ? ? (a & A & ->) T]; subst; inversion T; subst; eauto).
  assert (N2 : forall r s e, named d [r; s] e -> exists a b, get_attr d (fst r) = Some a /\ get_attr d (fst s) = Some b /\ e = [EImm a (snd r); EImm b (snd s)]) by (intros r s e H; inversion H as [|? ? ? ? (a & A & ->) T]; subst; destruct (N1 _ _ T) as (b & B & ->); eauto).
  assert (N3 : forall r s u e, named d [r; s; u] e -> exists a b x, get_attr d (fst r) = Some a /\ get_attr d (fst s) = Some b /\ get_attr d (fst u) = Some x /\ e = [EImm a (snd r); EImm b (snd s); EImm x (snd u)]) by (intros r s u e H; inversion H as [|? ? ? ? (a & A & ->) T]; subst; destruct (N2 _ _ _ T) as (b & x & B & C & ->); exists a, b, x; auto).
  assert (N0 : forall e, named d [] e -> e = []) by (intros e H; inversion H; auto).
  destruct c; cbn [mk1] in Hm; try contradiction; cbn [kresult] in E; cbn [enc].
  - injection E as <-. destruct (0 <? k_n k); [|apply N0 in Na; subst es; exact NIL]. destruct (N1 _ _ Na) as (a & A & ->). eapply CT; [exact Logic.I|reflexivity|reflexivity|reflexivity|exact A|constructor].
  - injection E as <-. destruct (0 <? k_n k); [|apply N0 in Na; subst es; exact NIL]. destruct (N2 _ _ _ Na) as (a & b & A & B & ->). eapply CT; [exact Logic.I|reflexivity|reflexivity|reflexivity|exact A|]. constructor; [|constructor]. eexists _, _, _. split; [reflexivity|]. split; [exact B|]. cbn [fst]. discriminate.
  - destruct incl; [contradiction|]. injection E as <-. unfold opt_res in Na. destruct (nonempty (k_a k)); [|apply N0 in Na; subst es; exact NIL]. destruct (N1 _ _ Na) as (a & A & ->). eapply (OP x p_sum); [exact Logic.I|discriminate|reflexivity|reflexivity|reflexivity|exact A|constructor].
  - destruct incl; [contradiction|]. injection E as <-. destruct (nonempty (k_a k)); [|apply N0 in Na; subst es; exact NIL]. destruct (N2 _ _ _ Na) as (a & b & A & B & ->). eapply (OP x p_scsum); [exact Logic.I|discriminate|reflexivity|reflexivity|reflexivity|exact A|]. constructor; [|constructor]. eexists _, _, _. split; [reflexivity|]. split; [exact B|]. split; [exact (len_neq p_scale x ltac:(discriminate))|exact (pre_neq p_scale p_scsum x ltac:(discriminate))].
  - destruct incl; [contradiction|]. injection E as <-. unfold opt_res in Na. destruct (nonempty (k_a k)); [|apply N0 in Na; subst es; exact NIL]. destruct (N1 _ _ Na) as (a & A & ->). eapply (OP x p_min); [exact Logic.I|discriminate|reflexivity|reflexivity|reflexivity|exact A|constructor].
  - destruct incl; [contradiction|]. injection E as <-. unfold opt_res in Na. destruct (nonempty (k_a k)); [|apply N0 in Na; subst es; exact NIL]. destruct (N1 _ _ Na) as (a & A & ->). eapply (OP x p_max); [exact Logic.I|discriminate|reflexivity|reflexivity|reflexivity|exact A|constructor].
  - destruct (0 <? k_n k); [|injection E as <-; apply N0 in Na; subst es; exact NIL]. cbv zeta in E. destruct ((k_n k mod 4294967296 =? 0) && negb (is_double (k_a k)) && nonempty (k_a k)); [discriminate|]. injection E as <-. destruct (N3 _ _ _ _ Na) as (a & b & u & A & B & C & ->). cbn [fst snd] in *. change (get_attr d (p_avg ++ x) = Some a) in A. change (get_attr d (p_avgsum ++ x) = Some b) in B. change (get_attr d (p_avgcnt ++ x) = Some u) in C.
    assert (Hx := HT _ (or_introl eq_refl) eq_refl). cbn [fst] in Hx. rewrite (single_match (CAvg x) _ _ d _ eq_refl). unfold smatch1. cbn [no_target fst snd]. destruct (get_attr d x) as [t|] eqn:Et; [|congruence].
    assert (M1 := len_neq p_avg x ltac:(discriminate)). assert (M2 := len_neq p_avgsum x ltac:(discriminate)). assert (M3 := len_neq p_avgcnt x ltac:(discriminate)).
    assert (M4 := pre_neq p_avg p_avgsum x ltac:(discriminate)). assert (M5 := pre_neq p_avg p_avgcnt x ltac:(discriminate)). assert (M6 := pre_neq p_avgsum p_avgcnt x ltac:(discriminate)).
    cbn [flat_map]. unfold kid. cbn [ka_name ka_role]. rewrite B, C. cbn [app]. unfold match_rec. cbn [flat_map e_val]. unfold e_id. cbn [by_attribute e_attr role_of].
    rewrite (name_neq d _ _ t a Hn Et A), (name_neq d _ _ t b Hn Et B), (name_neq d _ _ t u Hn Et C) by congruence. rewrite (name_neq d _ _ b a Hn B A), (name_neq d _ _ u a Hn C A), (name_neq d _ _ b u Hn B C) by congruence. rewrite !N.eqb_refl. reflexivity.
Qed.
Lemma flat_single {A B} (F : A -> list B) l : forall j y, nth_error l j = Some y -> (forall i x, i <> j -> nth_error l i = Some x -> F x = []) -> flat_map F l = F y.
Proof.
  induction l as [|x l IH]; intros [|j] y Hy H; cbn [nth_error] in Hy; try discriminate; cbn [flat_map].
  - injection Hy as ->. assert (E : flat_map F l = []). { clear IH. assert (G : forall x, In x l -> F x = []). { intros z Hz. apply In_nth_error in Hz as (i & Hi). apply (H (S i) z); [discriminate|exact Hi]. } clear H. induction l as [|z l IH]; cbn [flat_map]; auto. rewrite (G z) by (left; auto). apply IH. intros; apply G; right; auto. } rewrite E, app_nil_r. reflexivity.
  - rewrite (H 0%nat x) by (auto; discriminate). apply (IH j y Hy). intros i z Hi Hz. apply (H (S i) z); auto.
Qed.
