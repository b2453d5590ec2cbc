(* Merging partial results: assembly *)
From Verif Require Import Base VariantModel VariantSpec NamesModel NamesProps TextModel TreeModel TreeProofs CaliFileModel CaliFileProofs2 CaliFileProofs3 CaliFileProofs4 FloatModel ArithSpec ArithProofs AggModel AggSpec AggSpec2 AggProofs AggProofs2 AggProofs3 AggProofs4 AggProofs5 AggProofs6 AggProofs7 AggProofs8 AggProofs9 AggProofs10.
From Coq Require Import Permutation Sorted.
Open Scope N_scope.

Definition orec (x : group) : list entry := gp_ents x ++ concat (gp_res x).
Lemma F2_nth {A B} (P : A -> B -> Prop) l m : Forall2 P l m -> forall j a b, nth_error l j = Some a -> nth_error m j = Some b -> P a b.
Proof. induction 1 as [|x y l m H F IH]; intros [|j] a b; cbn; try discriminate; [congruence|apply IH]. Qed.
Lemma F2_nth_ex {A B} (P : A -> B -> Prop) l m : Forall2 P l m -> forall j b, nth_error m j = Some b -> exists a, nth_error l j = Some a /\ P a b.
Proof. induction 1 as [|x y l m H F IH]; intros [|j] b; cbn; try discriminate; [intro E; injection E as <-; eauto|apply IH]. Qed.
Lemma refpath_all_imm d es : Forall (fun e => exists a v, e = EImm a v) es -> refpath d es [].
Proof. induction 1 as [|e es (a & v & ->) F IH]; constructor; auto. Qed.
Lemma refpath_in d es l i n : refpath d es l -> In (ERef i) es -> dnode d i = Some n -> i <> INV_ID -> In (n_attr n, n_val n) l.
Proof.
  induction 1 as [|a v rec l H IH|j p rec l Hp H IH]; intros Hin Hd Hi; [destruct Hin| |].
  - destruct Hin as [E|Hin]; [discriminate|auto].
  - apply in_or_app. destruct Hin as [E|Hin]; [|left; auto]. injection E as ->. right. inversion Hp as [E0|j m l0 H1 H2 H3 E1 E2]; subst; [contradiction|]. rewrite H2 in Hd. injection Hd as ->. apply in_or_app. right. left. auto.
Qed.
Lemma named_not d names n a : names_ok d -> get_attr d n = Some a -> ~ In n names -> is_named d names a = false.
Proof.
  intros Hn Ha Hni. destruct (is_named d names a) eqn:E; auto. exfalso. unfold is_named in E. apply existsb_exists in E as (m & Hm & E). destruct (get_attr d m) as [b|] eqn:Em; [|discriminate]. apply N.eqb_eq in E. subst b. assert (m = n) by exact (get_attr_inj d m n a Hn Em Ha). subst. contradiction.
Qed.
Lemma is_named_ex d names a : is_named d names a = true -> exists n, In n names /\ get_attr d n = Some a.
Proof. intro E. unfold is_named in E. apply existsb_exists in E as (m & Hm & E). destruct (get_attr d m) as [b|] eqn:Em; [|discriminate]. apply N.eqb_eq in E. subst b. eauto. Qed.

Section PART.
(* one of the two partial aggregations: records recs (all part of recsT), result groups G in database dA, seen from the later database dM *)
Variables (q : qspec) (d0 dA dM : mdb) (recs recsT out : list (list entry)) (G : list group).
Hypothesis Hw0 : wf d0. Hypothesis HwA : wf dA. Hypothesis HwM : wf dM.
Hypothesis G0A : grow d0 dA. Hypothesis GAM : grow dA dM. Hypothesis HsM : size_ok dM.
Hypothesis F0 : Forall (Forall (entry_ok d0)) recs.
Hypothesis HT : targets_known d0 q.
Hypothesis Hsep : separated dM q recsT.
Hypothesis Hsub : incl recs recsT.
Hypothesis Hm : Forall (fun c => mk1 c) (q_ker q).
Hypothesis HO : is_output dA q recs out G.
Hypothesis FO : Forall (Forall (entry_ok dM)) out.

Lemma part_sizes : size_ok dA /\ size_ok d0.
Proof. assert (size_ok dA) by exact (size_dext _ _ (gr_ext _ _ GAM) HsM). split; auto. exact (size_dext _ _ (gr_ext _ _ G0A) H). Qed.
Lemma tk c d : grow d0 d -> In c (q_ker q) -> forall x, In x (kattrs c) -> no_target c = false -> get_attr d (fst x) <> None.
Proof. intros Gr Hc x Hx Hn. assert (H := HT c x Hc Hn Hx). destruct (get_attr d0 (fst x)) as [a|] eqn:E; [|congruence]. rewrite (gr_keep _ _ Gr _ _ E). discriminate. Qed.
Lemma mk1_plain c : mk1 c -> is_incl c = false.
Proof. destruct c; cbn; auto; destruct incl; tauto. Qed.
Lemma part_present K : In K (map gp_key G) <-> exists r, In r recs /\ key_of d0 q r = K.
Proof.
  destruct part_sizes as (HsA & Hs0). destruct HO as (_ & _ & P & _). rewrite P, (present_grow d0 dA) by auto. rewrite Forall_forall in F0, Hm. split.
  - intros (r & K' & Hr & HK & [->|(_ & c & Hc & Hi & _)]); [|rewrite (mk1_plain c) in Hi by auto; discriminate]. exists r. split; auto. apply group_key_of; auto.
  - intros (r & Hr & HK). exists r, K. split; auto. split; [apply group_key_of; auto|left; auto].
Qed.
Lemma res_entries x : In x G -> Forall2 (fun c es => exists rs, incl (map fst rs) (out_names c) /\ named dM rs es) (q_ker q) (gp_res x).
Proof.
  intro Hx. destruct HO as (_ & _ & _ & O). rewrite Forall_forall in O. destruct (O x Hx) as (_ & _ & R). eapply Forall2_imp; [|exact R]. cbn beta. intros c es (l & rs & _ & E & Na). exists rs. split; [eapply kresult_names; eauto|]. eapply named_grow; [exact GAM|auto].
Qed.
Lemma res_imms x : In x G -> forall i es, nth_error (gp_res x) i = Some es -> exists c, nth_error (q_ker q) i = Some c /\ Forall (fun e => exists n a v, In n (out_names c) /\ get_attr dM n = Some a /\ e = EImm a v) es.
Proof.
  intros Hx i es Hi. destruct (F2_nth_ex _ _ _ (res_entries x Hx) i es Hi) as (c & Hc & rs & Hin & Na). exists c. split; auto. eapply Forall_impl; [|apply named_imms; exact Na]. intros e (n & a & v & Hn & Ha & ->). exists n, a, v. auto.
Qed.
Lemma concat_imms x : In x G -> Forall (fun e => exists c n a v, In c (q_ker q) /\ In n (out_names c) /\ get_attr dM n = Some a /\ e = EImm a v) (concat (gp_res x)).
Proof.
  intro Hx. apply Forall_concat. apply Forall_forall. intros es Hes. apply In_nth_error in Hes as (i & Hi). destruct (res_imms x Hx i es Hi) as (c & Hc & F). apply nth_error_In in Hc. eapply Forall_impl; [|exact F]. intros e (n & a & v & H1 & H2 & H3). exists c, n, a, v. auto.
Qed.
Lemma in_out x : In x G -> In (orec x) out.
Proof. intro Hx. destruct HO as (E & _). rewrite E. apply in_map_iff. exists x. auto. Qed.
Lemma ents_okA x : In x G -> Forall (entry_ok dM) (gp_ents x).
Proof. intro Hx. rewrite Forall_forall in FO. assert (H := FO _ (in_out x Hx)). apply Forall_app in H. tauto. Qed.
Lemma part_spells x : In x G -> spells dM (gp_ents x) (gp_key x).
Proof. intro Hx. destruct HO as (_ & _ & _ & O). rewrite Forall_forall in O. destruct (O x Hx) as (_ & (S1 & S2) & _). split; auto. eapply refpath_dext; [apply (gr_ext _ _ GAM)|auto]. Qed.
Lemma part_keyof x : In x G -> exists r, In r recs /\ group_key dM q r (gp_key x).
Proof.
  intro Hx. destruct (proj1 (part_present (gp_key x)) (in_map gp_key G x Hx)) as (r & Hr & HK). exists r. split; auto. rewrite Forall_forall in F0. destruct part_sizes as (HsA & Hs0).
  assert (G0M := grow_trans _ _ _ G0A GAM). rewrite group_key_of; auto; [|exact (entries_grow d0 dM r Hw0 HsM G0M (F0 r Hr))]. rewrite (key_of_grow d0 dM); auto.
Qed.
(* the group of an output record *)
Lemma part_key x : In x G -> key_of dM q (orec x) = gp_key x.
Proof.
  intro Hx. assert (FR := in_out x Hx). rewrite Forall_forall in FO. assert (Fx := FO _ FR). apply (group_key_of dM q (orec x) (gp_key x)); auto.
  destruct (part_spells x Hx) as (S1 & S2). destruct (part_keyof x Hx) as (r & Hr & l & m & R1 & K1 & K2 & K3 & K4).
  assert (CI := concat_imms x Hx).
  exists (gk_path (gp_key x) ++ gk_np (gp_key x)), (gk_imm (gp_key x)). split; [|split; [|split; [|split]]].
  - unfold orec. assert (X := refpath_app dM _ _ S2 (concat (gp_res x)) []). apply X. apply refpath_all_imm. eapply Forall_impl; [|exact CI]. intros e (_ & _ & a & v & _ & _ & _ & ->). eauto.
  - apply keep_sel; [exact (keep_sat _ _ _ K1)|]. eapply Forall_impl; [|exact (keep_sat _ _ _ K2)]. cbn. intros y (_ & H1) (_ & H2). congruence.
  - rewrite <- (app_nil_r (gk_path (gp_key x))) at 2. apply keep_app; [apply keep_all; exact (keep_sat _ _ _ K2)|]. apply keep_none. eapply Forall_impl; [|exact (keep_sat _ _ _ K1)]. cbn. intros y (_ & H1) (_ & H2). congruence.
  - unfold orec. rewrite imms_of_app, S1. rewrite <- (app_nil_r (gk_imm (gp_key x))) at 2. apply keep_app.
    + apply keep_all. rewrite K4. eapply Permutation_Forall; [apply sort_perm|]. exact (keep_sat _ _ _ K3).
    + apply keep_none. clear - CI Hsep. induction CI as [|e es (c & n & a & v & Hc & Hn & Ha & ->) F IH]; [constructor|]. change (imms_of (EImm a v :: es)) with ((a, v) :: imms_of es). constructor; auto. cbn [fst]. apply (proj1 Hsep c n a); auto. apply in_or_app. auto.
  - rewrite K4. symmetry. apply sort_id. apply sort_sorted.
Qed.
(* entries of the key do not match *)
Lemma ents_nomatch x c : In x G -> In c (q_ker q) -> Forall (fun e => is_named dM (in_names c) (e_id c dM e) = false) (gp_ents x).
Proof.
  intros Hx Hc. assert (Fe := ents_okA x Hx). destruct (part_spells x Hx) as (S1 & S2). destruct (part_keyof x Hx) as (r & Hr & l & m & R1 & K1 & K2 & K3 & K4).
  apply Forall_forall. intros e He. rewrite Forall_forall in Fe. assert (Oe := Fe e He). destruct (is_named dM (in_names c) (e_id c dM e)) eqn:E; auto. exfalso.
  destruct e as [i|a v].
  - unfold e_id in E. destruct (by_attribute c) eqn:Eb; [|change (is_named dM (in_names c) i = true) in E; rewrite (ref_not_named dM (in_names c) i HwM HsM Oe) in E; discriminate]. destruct (is_named_ex _ _ _ E) as (n & Hn & Ha). cbn [e_attr] in Ha.
    destruct Oe as (Li & _). destruct (dnode_some dM i Li) as (nd & Hnd). rewrite Hnd in Ha. destruct (proj1 Hsep c n _ Hc (in_or_app _ _ _ (or_introl Hn)) Ha) as (_ & Hno). 
    assert (Hii : i <> INV_ID) by (intros ->; rewrite dnode_inv in Hnd by auto; discriminate). assert (X := refpath_in dM _ _ i nd S2 He Hnd Hii).
    apply (Hno r l (Hsub r Hr) R1). change (n_attr nd) with (fst (n_attr nd, n_val nd)). apply in_map. apply in_app_or in X as [X|X]; [exact (keep_incl _ _ _ K2 _ X)|exact (keep_incl _ _ _ K1 _ X)].
  - assert (E' : is_named dM (in_names c) a = true) by (unfold e_id in E; destruct (by_attribute c); exact E). destruct (is_named_ex _ _ _ E') as (n & Hn & Ha). destruct (proj1 Hsep c n _ Hc (in_or_app _ _ _ (or_introl Hn)) Ha) as (Hk & _). apply Hk.
    assert (X : In (a, v) (gk_imm (gp_key x))). { rewrite <- S1. clear - He. induction (gp_ents x) as [|e es IH]; [destruct He|]. destruct He as [->|He]; [left; auto|]. change (imms_of (e :: es)) with (match e with EImm a v => [(a, v)] | ERef _ => [] end ++ imms_of es). apply in_or_app. right. auto. }
    rewrite K4 in X. apply (Permutation_in _ (Permutation_sym (sort_perm m))) in X. assert (Y := keep_sat _ _ _ K3). rewrite Forall_forall in Y. exact (Y (a, v) X).
Qed.
Lemma out_match x c j : In x G -> nth_error (q_ker q) j = Some c -> smatch c dM (orec x) = enc c (kfinal c (flat_map (contrib d0 q c (gp_key x)) recs)).
Proof.
  intros Hx Hc. destruct part_sizes as (HsA & Hs0). assert (HcI := nth_error_In _ _ Hc). assert (Hmc := proj1 (Forall_forall _ _) Hm c HcI). cbn beta in Hmc. unfold orec.
  rewrite smatch_app, (smatch_none c dM (gp_ents x)), smatch_concat by (auto; apply ents_nomatch; auto). cbn [app].
  destruct HO as (_ & _ & _ & O). rewrite Forall_forall in O. destruct (O x Hx) as (_ & _ & R).
  assert (exists es, nth_error (gp_res x) j = Some es) as (es & Hes). { destruct (nth_error (gp_res x) j) eqn:E; eauto. apply nth_error_None in E. apply F2_len in R. assert (X : nth_error (q_ker q) j <> None) by congruence. apply nth_error_Some in X. lia. }
  rewrite (flat_single (smatch c dM) (gp_res x) j es Hes).
  - destruct (F2_nth _ _ _ R j c es Hc Hes) as (l & rs & C & E & Na). apply collect_contrib in C; auto. 2:{ eapply Forall_impl; [|exact F0]. intros r Hr. exact (entries_grow d0 dA r Hw0 HsA G0A Hr). }
    rewrite (contribs_grow d0 dA q c (gp_key x) recs Hw0 HwA G0A HsA F0 (tk c d0 (grow_refl d0) HcI)) in C. subst l. apply (own_match c dM (total dA c recs) _ rs); auto; [apply HwM|apply tk; [eapply grow_trans; eauto|auto]|eapply named_grow; eauto].
  - intros i es' Hij Hi. apply smatch_none; auto. destruct (res_imms x Hx i es' Hi) as (ci & Hci & F). eapply Forall_impl; [|exact F]. intros e (n & a & v & Hn & Ha & ->). replace (e_id c dM (EImm a v)) with a by (unfold e_id; destruct (by_attribute c); auto). apply (named_not dM _ n a); auto; [apply HwM|]. exact (proj2 Hsep i j ci c n Hij Hci Hc Hn).
Qed.
Lemma out_contribs K c j : nth_error (q_ker q) j = Some c -> flat_map (contrib dM q c K) out = pk c (flat_map (contrib d0 q c K) recs).
Proof.
  intro Hc. assert (HcI := nth_error_In _ _ Hc). assert (Hm' := Hm). rewrite Forall_forall in Hm'. assert (Hi := mk1_plain c (Hm' c HcI)).
  assert (EO : out = map orec G) by (destruct HO as (E & _); exact E). assert (ND : NoDup (map gp_key G)) by apply HO.
  assert (X : forall Gs, incl Gs G -> flat_map (contrib dM q c K) (map orec Gs) = flat_map (fun x => if gkey_eq_dec K (gp_key x) then [(true, enc c (kfinal c (flat_map (contrib d0 q c K) recs)))] else []) Gs).
  { induction Gs as [|x Gs IH]; intro Hin; cbn [map flat_map]; auto. assert (Hx : In x G) by (apply Hin; left; auto). rewrite IH by (intros y Hy; apply Hin; right; auto). f_equal. rewrite contrib_plain by auto. rewrite part_key by auto. destruct (gkey_eq_dec K (gp_key x)) as [->|]; auto. rewrite (out_match x c j) by auto. reflexivity. }
  rewrite EO, X by apply incl_refl. clear X. destruct (in_dec gkey_eq_dec K (map gp_key G)) as [HK|HK].
  - assert (NE : flat_map (contrib d0 q c K) recs <> []).
    { apply part_present in HK as (r & Hr & <-). rewrite contribs_plain by auto. assert (Y : In r (klist d0 q (key_of d0 q r) recs)). { apply filter_In. split; auto. destruct (gkey_eq_dec (key_of d0 q r) (key_of d0 q r)); auto. } destruct (klist d0 q (key_of d0 q r) recs); [destruct Y|discriminate]. }
    unfold pk. destruct (flat_map (contrib d0 q c K) recs) as [|y l]; [congruence|]. generalize (true, enc c (kfinal c (y :: l))). intro z. clear - HK ND. induction G as [|x Gs IH]; [destruct HK|]. cbn [map flat_map] in *. inversion ND as [|? ? Hn ND']; subst.
    destruct (gkey_eq_dec K (gp_key x)) as [->|Hne].
    + assert (E : flat_map (fun x0 => if gkey_eq_dec (gp_key x) (gp_key x0) then [z] else []) Gs = []). { clear - Hn. induction Gs as [|y Gs IH]; cbn [flat_map]; auto. destruct (gkey_eq_dec (gp_key x) (gp_key y)) as [E|]; [exfalso; apply Hn; left; auto|]. apply IH. intro H. apply Hn. right. auto. } rewrite E. reflexivity.
    + cbn [app]. apply IH; auto. destruct HK as [E|HK]; [congruence|auto].
  - assert (E : flat_map (contrib d0 q c K) recs = []).
    { rewrite contribs_plain by auto. assert (Y : forall r, ~ In r (klist d0 q K recs)). { intros r Hr. apply filter_In in Hr as (Hr & E). destruct (gkey_eq_dec K (key_of d0 q r)) as [->|]; [|discriminate]. apply HK. apply part_present. eauto. } destruct (klist d0 q K recs) as [|r l]; auto. destruct (Y r); left; auto. }
    rewrite E. cbn [pk]. generalize (true, enc c (kfinal c [])). intro z. clear - HK. induction G as [|x Gs IH]; cbn [flat_map]; auto. destruct (gkey_eq_dec K (gp_key x)) as [->|]; [exfalso; apply HK; left; auto|]. apply IH. intro H. apply HK. right. auto.
Qed.
End PART.

Lemma nsum_le_l {A} (f : A -> N) a b : nsum (map f a) <= nsum (map f (a ++ b)).
Proof. rewrite map_app, nsum_app. lia. Qed.
Lemma nsum_le_r {A} (f : A -> N) a b : nsum (map f b) <= nsum (map f (a ++ b)).
Proof. rewrite map_app, nsum_app. lia. Qed.
Theorem merge_ok q d0 recsA recsB outA outB outM outT dA dB dM dT :
  wf d0 -> Forall (Forall (entry_ok d0)) (recsA ++ recsB) -> targets_known d0 q -> Forall (mergeable d0 (recsA ++ recsB)) (q_ker q) -> separated dM q (recsA ++ recsB) ->
  aggregated q recsA outA dA -> grow d0 dA -> aggregated q recsB outB dB -> grow d0 dB ->
  aggregated q (outA ++ outB) outM dM -> grow dA dM -> grow dB dM ->
  aggregated q (recsA ++ recsB) outT dT -> grow d0 dT ->
  exists GM GT, is_output dM q (outA ++ outB) outM GM /\ is_output dT q (recsA ++ recsB) outT GT /\ Permutation (map gp_key GM) (map gp_key GT) /\
    forall x y, In x GM -> In y GT -> gp_key x = gp_key y -> Forall2 (fun es1 es2 => exists rs, named dM rs es1 /\ named dT rs es2) (gp_res x) (gp_res y).
Proof.
  intros Hw0 F0 HT HM Hsep AA G0A AB G0B AM GAM GBM AT G0T.
  destruct (aggregated_ok _ _ _ _ AA) as (HwA & HsA & _ & GA & HGA). destruct (aggregated_ok _ _ _ _ AB) as (HwB & HsB & _ & GB & HGB).
  destruct (aggregated_ok _ _ _ _ AM) as (HwM & HsM & FM & GM & HGM). destruct (aggregated_ok _ _ _ _ AT) as (HwT & HsT & FT & GT & HGT).
  assert (Hs0 := size_dext _ _ (gr_ext _ _ G0A) HsA).
  apply Forall_app in FM as FM2. destruct FM2 as (FMA & FMB). apply Forall_app in F0 as F02. destruct F02 as (F0A & F0B).
  assert (Hm : Forall mk1 (q_ker q)) by (eapply Forall_impl; [|exact HM]; intros c Hc; eapply mergeable_mk1; eauto).
  exists GM, GT. split; auto. split; auto. 
  assert (PA := part_present q d0 dA dM recsA outA GA Hw0 HwA G0A GAM HsM F0A HT Hm HGA). assert (PB := part_present q d0 dB dM recsB outB GB Hw0 HwB G0B GBM HsM F0B HT Hm HGB).
  assert (KA : forall x, In x GA -> key_of dM q (orec x) = gp_key x) by (intros x Hx; exact (part_key q d0 dA dM recsA (recsA ++ recsB) outA GA Hw0 HwA HwM G0A GAM HsM F0A HT Hsep Hm HGA FMA x Hx)).
  assert (KB : forall x, In x GB -> key_of dM q (orec x) = gp_key x) by (intros x Hx; exact (part_key q d0 dB dM recsB (recsA ++ recsB) outB GB Hw0 HwB HwM G0B GBM HsM F0B HT Hsep Hm HGB FMB x Hx)).
  split.
  - destruct HGM as (_ & NM & PM & _). destruct HGT as (_ & NT & PT & _). apply NoDup_Permutation; auto. intro K. rewrite PM, PT, (present_grow d0 dT) by auto.
    assert (QM : group_present dM q (outA ++ outB) K <-> exists r, In r (outA ++ outB) /\ key_of dM q r = K).
    { rewrite Forall_forall in FM, Hm. split.
      - intros (r & K' & Hr & HK & [->|(_ & c & Hc & Hi & _)]); [|rewrite (mk1_plain c) in Hi by auto; discriminate]. exists r. split; auto. apply group_key_of; auto.
      - intros (r & Hr & HK). exists r, K. split; auto. split; [apply group_key_of; auto|left; auto]. }
    assert (QT : group_present d0 q (recsA ++ recsB) K <-> exists r, In r (recsA ++ recsB) /\ key_of d0 q r = K).
    { rewrite Forall_forall in F0, Hm. split.
      - intros (r & K' & Hr & HK & [->|(_ & c & Hc & Hi & _)]); [|rewrite (mk1_plain c) in Hi by auto; discriminate]. exists r. split; auto. apply group_key_of; auto.
      - intros (r & Hr & HK). exists r, K. split; auto. split; [apply group_key_of; auto|left; auto]. }
    rewrite QM, QT. assert (EA : outA = map orec GA) by (destruct HGA as (E & _); exact E). assert (EB : outB = map orec GB) by (destruct HGB as (E & _); exact E). split.
    + intros (r & Hr & HK). apply in_app_or in Hr as [Hr|Hr].
      * rewrite EA in Hr. apply in_map_iff in Hr as (x & <- & Hx). rewrite KA in HK by auto. subst K. destruct (proj1 (PA (gp_key x)) (in_map gp_key GA x Hx)) as (r & Hr & HK). exists r. split; auto. apply in_or_app. auto.
      * rewrite EB in Hr. apply in_map_iff in Hr as (x & <- & Hx). rewrite KB in HK by auto. subst K. destruct (proj1 (PB (gp_key x)) (in_map gp_key GB x Hx)) as (r & Hr & HK). exists r. split; auto. apply in_or_app. auto.
    + intros (r & Hr & HK). apply in_app_or in Hr as [Hr|Hr].
      * assert (X : In K (map gp_key GA)) by (apply PA; eauto). apply in_map_iff in X as (x & <- & Hx). exists (orec x). split; [|auto]. apply in_or_app. left. rewrite EA. apply in_map. auto.
      * assert (X : In K (map gp_key GB)) by (apply PB; eauto). apply in_map_iff in X as (x & <- & Hx). exists (orec x). split; [|auto]. apply in_or_app. right. rewrite EB. apply in_map. auto.
  - intros x y Hx Hy EK. destruct HGM as (_ & _ & _ & OM). destruct HGT as (_ & _ & _ & OT). rewrite Forall_forall in OM, OT. destruct (OM x Hx) as (_ & _ & RM). destruct (OT y Hy) as (_ & _ & RT). rewrite EK in RM.
    assert (L1 := F2_len _ _ _ RM). assert (L2 := F2_len _ _ _ RT).
    assert (PT : forall j es1 es2, nth_error (gp_res x) j = Some es1 -> nth_error (gp_res y) j = Some es2 -> exists rs, named dM rs es1 /\ named dT rs es2).
    { intros j es1 es2 H1 H2. destruct (F2_nth_ex _ _ _ RM j es1 H1) as (c & Hc & l1 & rs1 & C1 & K1 & N1). destruct (F2_nth _ _ _ RT j c es2 Hc H2) as (l2 & rs2 & C2 & K2 & N2).
      assert (HcI := nth_error_In _ _ Hc). rewrite Forall_forall in HM, Hm. assert (HTc : forall z, In z (kattrs c) -> no_target c = false -> get_attr d0 (fst z) <> None) by (intros; eapply HT; eauto).
      apply collect_contrib in C1; auto. apply collect_contrib in C2; auto. rewrite (contribs_grow d0 dT) in C2 by auto. rewrite flat_map_app in C1, C2.
      rewrite (out_contribs q d0 dA dM recsA (recsA ++ recsB) outA GA Hw0 HwA HwM G0A GAM HsM F0A HT Hsep (incl_appl _ (incl_refl _)) (proj2 (Forall_forall _ _) Hm) HGA FMA _ c j Hc) in C1.
      rewrite (out_contribs q d0 dB dM recsB (recsA ++ recsB) outB GB Hw0 HwB HwM G0B GBM HsM F0B HT Hsep (incl_appr _ (incl_refl _)) (proj2 (Forall_forall _ _) Hm) HGB FMB _ c j Hc) in C1.
      destruct (gl_ok d0 q (recsA ++ recsB) c Hw0 Hs0 F0 HTc (HM c HcI)) as (t & Hgl).
      assert (EF : kfinal c l1 = kfinal c l2). { subst l1 l2. apply (kmerge c t); apply Hgl; auto using incl_appl, incl_appr, incl_refl; intro f; [apply nsum_le_l|apply nsum_le_r]. }
      assert (EK2 : kresult c (total dM c (outA ++ outB)) (kfinal c l1) = kresult c (total dT c (recsA ++ recsB)) (kfinal c l2)). { rewrite EF. specialize (Hm c HcI). destruct c; try contradiction; reflexivity. }
      rewrite EK2, K2 in K1. injection K1 as ->. eauto. }
    clear - L1 L2 PT. assert (L : length (gp_res x) = length (gp_res y)) by congruence. clear L1 L2. revert PT L. generalize (gp_res x), (gp_res y). induction l as [|a l IH]; intros [|b m] PT L; try discriminate; constructor.
    + apply (PT 0%nat); reflexivity.
    + apply IH; [|cbn in L; lia]. intros j. apply (PT (S j)).
Qed.
