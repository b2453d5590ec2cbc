(* Proofs: the aggregation result in terms of names *)
From Verif Require Import Base VariantModel VariantSpec NamesModel NamesProps TextModel TreeModel TreeProofs CaliFileModel CaliFileProofs CaliFileProofs2 CaliFileProofs3 CaliFileProofs4 CaliFileProps ArithSpec AggModel AggSpec AggProofs AggProofs2 AggProofs3 AggProofs4 AggProofs5 AggProofs6 FilterModel QFileModel QFileSpec QFileProofs QFileProofs2 QFileProofs4.
Open Scope N_scope.

Section Out.
Variables (D : dict) (q : qspec) (d : mdb).
Hypothesis Hw : wf d.
Hypothesis Hs : size_ok d.
Hypothesis Hfresh : fresh D q.
Notation aokd := (aok D (q_keys q) d).
Notation goodd := (good D (q_keys q) d).
Notation kreld := (krel D q d).

(* ---------------- the values a kernel aggregates ---------------- *)
Lemma kid_in l a r : In (a, r) (flat_map (kid d) l) -> exists k, In k l /\ get_attr d (ka_name k) = Some a.
Proof.
  intro H. apply in_flat_map in H as (k & Hk & Hin). exists k. split; [exact Hk|]. unfold kid in Hin. destruct (get_attr d (ka_name k)) as [b|]; [|destruct Hin]. destruct Hin as [E|[]]. injection E as -> _. reflexivity.
Qed.
Lemma no_result c e y s a : goodd e y -> In s (result_names q) -> get_attr d s = Some a -> e_id c d e <> a.
Proof.
  intros Hy Hin Ha Ee.
  assert (No : forall t, attr_ok D (q_keys q) d t a -> False). { intros t Ht. pose proof (aok_name D q d Hw t a s Ht Ha). subst t. destruct (ao_dict _ _ _ _ _ Ht) as (M & HM). rewrite (Hfresh _ Hin) in HM. discriminate HM. }
  destruct Hy as [b t v Hb|i p l Hi Hl HF].
  - unfold e_id in Ee. destruct (by_attribute c); cbn [e_attr entry_node] in Ee; subst b; exact (No t Hb).
  - destruct (ref_node D q d Hs i l p Hi Hl HF) as (n & l0 & y & p0 & Hn & _ & _ & _ & (Hy & _)). cbn [fst] in Hy. unfold e_id in Ee. destruct (by_attribute c); cbn [e_attr entry_node] in Ee.
    + rewrite Hn in Ee. subst a. exact (No _ Hy).
    + subst i. destruct (nm_some d (proj2 Hw) _ _ Ha) as (n' & E1 & E2 & _). assert (n' = n) by congruence. subst n'. pose proof (ao_min _ _ _ _ _ Hy). lia.
Qed.
Lemma role_none c e y l : goodd e y -> incl (map ka_name l) (result_names q) -> role_of (flat_map (kid d) l) (e_id c d e) = None.
Proof.
  intros Hy Hi. apply role_of_none. intros r Hin. apply kid_in in Hin as (k & Hk & Ha). exact (no_result c e y (ka_name k) _ Hy (Hi _ (in_map _ _ _ Hk)) Ha eq_refl).
Qed.
Lemma smatch1_none c rec w x : no_target c = true -> incl (map ka_name (snd x)) (result_names q) -> Forall2 goodd rec w -> smatch1 c d rec x = [].
Proof.
  intros Hn Hi H. unfold smatch1. rewrite Hn. unfold match_rec. induction H as [|e y rec w He Hr IH]; [reflexivity|]. cbn [flat_map]. rewrite (role_none c e y _ He Hi). exact IH.
Qed.
Lemma smatch1_name c rec w x base : no_target c = false -> incl (map ka_name (snd x)) (result_names q) -> Forall2 goodd rec w ->
  map (fun p => ((base + fst p)%nat, snd p)) (smatch1 c d rec x) = flat_map (nmatch1 c base (fst x)) w.
Proof.
  intros Hn Hi H. unfold smatch1. rewrite Hn. destruct (get_attr d (fst x)) as [t|] eqn:Et.
  - unfold match_rec. induction H as [|e y rec w He Hr IH]; [reflexivity|]. cbn [flat_map]. rewrite map_app, IH. f_equal. cbn [role_of].
    pose proof (role_none c e y _ He Hi) as Rn. destruct He as [a s v Ha|i p l Hi' Hl HF]; cbn [nmatch1].
    + assert (Ee : e_id c d (EImm a v) = a) by (unfold e_id; destruct (by_attribute c); reflexivity). rewrite Ee in *. pose proof (clause_same D q d Hw Hs (a, v) (s, v) (fst x) (conj Ha eq_refl)) as C. cbn [fst] in C. rewrite Et in C. rewrite N.eqb_sym, C.
      destruct (beqb s (fst x)); [cbn [map e_val fst snd]; rewrite Nat.add_0_r; reflexivity|rewrite Rn; reflexivity].
    + destruct (ref_node D q d Hs i l p Hi' Hl HF) as (n & l0 & (s, v) & p0 & Hn' & _ & _ & -> & Hy). unfold e_id in *. destruct (by_attribute c) eqn:Eb; cbn [e_attr entry_node andb] in *.
      * rewrite Hn' in *. pose proof (clause_same D q d Hw Hs _ _ (fst x) Hy) as C. cbn [fst] in C. rewrite Et in C. rewrite N.eqb_sym, C. destruct (beqb s (fst x)); [|rewrite Rn; reflexivity].
        cbn [map e_val fst snd]. rewrite Hn', Nat.add_0_r. pose proof (proj2 Hy) as Ev. cbn [snd] in Ev. rewrite Ev. reflexivity.
      * assert (Hne : (t =? i) = false). { apply N.eqb_neq. intros ->. destruct (nm_some d (proj2 Hw) _ _ Et) as (n' & E1 & E2 & _). assert (n' = n) by congruence. subst n'. pose proof (ao_min _ _ _ _ _ (proj1 Hy)) as M. cbn [fst] in M. lia. }
        rewrite Hne, Rn. reflexivity.
  - cbn [map]. symmetry. induction H as [|e y rec w He Hr IH]; [reflexivity|]. cbn [flat_map]. rewrite IH, app_nil_r. destruct He as [a s v Ha|i p l Hi' Hl HF]; cbn [nmatch1].
    + destruct (beqb s (fst x)) eqn:Eb; [|reflexivity]. apply beqb_eq in Eb. subst s. pose proof (ao_get _ _ _ _ _ Ha). congruence.
    + destruct (ref_node D q d Hs i l p Hi' Hl HF) as (n & l0 & (s, v) & p0 & Hn' & _ & _ & -> & Hy). destruct (by_attribute c && beqb s (fst x)) eqn:Eb; [|reflexivity]. apply andb_true_iff in Eb as (_ & Eb). apply beqb_eq in Eb. subst s. pose proof (ao_get _ _ _ _ _ (proj1 Hy)) as G. cbn [fst] in G. congruence.
Qed.
Lemma smatch_l_name c rec w : no_target c = false -> Forall2 goodd rec w -> forall l base, incl (flat_map tnames l) (result_names q) -> smatch_l c d rec l base = nmatch_l c base (map fst l) w.
Proof.
  intros Hn H. induction l as [|x l IH]; intros base Hi; [reflexivity|]. cbn [smatch_l nmatch_l map]. rewrite (smatch1_name c rec w x base Hn (fun s Hin => Hi s (in_or_app _ _ _ (or_introl Hin))) H). f_equal. apply IH. intros s Hin. apply Hi. apply in_or_app. right. exact Hin.
Qed.
Lemma smatch_name c rec w : In c (q_ker q) -> Forall2 goodd rec w -> smatch c d rec = nmatch c w.
Proof.
  intros Hc H. assert (Hi : incl (flat_map tnames (kattrs c)) (result_names q)). { intros s Hin. unfold result_names. apply in_flat_map. exists c. split; [exact Hc|exact Hin]. }
  unfold smatch, nmatch. destruct (no_target c) eqn:Hn.
  - destruct c; try discriminate Hn; cbn [kattrs aggregates smatch_l nmatch_l] in *.
    + rewrite (smatch1_none CCount rec w _ eq_refl (fun s Hin => Hi s (in_or_app _ _ _ (or_introl Hin))) H). reflexivity.
    + rewrite (smatch1_none (CScount arg scale) rec w _ eq_refl (fun s Hin => Hi s (in_or_app _ _ _ (or_introl Hin))) H). reflexivity.
  - replace (aggregates c) with (map fst (kattrs c)) by (destruct c; try discriminate Hn; reflexivity). exact (smatch_l_name c rec w Hn H (kattrs c) 0%nat Hi).
Qed.
Lemma total_name c recs W : In c (q_ker q) -> Forall2 (Forall2 goodd) recs W -> total d c recs = ntotal c W.
Proof.
  intros Hc H. unfold total, ntotal. generalize VInv. induction H as [|r w recs W Hr HF IH]; intro t; [reflexivity|]. cbn [fold_left]. rewrite (smatch_name c r w Hc Hr). apply IH.
Qed.

(* ---------------- contributions, groups ---------------- *)
Lemma matched_ne ms : matched ms = true <-> ms <> [].
Proof. destruct ms; split; intro H; try discriminate; try reflexivity; congruence. Qed.
Lemma collect_name c K G recs l : In c (q_ker q) -> kreld K G -> collect d q c K recs l -> forall W, Forall2 (Forall2 goodd) recs W -> l = flat_map (contributes D q c G) W.
Proof.
  intros Hc HK. induction 1 as [|r rs l HG HC IH|r rs l K' HG HE Hi Hm HC IH|r rs l K' HG Hne HN HC IH]; intros W HW; inversion HW as [|? w ? W' Hr HW']; subst; [reflexivity| | |]; cbn [flat_map]; rewrite <- (IH W' HW'); pose proof (good_group D q d Hw Hs r w _ Hr HG) as HKw; unfold contributes; rewrite (smatch_name c r w Hc Hr) in *.
  - rewrite (krel_fun D q d Hw K _ _ HKw HK). destruct (ngroup_eq_dec G G); [reflexivity|contradiction].
  - apply (encl_rel D q d Hw K K' G _ HK HKw) in HE. destruct (ngroup_eq_dec (group_of D q w) G) as [E|E]; [rewrite E in HE; destruct (encl_irr _ HE)|].
    rewrite (proj2 (encl_in_ok _ _) HE), Hi, (proj2 (matched_ne _) Hm). reflexivity.
  - destruct (ngroup_eq_dec (group_of D q w) G) as [E|E]; [exfalso; apply Hne; rewrite E in HKw; exact (krel_inj D q d K K' G HK HKw)|].
    destruct (encl_in G (group_of D q w) && is_incl c && matched (nmatch c w)) eqn:Eb; [|reflexivity]. exfalso. apply HN. apply andb_true_iff in Eb as (Eb & E3). apply andb_true_iff in Eb as (E1 & E2).
    split; [|split; [exact E2|apply matched_ne; exact E3]]. apply (encl_rel D q d Hw K K' G _ HK HKw). apply encl_in_ok. exact E1.
Qed.
Lemma present_name K recs W : Forall2 (Forall2 goodd) recs W -> group_present d q recs K -> exists G, kreld K G /\ present D q W G.
Proof.
  intros HW (r & K' & Hr & HG & Hor). destruct (AggProofs6.F2_l _ _ _ HW r Hr) as (w & Hw' & Hg). pose proof (good_group D q d Hw Hs r w K' Hg HG) as HK'. destruct Hor as [->|(HE & c & Hc & Hi & Hm)].
  - exists (group_of D q w). split; [exact HK'|]. exists w. auto.
  - destruct (encl_down D q d Hw K K' _ HK' HE) as (G & HK & HEn). exists G. split; [exact HK|]. exists w. split; [exact Hw'|]. right. split; [exact HEn|]. exists c. rewrite (smatch_name c r w Hc Hg) in Hm. auto.
Qed.
Lemma present_back G recs W : Forall2 (Forall2 goodd) recs W -> present D q W G -> exists K, kreld K G /\ group_present d q recs K.
Proof.
  intros HW (w & Hw' & Hor). destruct (AggProofs6.F2_r _ _ _ HW w Hw') as (r & Hr & Hg). destruct (good_key D q d Hw Hs r w Hg) as (K' & HG & HK'). destruct Hor as [<-|(HE & c & Hc & Hi & Hm)].
  - exists K'. split; [exact HK'|]. exists r, K'. auto.
  - destruct (encl_up D q d Hw G K' _ HK' HE) as (K & HK & HEn). exists K. split; [exact HK|]. exists r, K'. split; [exact Hr|]. split; [exact HG|]. right. split; [exact HEn|]. exists c. rewrite (smatch_name c r w Hc Hg). auto.
Qed.

(* ---------------- the entries that show the group ---------------- *)
Lemma path_names i l : npath d i l -> forall p, Forall2 aokd (rev l) p -> path (dnode d) i p.
Proof.
  induction 1 as [|i n l Hne Hn Hl IH]; intros p HF; [inversion HF; constructor|]. rewrite rev_app_distr in HF. cbn [rev app] in HF. inversion HF as [|? (s, v) ? p' Hy HF']; subst. destruct (ao_call _ _ _ _ _ (proj1 Hy)) as (an & C1 & C2 & C3). cbn [fst] in *.
  pose proof (proj2 Hy) as Ev. cbn [snd] in Ev. subst v. econstructor; eauto.
Qed.
Lemma says_refpath es L : refpath d es L -> forall M, Forall2 aokd L M -> Forall (fun x => exists y, aokd x y) (imms_of es) -> exists w, record_says (dnode d) es w /\ wpath w = M /\ Forall2 aokd (imms_of es) (wimms w).
Proof.
  induction 1 as [|a v rec l Hl IH|i p rec l Hp Hl IH]; intros M HF HI.
  - inversion HF; subst. exists []. split; [constructor|]. split; [reflexivity|constructor].
  - cbn [imms_of flat_map app] in HI. inversion HI as [|? ? ((s, v') & Hy) HI']; subst. destruct (IH M HF HI') as (w & W1 & W2 & W3). pose proof (proj2 Hy) as Ev. cbn [snd] in Ev. subst v'.
    exists (NImm s v :: w). split; [constructor; [constructor; exact (ao_call _ _ _ _ _ (proj1 Hy))|exact W1]|]. split; [exact W2|]. cbn. constructor; [exact Hy|exact W3].
  - apply Forall2_app_inv_l in HF as (m1 & m2 & M1 & M2 & ->). destruct (IH m1 M1 HI) as (w & W1 & W2 & W3). exists (NRef (rev m2) :: w). split; [|split; [cbn [wpath]; rewrite W2, rev_involutive; reflexivity|exact W3]].
    constructor; [|exact W1]. constructor. apply (path_names i p Hp). clear - M2. induction M2 as [|x y a b H HF IH]; [constructor|]. cbn [rev]. apply Forall2_app; auto.
Qed.
Lemma shows_ok K G es : kreld K G -> group_key d q es K -> AggSpec.spells d es K -> shows D q (dnode d) es G.
Proof.
  intros HK HG (Ei & Hp). pose proof HK as [B1 B2 B3 B4 B5]. pose proof (Forall2_app B2 B1) as HF.
  destruct (says_refpath es _ Hp _ HF) as (w & W1 & W2 & W3). { rewrite Ei. eapply Forall_impl; [|exact B4]. intros x (y & Hy & _). eauto. }
  exists w. split; [exact W1|]. split; [|split; [exact W2|]].
  - rewrite <- W2 in HF. exact (krel_fun D q d Hw K _ _ (group_rel D q d Hw Hs es w _ K Hp HF W3 HG) HK).
  - rewrite Ei in W3. clear - W3 B4 Hw. induction W3 as [|x y l m Hx HF IH]; [constructor|]. inversion B4 as [|? ? (z & Hz & Iz) B4']; subst. constructor; [rewrite (aok_fun D q d Hw x y z Hx Hz); exact Iz|auto].
Qed.

(* ---------------- the result ---------------- *)
Lemma named_row recs W x : Forall2 (Forall2 goodd) recs W -> group_present d q recs (gp_key x) -> group_ok d q recs x ->
  exists r, kreld (gp_key x) (rw_group r) /\ present D q W (rw_group r) /\ rw_key r = gp_ents x /\ rw_res r = gp_res x /\ row_ok D q d W r.
Proof.
  intros HW HP (HG & Hsp & HR). destruct (present_name _ _ _ HW HP) as (G & HK & HPr). exists (mkrow G (gp_ents x) (gp_res x)). cbn [rw_group rw_key rw_res]. split; [exact HK|]. split; [exact HPr|]. split; [reflexivity|]. split; [reflexivity|].
  split; cbn [rw_group rw_key rw_res]; [exact (shows_ok _ _ _ HK HG Hsp)|].
  assert (Inc : incl (q_ker q) (q_ker q)) by apply incl_refl. revert HR Inc. generalize (q_ker q) at 1 2 4. intros cs HR. induction HR as [|c es cs ess (l & rs & C1 & C2 & C3) HR IH]; intro Inc; [constructor|]. constructor; [|apply IH; intros y Hy; apply Inc; right; exact Hy].
  assert (Hc : In c (q_ker q)) by (apply Inc; left; reflexivity). exists rs. split; [|exact C3]. rewrite <- C2, <- (total_name c recs W Hc HW). f_equal. f_equal. symmetry. exact (collect_name c _ _ _ _ Hc HK C1 W HW).
Qed.
Lemma result_ok recs W out Gs : Forall2 (Forall2 goodd) recs W -> is_output d q recs out Gs -> exists rows, result_of D q d W out rows.
Proof.
  intros HW (Eo & Hnd & Hin & HF).
  assert (HR : exists rows, Forall2 (fun x r => kreld (gp_key x) (rw_group r) /\ present D q W (rw_group r) /\ rw_key r = gp_ents x /\ rw_res r = gp_res x /\ row_ok D q d W r) Gs rows).
  { assert (HP : Forall (fun x => group_present d q recs (gp_key x)) Gs). { apply Forall_forall. intros x Hx. apply Hin, in_map, Hx. } clear - HW HF HP Hw Hs Hfresh. induction Gs as [|x Gs IH]; [exists []; constructor|]. inversion HF; inversion HP; subst. destruct IH as (rows & IH); auto. destruct (named_row recs W x HW) as (r & Hr); auto. exists (r :: rows). constructor; auto. }
  destruct HR as (rows & HR). exists rows. split; [|split; [|split]].
  - rewrite Eo. clear - HR. induction HR as [|x r Gs rows (_ & _ & E1 & E2 & _) HR IH]; [reflexivity|]. cbn [map]. rewrite E1, E2, IH. reflexivity.
  - clear - HR Hnd Hw. induction HR as [|x r Gs rows (HK & _) HR IH]; [constructor|]. cbn [map] in *. inversion Hnd as [|? ? Nin Hnd']; subst. constructor; [|auto]. intro I. apply Nin. apply in_map_iff in I as (r' & Er & Hr'). destruct (AggProofs6.F2_r _ _ _ HR r' Hr') as (x' & Hx' & (HK' & _)). rewrite Er in HK'. rewrite (krel_inj D q d _ _ _ HK HK'). apply in_map, Hx'.
  - intro G. split.
    + intro I. apply in_map_iff in I as (r & <- & Hr). destruct (AggProofs6.F2_r _ _ _ HR r Hr) as (x & _ & (_ & HP & _)). exact HP.
    + intro HP. destruct (present_back G recs W HW HP) as (K & HK & HGP). apply Hin in HGP. apply in_map_iff in HGP as (x & Ex & Hx). destruct (AggProofs6.F2_l _ _ _ HR x Hx) as (r & Hr & (HK' & _)). rewrite Ex in HK'. rewrite (krel_fun D q d Hw _ _ _ HK HK'). apply in_map, Hr.
  - clear - HR. induction HR as [|x r Gs rows (_ & _ & _ & _ & H) HR IH]; constructor; auto.
Qed.
End Out.
