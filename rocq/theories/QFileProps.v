(* C76: a query over .cali files reports exactly what was written to them *)
From Verif Require Import Base VariantModel VariantSpec NamesModel NamesProps TextModel TreeModel TreeProofs CaliFileModel CaliFileProofs CaliFileProofs2 CaliFileProofs3 CaliFileProofs4 CaliFileProps ArithSpec AggModel AggSpec AggSpec2 AggProofs AggProofs2 AggProofs3 AggProofs4 AggProofs5 AggProofs6 AggProofs7 AggProofs9 AggProofs11 AggProps FilterModel QFileModel QFileSpec QFileProofs QFileProofs2 QFileProofs3 QFileProofs4 QFileProofs5 QFileProofs6.
Open Scope N_scope.

Lemma onames_len c : (length (onames c) <= 4)%nat. Proof. destruct c; cbn [onames length]; lia. Qed.
Lemma onames_all l : (length (flat_map onames l) <= 4 * length l)%nat.
Proof. induction l as [|c l IH]; cbn [flat_map length]; [lia|]. rewrite app_length. pose proof (onames_len c). lia. Qed.
Lemma flush_phi cs tot names l : (forall c, In c cs -> incl (onames c) names) -> forall d out d', flush_ents cs tot l d = Some (out, d') -> (phi names d' <= phi names d)%nat.
Proof.
  intro Hc. induction l as [|[e|] l IH]; intros d out d' H; cbn [flush_ents] in H; [assert (d = d') by congruence; subst; lia| |eapply IH; eauto].
  destruct (append_results (combine (combine cs tot) (ae_ker e)) d) as [(es, d1)|] eqn:E; [|discriminate H]. destruct (flush_ents cs tot l d1) as [(o, d2)|] eqn:E2; [|discriminate H]. assert (d2 = d') by congruence. subst d2.
  pose proof (appends_phi names _ d es d1 (fun x Hx => Hc _ (combine_fst _ _ _ _ Hx)) E). pose proof (IH d1 o d' E2). lia.
Qed.
Lemma flush_len q d g out d' : flush q (d, g) = Some (out, d') -> (length (d_nodes d') <= length (d_nodes d) + 8 * length (q_ker q))%nat.
Proof.
  intro H. unfold flush in H. cbn [fst snd] in H. assert (L := flush_phi (q_ker q) (g_tot g) (flat_map onames (q_ker q)) (g_ents g) (fun c Hc s Hs => proj2 (in_flat_map _ _ _) (ex_intro _ c (conj Hc Hs))) d out d' H).
  unfold phi in L. pose proof (filter_len (unreg d) (flat_map onames (q_ker q))). pose proof (onames_all (q_ker q)). lia.
Qed.

(* The query reads all files without an error; the result is that of the query evaluated over what was written:
   attribute names, values and region paths, whatever the ids in the files and in the reader are *)
Theorem C76_query dfmt dparse parse conds D q fs W : query_ok dfmt dparse D q fs W ->
  exists d g, aggregate_files dparse parse conds q (map (text_of dfmt) fs) = Some (d, g, false) /\
    (forall out d', flush q (d, g) = Some (out, d') -> exists rows, result_of D q d' (passing parse D conds W) out rows) /\
    (no_avg q -> exists out d', flush q (d, g) = Some (out, d')).
Proof.
  intros [Hf Hg HD Hfr (Ws & HWs & ->) Hlen]. destruct (agg_files dfmt dparse parse conds D q fs Ws Hf Hg HD Hfr HWs) as (d & g & recs & E & Hw & HR & HG & L); [lia|].
  exists d, g. split; [exact E|]. split.
  - intros out d' HF. pose proof (flush_len q d g out d' HF) as L2. assert (Hs' : size_ok d') by (unfold size_ok; lia).
    destruct (groups_ok q recs d g out d' HR HF Hs') as (_ & Gs & HO). pose proof HF as HF'. unfold flush in HF'. cbn [fst snd] in HF'. destruct (flush_ok _ _ _ _ _ _ HF' Hw Hs') as (Gr & Hw' & _).
    exact (result_ok D q d' Hw' Hs' Hfr recs _ out Gs (recs_grow D (q_keys q) d d' recs _ Hw Hw' Hs' Gr HG) HO).
  - intro Hn. destruct (flush_total q d g Hn) as (out & d' & HF & _). exists out, d'. exact HF.
Qed.
(* Without aggregation: the records that pass the filter, as they were written, in the order of files and records *)
Lemma good_says D keys d e w : good D keys d e w -> says (dnode d) e w.
Proof.
  intros [a s v Ha|i p l Hi Hl HF].
  - constructor. exact (ao_call _ _ _ _ _ Ha).
  - constructor. exact (path_names D (mkq keys false false []) d i l Hl p HF).
Qed.
Theorem C76_list dfmt dparse parse conds D fs W : query_ok dfmt dparse D (mkq [] false false []) fs W ->
  exists d out, list_files dparse parse conds (map (text_of dfmt) fs) = Some (d, out, false) /\ Forall2 (record_says (dnode d)) out (passing parse D conds W).
Proof.
  intros [Hf Hg HD Hfr (Ws & HWs & ->) Hlen]. destruct (lst_files dfmt dparse parse conds D fs Ws Hf Hg HD HWs) as (d & out & E & Hw & HG); [lia|]. exists d, out. split; [exact E|].
  eapply Forall2_imp; [|exact HG]. intros r w. apply Forall2_imp. intros e y. apply good_says.
Qed.

(* ---------- results by name ---------- *)
Lemma values_match c x w : by_attribute c = false -> map snd (flat_map (nmatch1 c 0 x) w) = values x (wimms w).
Proof.
  intro Hb. unfold values, wimms. induction w as [|[s v|p] w IH]; [reflexivity| |]; cbn [flat_map nmatch1]; rewrite map_app, IH, flat_map_app; f_equal.
  - cbn [flat_map fst snd app]. rewrite app_nil_r. destruct (beqb s x); reflexivity.
  - rewrite Hb. destruct p as [|(s, v) p]; reflexivity.
Qed.
Lemma nmatch_values c x w : by_attribute c = false -> aggregates c = [x] -> map snd (nmatch c w) = values x (wimms w).
Proof. intros Hb Ha. unfold nmatch. rewrite Ha. cbn [nmatch_l]. rewrite app_nil_r. apply values_match, Hb. Qed.
Lemma contrib_values D q c x G W : by_attribute c = false -> aggregates c = [x] -> map snd (flat_map snd (flat_map (contributes D q c G) W)) = measured x (below_group D q (is_incl c) G W).
Proof.
  intros Hb Ha. unfold measured, below_group. induction W as [|w W IH]; [reflexivity|]. cbn [flat_map filter]. rewrite flat_map_app, map_app, IH. unfold contributes.
  destruct (ngroup_eq_dec (group_of D q w) G); cbn [orb flat_map snd]; [rewrite app_nil_r, (nmatch_values c x w Hb Ha); reflexivity|].
  rewrite (andb_comm (is_incl c)). destruct (encl_in G (group_of D q w) && is_incl c); cbn [andb]; [|reflexivity]. unfold matched. pose proof (nmatch_values c x w Hb Ha) as V. destruct (nmatch c w) as [|p l]; cbn [flat_map snd map app].
  - cbn [map] in V. rewrite <- V. reflexivity.
  - rewrite app_nil_r. cbn [map] in V. rewrite <- V. reflexivity.
Qed.
Lemma row_kernel D q d W out rows r j c : result_of D q d W out rows -> In r rows -> nth_error (q_ker q) j = Some c ->
  exists es rs, nth_error (rw_res r) j = Some es /\ kresult c (ntotal c W) (kfinal c (flat_map (contributes D q c (rw_group r)) W)) = Some rs /\ named d rs es.
Proof.
  intros (_ & _ & _ & HF) Hr Hj. rewrite Forall_forall in HF. destruct (HF r Hr) as (_ & HK). destruct (nth_error (rw_res r) j) as [es|] eqn:Ees.
  - destruct (F2_nth _ _ _ HK j c es Hj Ees) as (rs & E & Hn). exists es, rs. auto.
  - apply nth_error_None in Ees. apply F2_len in HK. assert (Y : nth_error (q_ker q) j <> None) by congruence. apply nth_error_Some in Y. lia.
Qed.
(* sum, min, max: over the values measured in the group *)
Theorem C76_fold D q d W out rows r j c op x i nm : result_of D q d W out rows -> In r rows -> nth_error (q_ker q) j = Some c ->
  (c, op, nm) = (CSum x i, vadd, sel i p_incl p_sum ++ x) \/ (c, op, nm) = (CMin x i, vmin, sel i p_imin p_min ++ x) \/ (c, op, nm) = (CMax x i, vmax, sel i p_imax p_max ++ x) ->
  exists es, nth_error (rw_res r) j = Some es /\ named d (opt_res (fold1 op (measured x (below_group D q i (rw_group r) W))) nm) es.
Proof.
  intros HR Hr Hj Hc. destruct (row_kernel D q d W out rows r j c HR Hr Hj) as (es & rs & E1 & E2 & Hn). exists es. split; [exact E1|].
  destruct Hc as [Hc|[Hc|Hc]]; injection Hc as -> -> ->.
  - rewrite (kfinal_op (CSum x i) vadd) in E2; [|reflexivity|intros ? ? (? & ?); reflexivity|reflexivity]. rewrite (contrib_values D q (CSum x i) x _ W eq_refl eq_refl) in E2. cbn [kresult k_a is_incl] in E2. injection E2 as <-. exact Hn.
  - rewrite (kfinal_op (CMin x i) vmin) in E2; [|reflexivity|intros ? ? (? & ?); reflexivity|reflexivity]. rewrite (contrib_values D q (CMin x i) x _ W eq_refl eq_refl) in E2. cbn [kresult k_a is_incl] in E2. injection E2 as <-. exact Hn.
  - rewrite (kfinal_op (CMax x i) vmax) in E2; [|reflexivity|intros ? ? (? & ?); reflexivity|reflexivity]. rewrite (contrib_values D q (CMax x i) x _ W eq_refl eq_refl) in E2. cbn [kresult k_a is_incl] in E2. injection E2 as <-. exact Hn.
Qed.
(* count: the number of records of the group *)
Theorem C76_count D q d W out rows r j : result_of D q d W out rows -> In r rows -> nth_error (q_ker q) j = Some CCount ->
  exists es, nth_error (rw_res r) j = Some es /\
    let n := wrap64 (N.of_nat (length (below_group D q false (rw_group r) W))) in named d (if 0 <? n then [(n_count, VUint n)] else []) es.
Proof.
  intros HR Hr Hj. destruct (row_kernel D q d W out rows r j CCount HR Hr Hj) as (es & rs & E1 & E2 & Hn). exists es. split; [exact E1|]. cbv zeta. rewrite kfinal_count in E2 by exact Logic.I.
  assert (Z : nsum (map (fun x => cnt1 (snd x)) (flat_map (contributes D q CCount (rw_group r)) W)) = N.of_nat (length (below_group D q false (rw_group r) W))).
  { clear. unfold below_group. induction W as [|w W IH]; [reflexivity|]. cbn [flat_map filter]. rewrite map_app. unfold contributes at 1. cbn [is_incl]. rewrite andb_false_r. cbn [andb orb].
    destruct (ngroup_eq_dec (group_of D q w) (rw_group r)); cbn [orb app map]; [|exact IH]. cbn [length]. rewrite Nat2N.inj_succ. cbn [andb orb] in IH. rewrite <- IH. unfold nsum at 1. cbn [fold_right]. fold (nsum (map (fun x : bool * list (nat * value) => cnt1 (snd x)) (flat_map (contributes D q CCount (rw_group r)) W))). cbn [snd]. unfold nmatch. cbn [aggregates nmatch_l cnt1]. rewrite N.add_1_l. reflexivity. }
  rewrite Z in E2. cbn [kresult k_n] in E2. injection E2 as <-. exact Hn.
Qed.

(* ---------- conservation ---------- *)
Lemma zsum_at {B} (eqd : forall a b : B, {a = b} + {a <> b}) (g : B -> Z) k c Ks : NoDup Ks -> (zsum (map (fun K => g K + if eqd k K then c else 0) Ks) = zsum (map g Ks) + if in_dec eqd k Ks then c else 0)%Z.
Proof.
  induction 1 as [|K Ks Nin ND IH]; [reflexivity|]. cbn [map]. unfold zsum. cbn [fold_right]. fold (zsum (map (fun K0 => g K0 + (if eqd k K0 then c else 0))%Z Ks)). fold (zsum (map g Ks)). rewrite IH.
  destruct (in_dec eqd k (K :: Ks)) as [[e|I]|I], (in_dec eqd k Ks) as [J|J], (eqd k K) as [e'|ne]; try lia; exfalso; try (subst; contradiction); try (destruct ne; symmetry; exact e); try (apply I; first [left; symmetry; assumption|right; assumption]).
Qed.
Lemma zpart {A B} (eqd : forall a b : B, {a = b} + {a <> b}) (key : A -> B) (f : A -> Z) l Ks : NoDup Ks -> (forall a, In a l -> In (key a) Ks) ->
  zsum (map (fun K => zsum (map f (filter (fun a => if eqd (key a) K then true else false) l))) Ks) = zsum (map f l).
Proof.
  intros ND. induction l as [|a l IH]; intro H.
  - cbn [filter map]. clear. induction Ks as [|K Ks IH]; [reflexivity|]. exact IH.
  - rewrite (map_ext _ (fun K => (zsum (map f (filter (fun a => if eqd (key a) K then true else false) l)) + if eqd (key a) K then f a else 0)%Z)).
    + rewrite (zsum_at eqd _ (key a) (f a) Ks ND), (IH (fun b Hb => H b (or_intror Hb))). destruct (in_dec eqd (key a) Ks) as [|N]; [|destruct (N (H a (or_introl eq_refl)))]. unfold zsum. cbn [map fold_right]. lia.
    + intro K. cbn [filter]. destruct (eqd (key a) K); [|lia]. unfold zsum. cbn [map fold_right]. lia.
Qed.
Lemma below_own D q G W : below_group D q false G W = filter (fun w => if ngroup_eq_dec (group_of D q w) G then true else false) W.
Proof. unfold below_group. apply filter_ext. intro w. cbn [andb]. apply orb_false_r. Qed.
Lemma groups_cover D q d W out rows w : result_of D q d W out rows -> In w W -> In (group_of D q w) (map rw_group rows).
Proof. intros (_ & _ & HP & _) Hw. apply HP. exists w. split; [exact Hw|]. left. reflexivity. Qed.
(* the sums of the rows add up to the sum over all records that pass the filter (signed 64-bit values; modulo 2^64) *)
Theorem C76_sum_conserved D q d W out rows j x : result_of D q d W out rows -> nth_error (q_ker q) j = Some (CSum x false) ->
  Forall (fun v => exists z, v = VInt z /\ s64_ok z) (measured x W) ->
  swrap (zsum (map (fun r => zsum (ints_of (nth j (rw_res r) []))) rows)) = swrap (zsum (map the_int (measured x W))).
Proof.
  intros HR Hj Hi. assert (Ei : forall V : list nrec, incl V W -> measured x V = map VInt (map the_int (measured x V)) /\ Forall s64_ok (map the_int (measured x V))).
  { intros V HV. assert (F : Forall (fun v => exists z, v = VInt z /\ s64_ok z) (measured x V)). { rewrite Forall_forall in *. intros v Hv. apply Hi. unfold measured in *. apply in_flat_map in Hv as (w & Hw & Hv). apply in_flat_map. exists w. auto. }
    clear - F. induction F as [|v l (z & -> & Hz) F (IH1 & IH2)]; [split; [reflexivity|constructor]|]. cbn [map the_int]. split; [f_equal; exact IH1|constructor; auto]. }
  assert (Em : zsum (map the_int (measured x W)) = zsum (map (fun w => zsum (map the_int (values x (wimms w)))) W)).
  { clear. unfold measured. induction W as [|w W IH]; [reflexivity|]. cbn [flat_map map]. rewrite map_app, zsum_app, IH. reflexivity. }
  rewrite Em. rewrite <- (zpart ngroup_eq_dec (group_of D q) (fun w => zsum (map the_int (values x (wimms w)))) W (map rw_group rows) (proj1 (proj2 HR)) (fun w => groups_cover D q d W out rows w HR)).
  rewrite map_map. apply swrap_zsum. intros r Hr. destruct (C76_fold D q d W out rows r j (CSum x false) vadd x false _ HR Hr Hj (or_introl eq_refl)) as (es & Ees & Hn).
  destruct (Ei (below_group D q false (rw_group r) W)) as (E1 & E2). { unfold below_group. intros w Hw. apply filter_In in Hw as (Hw & _). exact Hw. }
  rewrite E1 in Hn. rewrite (nth_error_nth _ _ [] Ees), (sum_int_res d _ es _ Hn E2), below_own. f_equal. clear. unfold measured. induction (filter _ W) as [|w V IH]; [reflexivity|]. cbn [flat_map map]. rewrite map_app, zsum_app, IH. reflexivity.
Qed.
(* and the counts add up to the number of these records *)
Theorem C76_count_conserved D q d W out rows j : result_of D q d W out rows -> nth_error (q_ker q) j = Some CCount -> N.of_nat (length W) < 18446744073709551616 ->
  fold_right N.add 0 (map (fun r => fold_right N.add 0 (uints_of (nth j (rw_res r) []))) rows) = N.of_nat (length W).
Proof.
  intros HR Hj HL.
  assert (E : forall r, In r rows -> fold_right N.add 0 (uints_of (nth j (rw_res r) [])) = N.of_nat (length (below_group D q false (rw_group r) W))).
  { intros r Hr. destruct (C76_count D q d W out rows r j HR Hr Hj) as (es & Ees & Hn). cbv zeta in Hn. rewrite (nth_error_nth _ _ [] Ees). assert (L : (length (below_group D q false (rw_group r) W) <= length W)%nat) by apply filter_len.
    assert (Ew : wrap64 (N.of_nat (length (below_group D q false (rw_group r) W))) = N.of_nat (length (below_group D q false (rw_group r) W))) by (unfold wrap64; apply N.mod_small; apply (N.le_lt_trans _ (N.of_nat (length W))); [lia|exact HL]). rewrite Ew in Hn.
    destruct (N.ltb_spec 0 (N.of_nat (length (below_group D q false (rw_group r) W)))) as [P|P]; inversion Hn as [|? ? ? ? (a & Ha & ->) T]; subst.
    - inversion T; subst. unfold uints_of. cbn [flat_map snd app fold_right]. apply N.add_0_r.
    - unfold uints_of. cbn [flat_map fold_right]. lia. }
  apply N2Z.inj. transitivity (zsum (map (fun w : nrec => 1%Z) W)).
  - rewrite <- (zpart ngroup_eq_dec (group_of D q) (fun _ => 1%Z) W (map rw_group rows) (proj1 (proj2 HR)) (fun w => groups_cover D q d W out rows w HR)).
    rewrite map_map. clear HR. induction rows as [|r rows IH]; [reflexivity|]. cbn [map fold_right]. unfold zsum at 1. cbn [fold_right]. match goal with |- _ = (_ + fold_right Z.add 0 ?l)%Z => fold (zsum l) end. rewrite N2Z.inj_add, (E r (or_introl eq_refl)), IH by (intros; apply E; right; auto). f_equal.
    rewrite below_own. clear. induction (filter _ W) as [|w V IH]; [reflexivity|]. unfold zsum. cbn [map fold_right length]. fold (zsum (map (fun _ : nrec => 1%Z) V)). rewrite <- IH. lia.
  - clear. induction W as [|w W IH]; [reflexivity|]. unfold zsum. cbn [map fold_right length]. fold (zsum (map (fun _ : nrec => 1%Z) W)). rewrite IH. lia.
Qed.
