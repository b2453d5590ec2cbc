(* C30 (continued: counts), C32 order independence and merging, C33 inclusive metrics *)
From Verif Require Import Base VariantModel VariantSpec NamesModel NamesProps TextModel TreeModel TreeProofs CaliFileModel CaliFileProofs2 CaliFileProofs3 CaliFileProofs4 FloatModel ArithSpec ArithProofs AggModel AggSpec AggSpec2 AggSpec3 AggProofs AggProofs2 AggProofs3 AggProofs4 AggProofs5 AggProofs6 AggProofs7 AggProofs8 AggProofs9 AggProofs10 AggProofs11 AggProofs12 AggProps.
From Coq Require Import Permutation Sorted.
Open Scope N_scope.

Lemma zn_sum l : zsum (map Z.of_N l) = Z.of_N (nsum l).
Proof. induction l as [|a l IH]; cbn [map zsum nsum fold_right]; auto. fold (zsum (map Z.of_N l)). fold (nsum l). rewrite IH. lia. Qed.
Lemma nsum_partition {A} (key : A -> gkey) (f : A -> N) (l : list A) Ks : NoDup Ks -> (forall a, In a l -> In (key a) Ks) ->
  nsum (map (fun K => nsum (map f (filter (fun a => if gkey_eq_dec (key a) K then true else false) l))) Ks) = nsum (map f l).
Proof.
  intros ND H. assert (E := zsum_partition key (fun a => Z.of_N (f a)) l Ks ND H). apply N2Z.inj. rewrite <- (zn_sum (map f l)), map_map, <- E, <- zn_sum, map_map. f_equal. apply map_ext. intro K. rewrite <- zn_sum, map_map. reflexivity.
Qed.
Lemma wrap_nsum {A} (f g : A -> N) l : (forall a, In a l -> wrap64 (f a) = wrap64 (g a)) -> wrap64 (nsum (map f l)) = wrap64 (nsum (map g l)).
Proof. induction l as [|a l IH]; intro H; cbn [map nsum fold_right]; auto. fold (nsum (map f l)). fold (nsum (map g l)). rewrite <- wrap_add_l, <- wrap_add_r, (H a), IH by (try (left; auto); intros; apply H; right; auto). rewrite wrap_add_l, wrap_add_r. reflexivity. Qed.
(* Conservation of counts: the counts of the groups add up to the number of records (each record counting as
   often as its count value says), modulo 2^64 *)
Theorem C30_count_conserved q recs out d' j : aggregated q recs out d' -> nth_error (q_ker q) j = Some CCount ->
  exists G, is_output d' q recs out G /\ wrap64 (nsum (map (fun g => nsum (uints_of (nth j (gp_res g) []))) G)) = wrap64 (nsum (map (counts_for d' CCount) recs)).
Proof.
  intros H Hj. destruct (C30_count q recs out d' j CCount H Hj (or_introl eq_refl)) as (G & HG & R). destruct (aggregated_ok q recs out d' H) as (Hw & Hs & F & _). exists G. split; auto.
  destruct HG as (_ & ND & P & _).
  rewrite <- (nsum_partition (key_of d' q) (counts_for d' CCount) recs (map gp_key G) ND).
  - rewrite map_map. apply wrap_nsum. intros g Hg. destruct (R g Hg) as (rs & es & res & B & E & Na & Er). cbv zeta in Er.
    apply (members_filter d' q (gp_key g) recs rs Hw Hs F) in B. rewrite <- B. rewrite (nth_error_nth _ _ [] E).
    destruct (0 <? wrap64 (nsum (map (counts_for d' CCount) rs))) eqn:Ez.
    + rewrite Er in Na. inversion Na as [|? ? ? ? (a & A & Ee) T]; subst. inversion T; subst. unfold uints_of. cbn [flat_map snd app nsum fold_right]. rewrite N.add_0_r. apply wrap_id. apply wrap_ok.
    + apply N.ltb_ge in Ez. rewrite Er in Na. inversion Na; subst. cbn [uints_of flat_map nsum fold_right]. change (wrap64 0) with 0. lia.
  - intros r Hr. apply P. rewrite Forall_forall in F. exists r, (key_of d' q r). split; auto. split; [apply key_of_ok; auto|left; auto].
Qed.

(* ================= C32: order of records, merging partial results ================= *)
(* The groups and the kernel results do not depend on the order of the records.  Values are integers or, for
   min and max, doubles without NaN and without both zeros; sums of doubles do depend on the order
   (C32_double_order_refuted), and so does the minimum of the two zeros (C32_zero_order_refuted) *)
Theorem C32_order_independent q d0 recs1 recs2 out1 out2 d1 d2 : wf d0 -> Forall (Forall (entry_ok d0)) recs1 -> targets_known d0 q -> Forall (order_free d0 recs1) (q_ker q) -> Permutation recs1 recs2 ->
  aggregated q recs1 out1 d1 -> grow d0 d1 -> aggregated q recs2 out2 d2 -> grow d0 d2 ->
  exists G1 G2, is_output d1 q recs1 out1 G1 /\ is_output d2 q recs2 out2 G2 /\ Permutation (map gp_key G1) (map gp_key G2) /\
    forall x1 x2, In x1 G1 -> In x2 G2 -> gp_key x1 = gp_key x2 -> Forall2 (fun es1 es2 => exists rs, named d1 rs es1 /\ named d2 rs es2) (gp_res x1) (gp_res x2).
Proof. apply order_ok_free. Qed.
(* Aggregating the outputs of two partial aggregations gives the result of aggregating all records *)
Theorem C32_merge_partial q d0 recsA recsB outA outB outM outT dA dB dM dT :
  wf d0 -> Forall (Forall (entry_ok d0)) (recsA ++ recsB) -> targets_known d0 q -> Forall (merge_free d0 (recsA ++ recsB)) (q_ker q) -> separated dM q (recsA ++ recsB) ->
  aggregated q recsA outA dA -> grow d0 dA -> aggregated q recsB outB dB -> grow d0 dB ->
  aggregated q (outA ++ outB) outM dM -> grow dA dM -> grow dB dM ->
  aggregated q (recsA ++ recsB) outT dT -> grow d0 dT ->
  exists GM GT, is_output dM q (outA ++ outB) outM GM /\ is_output dT q (recsA ++ recsB) outT GT /\ Permutation (map gp_key GM) (map gp_key GT) /\
    forall x y, In x GM -> In y GT -> gp_key x = gp_key y -> Forall2 (fun es1 es2 => exists rs, named dM rs es1 /\ named dT rs es2) (gp_res x) (gp_res y).
Proof. apply merge_ok_free. Qed.

(* ================= C33: inclusive sums ================= *)
(* every enclosing region of a record with a value has an output record *)
Theorem C33_parents_present q recs out d' c r K A : aggregated q recs out d' -> In c (q_ker q) -> is_incl c = true -> In r recs -> smatch c d' r <> [] -> group_key d' q r K -> encloses A K ->
  exists G g, is_output d' q recs out G /\ In g G /\ gp_key g = A.
Proof.
  intros H Hc Hi Hr Hm HK HA. destruct (aggregated_ok q recs out d' H) as (_ & _ & _ & G & HG). exists G. assert (X : In A (map gp_key G)). { destruct HG as (_ & _ & P & _). apply P. exists r, K. split; auto. split; auto. right. split; auto. exists c. auto. }
  apply in_map_iff in X as (g & E & Hg). exists g. auto.
Qed.
Definition enc_eq (K K' : gkey) : bool := if gkey_eq_dec K K' then true else if encl_dec K K' then true else false.
Lemma enc_eq_spec K K' : enc_eq K K' = true <-> K = K' \/ encloses K K'.
Proof. unfold enc_eq. destruct (gkey_eq_dec K K'); [tauto|]. destruct (encl_dec K K'); [tauto|]. split; [discriminate|tauto]. Qed.
Lemma covered_filter d q K recs rs : wf d -> size_ok d -> Forall (Forall (entry_ok d)) recs -> covered d q K recs rs -> rs = filter (fun r => enc_eq K (key_of d q r)) recs.
Proof.
  intros Hw Hs F B. apply (keep_fun _ _ _ B). apply keep_filter. intros r Hr. rewrite Forall_forall in F. rewrite enc_eq_spec. apply and_comm. split.
  - intros (K' & HK & H). apply (group_key_of d q r K' Hw Hs (F r Hr)) in HK. subst K'. exact H.
  - intro H. exists (key_of d q r). split; auto. apply key_of_ok; auto.
Qed.
Lemma filter_filter {A} (f g : A -> bool) l : (forall x, In x l -> f x = true -> g x = true) -> filter f (filter g l) = filter f l.
Proof. induction l as [|a l IH]; intro H; cbn [filter]; auto. destruct (g a) eqn:E; cbn [filter]; rewrite IH by (intros; apply H; auto; right; auto); auto. destruct (f a) eqn:E2; auto. rewrite (H a (or_introl eq_refl) E2) in E. discriminate. Qed.
Lemma nodup_filter_map {A B} (f : A -> B) (g : A -> bool) l : NoDup (map f l) -> NoDup (map f (filter g l)).
Proof.
  induction l as [|a l IH]; cbn [map filter]; intro ND; auto. inversion ND as [|? ? Hn ND']; subst. destruct (g a); cbn [map]; auto. constructor; auto. intro X. apply Hn. apply in_map_iff in X as (y & E & Hy). apply filter_In in Hy as (Hy & _). rewrite <- E. apply in_map. exact Hy.
Qed.
(* The inclusive sum of a region is the sum of the exclusive sums of the region and all regions below it
   (modulo 2^64).  The input carries no results of an earlier aggregation *)
Theorem C33_inclusive_sum q recs out d' i j x : aggregated q recs out d' -> nth_error (q_ker q) i = Some (CSum x false) -> nth_error (q_ker q) j = Some (CSum x true) -> get_attr d' x <> None ->
  all_ints d' [x] recs -> Forall (fun r => vals d' [p_sum ++ x; p_incl ++ x] r = []) recs ->
  exists G, is_output d' q recs out G /\ forall g, In g G ->
    swrap (zsum (ints_of (nth j (gp_res g) []))) = swrap (zsum (map (fun g' => zsum (ints_of (nth i (gp_res g') []))) (filter (fun g' => enc_eq (gp_key g) (gp_key g')) G))).
Proof.
  intros H Hi Hj Hx Ha Hn. destruct (aggregated_ok q recs out d' H) as (Hw & Hs & F & G & HG). exists G. split; auto.
  assert (VX : forall p, In p [p_sum; p_incl] -> forall r, In r recs -> vals d' [x; p ++ x] r = vals d' [x] r).
  { intros p Hp r Hr. rewrite Forall_forall in Hn. specialize (Hn r Hr). revert Hn. unfold vals. induction (imms_of r) as [|(a, v) l IH]; cbn [flat_map fst snd]; auto. intro E. apply app_eq_nil in E as (E1 & E2). rewrite (IH E2). f_equal.
    assert (N1 : is_named d' [p_sum ++ x; p_incl ++ x] a = false) by (destruct (is_named d' [p_sum ++ x; p_incl ++ x] a); [discriminate|reflexivity]). unfold is_named in *. cbn [existsb] in *. apply orb_false_iff in N1 as (N1 & N2). apply orb_false_iff in N2 as (N2 & _).
    replace (match get_attr d' (p ++ x) with Some b => b =? a | None => false end) with false; [rewrite ?orb_false_r; cbn [orb]; rewrite ?orb_false_r; reflexivity|]. destruct Hp as [<-|[<-|[]]]; symmetry; [exact N1|exact N2]. }
  assert (IV : forall p, In p [p_sum; p_incl] -> forall r, In r recs -> ivals d' [x; p ++ x] r = ivals d' [x] r) by (intros p Hp r Hr; unfold ivals; rewrite (VX p Hp r Hr); reflexivity).
  assert (AI : forall p, In p [p_sum; p_incl] -> all_ints d' [x; p ++ x] recs). { intros p Hp. unfold all_ints in *. rewrite Forall_forall in *. intros r Hr. rewrite (VX p Hp r Hr). apply Ha. exact Hr. }
  assert (sel_res : forall k inc, nth_error (q_ker q) k = Some (CSum x inc) -> forall g, In g G -> exists rs, below inc d' q (gp_key g) recs rs /\ swrap (zsum (ints_of (nth k (gp_res g) []))) = swrap (zsum (flat_map (ivals d' [x]) rs))).
  { intros k inc Hk g Hg. destruct HG as (_ & _ & _ & O). rewrite Forall_forall in O. destruct (O g Hg) as (_ & _ & R).
    destruct (nth_error (gp_res g) k) as [es|] eqn:Ees. 2:{ apply nth_error_None in Ees. apply F2_len in R. assert (X : nth_error (q_ker q) k <> None) by congruence. apply nth_error_Some in X. lia. }
    destruct (F2_nth _ _ _ R k _ es Hk Ees) as (l & res & C & E & Na). destruct (collect_below d' q _ (gp_key g) recs l C) as (rs & B & Ef). cbn [is_incl] in B. exists rs. split; auto.
    assert (Sub : forall r, In r rs -> In r recs) by (intros r Hr; destruct inc; cbn [below] in B; exact (keep_incl _ _ _ B r Hr)).
    rewrite (kfinal_op (CSum x inc) vadd) in E by (auto; intros ? ? (? & ?); reflexivity). rewrite Ef in E. cbn [kresult k_a] in E. injection E as E.
    assert (E3 : map snd (flat_map (smatch (CSum x inc) d') rs) = map VInt (flat_map (ivals d' [x]) rs) /\ Forall s64_ok (flat_map (ivals d' [x]) rs)).
    { assert (Fr : Forall (fun r => Forall (entry_ok d') r /\ In r recs) rs) by (apply Forall_forall; intros r Hr; rewrite Forall_forall in F; auto).
      clear - Fr Hw Hs Hx Ha AI IV VX. induction Fr as [|r rs (Fr & Hr) Fs IH]; cbn [flat_map map]; [auto|]. destruct IH as (IH1 & IH2). rewrite !map_app, IH1.
      assert (Hp : In (sel inc p_incl p_sum) [p_sum; p_incl]) by (destruct inc; cbn; auto). rewrite (smatch_vals (CSum x inc) x [mkka 1 (sel inc p_incl p_sum ++ x) None AGGPROP] d' r eq_refl eq_refl eq_refl Hw Hs Fr Hx). change (x :: map ka_name [mkka 1 (sel inc p_incl p_sum ++ x) None AGGPROP]) with [x; sel inc p_incl p_sum ++ x].
      unfold all_ints in Ha. rewrite Forall_forall in Ha. destruct (all_ints_map d' [x] [r]) as (Q1 & Q2); [constructor; [apply Ha; auto|constructor]|]. cbn [flat_map] in Q1, Q2. rewrite !app_nil_r in Q2. rewrite !app_nil_r in Q1. rewrite ?app_nil_r in Q1. rewrite (VX _ Hp r Hr), Q1. split; [reflexivity|]. apply Forall_app. auto. }
    destruct E3 as (E3 & E4). unfold fold1 in *. rewrite E3 in E. rewrite <- E in Na. rewrite (nth_error_nth _ _ [] Ees). apply (sum_int_res d' (sel inc p_incl p_sum ++ x)); [exact Na|exact E4]. }
  intros g Hg. destruct (sel_res j true Hj g Hg) as (rs & B & E). cbn [below] in B. rewrite E. apply (covered_filter d' q (gp_key g) recs rs Hw Hs F) in B. clear E. rewrite zsum_flat.
  rewrite <- (zsum_partition (key_of d' q) (fun r => zsum (ivals d' [x] r)) rs (map gp_key (filter (fun g' => enc_eq (gp_key g) (gp_key g')) G))).
  - rewrite map_map. apply swrap_zsum. intros g' Hg'. apply filter_In in Hg' as (Hg' & Eg). destruct (sel_res i false Hi g' Hg') as (rs' & B' & E'). cbn [below] in B'. rewrite E'. apply (members_filter d' q (gp_key g') recs rs' Hw Hs F) in B'. rewrite zsum_flat. f_equal. f_equal. f_equal. rewrite B', B. first [apply filter_filter|symmetry; apply filter_filter]. intros r Hr. destruct (gkey_eq_dec (key_of d' q r) (gp_key g')) as [->|]; [auto|discriminate].
  - apply nodup_filter_map. apply HG.
  - intros r Hr. rewrite B in Hr. apply filter_In in Hr as (Hr & Er). destruct HG as (_ & _ & P & _). assert (X : In (key_of d' q r) (map gp_key G)). { apply P. exists r, (key_of d' q r). split; auto. split; [apply key_of_ok; auto; rewrite Forall_forall in F; auto|left; auto]. }
    apply in_map_iff in X as (g' & E' & Hg'). rewrite <- E'. apply in_map. apply filter_In. split; auto. rewrite E'. exact Er.
Qed.
