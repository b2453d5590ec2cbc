(* C30-C33: aggregation of snapshot records (Aggregator).  The vocabulary (group_key, collect, is_output,
   named, ...) is in AggSpec and AggSpec2. *)
From Verif Require Import Base VariantModel VariantSpec NamesModel NamesProps TextModel TreeModel TreeProofs CaliFileModel CaliFileProofs2 CaliFileProofs3 CaliFileProofs4 FloatModel ArithSpec ArithProofs AggModel AggSpec AggSpec2 AggProofs AggProofs2 AggProofs3 AggProofs4 AggProofs5 AggProofs6 AggProofs7 AggProofs8 AggProofs9 AggProofs10 AggProofs11.
From Coq Require Import Permutation Sorted.
Open Scope N_scope.

Lemma nodup_inj {A B} (f : A -> B) l : NoDup (map f l) -> forall x y, In x l -> In y l -> f x = f y -> x = y.
Proof.
  induction l as [|a l IH]; cbn [map]; intros ND x y Hx Hy E; [destruct Hx|]. inversion ND as [|? ? Hn ND']; subst.
  destruct Hx as [->|Hx]; destruct Hy as [->|Hy]; auto.
  - exfalso. apply Hn. rewrite E. apply in_map. exact Hy.
  - exfalso. apply Hn. rewrite <- E. apply in_map. exact Hx.
Qed.
(* ================= C31: grouping ================= *)
(* The output has exactly one record per group of the input (and, with inclusive kernels, per enclosing
   region that received a value); each output record spells its group and carries the kernel results *)
Theorem C31_groups q recs out d' : aggregated q recs out d' -> exists G, is_output d' q recs out G.
Proof. intro H. apply (aggregated_ok q recs out d' H). Qed.
(* every input record belongs to exactly one group, and that group has exactly one output record *)
Theorem C31_every_record q recs out d' : aggregated q recs out d' -> exists G, is_output d' q recs out G /\
  forall r, In r recs -> exists K, group_key d' q r K /\ (forall K', group_key d' q r K' -> K' = K) /\ exists x, In x G /\ gp_key x = K /\ forall y, In y G -> gp_key y = K -> y = x.
Proof.
  intro H. destruct (aggregated_ok q recs out d' H) as (Hw & Hs & F & G & HG). exists G. split; auto. intros r Hr. rewrite Forall_forall in F. exists (key_of d' q r).
  assert (HK := key_of_ok d' q r Hw Hs (F r Hr)). split; auto. split; [intros K' HK'; eapply group_key_fun; eauto|]. destruct HG as (_ & ND & P & _).
  assert (HI : In (key_of d' q r) (map gp_key G)) by (apply P; exists r, (key_of d' q r); auto). apply in_map_iff in HI as (x & E & Hx). exists x. split; auto. split; auto. intros y Hy Ey. apply (nodup_inj gp_key G ND y x Hy Hx). congruence.
Qed.
(* the order of immediate key entries in a record does not matter *)
Lemma sorted_perm_eq (a : list (N * value)) : forall b, lsorted a -> lsorted b -> Permutation a b -> NoDup (map fst a) -> a = b.
Proof.
  induction a as [|x a IH]; intros b Sa Sb P ND; [apply Permutation_nil in P; auto|]. destruct b as [|y b]; [apply Permutation_sym, Permutation_nil in P; discriminate|].
  inversion Sa as [|? ? Sa' Fa]; subst. inversion Sb as [|? ? Sb' Fb]; subst. cbn [map] in ND. inversion ND as [|? ? Hn ND']; subst.
  assert (E : x = y).
  { assert (Hx : In x (y :: b)) by (eapply Permutation_in; [exact P|left; auto]). assert (Hy : In y (x :: a)) by (eapply Permutation_in; [apply Permutation_sym; exact P|left; auto]).
    destruct Hx as [E|Hx]; [auto|]. destruct Hy as [E|Hy]; [auto|]. rewrite Forall_forall in Fa, Fb. specialize (Fa y Hy). specialize (Fb x Hx). unfold le1 in *. exfalso. apply Hn. replace (fst x) with (fst y) by lia. apply in_map. auto. }
  subst y. f_equal. apply IH; auto. eapply Permutation_cons_inv; eauto.
Qed.
Theorem C31_immediate_order a b : NoDup (map fst a) -> sort_imms a = sort_imms b <-> Permutation a b.
Proof.
  intro ND. split; intro H.
  - eapply Permutation_trans; [apply sort_perm|]. rewrite H. apply Permutation_sym, sort_perm.
  - apply sorted_perm_eq; [apply sort_sorted|apply sort_sorted| |].
    + eapply Permutation_trans; [apply Permutation_sym, sort_perm|]. eapply Permutation_trans; [exact H|apply sort_perm].
    + eapply Permutation_NoDup; [apply Permutation_map, sort_perm|auto].
Qed.
(* without any grouping there is one output record *)
Theorem C31_no_grouping q recs out d' : aggregated q recs out d' -> q_keys q = [] -> q_all q = false -> q_nested q = false -> recs <> [] -> length out = 1%nat.
Proof.
  intros H E1 E2 E3 Hne. destruct (aggregated_ok q recs out d' H) as (Hw & Hs & F & G & (E & ND & P & _)).
  assert (KE : forall r K, group_key d' q r K -> K = mkgk [] [] []).
  { intros r K (l & m & _ & K1 & K2 & K3 & K4); (assert (NG : forall a, ~ grouped d' q a) by (intros a [X|[(X & _)|(s & k & X & _)]]; [congruence|congruence|rewrite E1 in X; destruct X]));
      (assert (NK : forall a, ~ key_attr d' q a) by (intros a (s & k & X & _); rewrite E1 in X; destruct X));
      (assert (A : gk_np K = []) by (apply (keep_fun _ _ _ K1); apply keep_none, Forall_forall; intros x _ (X & _); apply (NG _ X)));
      (assert (B : gk_path K = []) by (apply (keep_fun _ _ _ K2); apply keep_none, Forall_forall; intros x _ (X & _); apply (NG _ X)));
      (assert (C : m = []) by (apply (keep_fun _ _ _ K3); apply keep_none, Forall_forall; intros x _ X; apply (NK _ X)));
      destruct K as [ki kn kp]; cbn [gk_np gk_path gk_imm] in *; subst; reflexivity. }
  rewrite E, map_length. rewrite <- (map_length gp_key). destruct recs as [|r recs]; [congruence|]. rewrite Forall_forall in F.
  assert (HI : In (mkgk [] [] []) (map gp_key G)). { apply P. exists r, (mkgk [] [] []). split; [left; auto|]. split; [|auto]. rewrite <- (KE r _ (key_of_ok d' q r Hw Hs (F r (or_introl eq_refl)))). apply key_of_ok; auto. apply F. left. auto. }
  assert (HA : forall K, In K (map gp_key G) -> K = mkgk [] [] []).
  { intros K HK. apply P in HK as (r' & K' & Hr' & HK' & [->|((_ & _ & X & y & l & Ey) & _)]); [eapply KE; eauto|]. apply KE in HK'. subst K'. cbn in Ey. destruct (gk_path K); discriminate. }
  destruct (map gp_key G) as [|K1 [|K2 Ks]]; [destruct HI|reflexivity|]. exfalso. inversion ND as [|? ? Hn _]; subst. apply Hn. left. rewrite (HA K1), (HA K2) by (cbn; auto). reflexivity.
Qed.

(* ================= C30: results ================= *)
Lemma op_result q recs out d' j c op x ks : aggregated q recs out d' -> nth_error (q_ker q) j = Some c -> kattrs c = [(x, ks)] -> no_target c = false -> by_attribute c = false -> get_attr d' x <> None ->
  k_init c = mkk 0 VInv VInv -> (forall own k p, kupd1 c own k p = mkk (k_n k) (op (k_a k) (snd p)) (k_b k)) -> (forall own ms k, kupd c own ms k = fold_left (kupd1 c own) ms k) ->
  exists G, is_output d' q recs out G /\ forall g, In g G -> exists rs es res, below (is_incl c) d' q (gp_key g) recs rs /\ nth_error (gp_res g) j = Some es /\
    kresult c (total d' c recs) (mkk 0 (fold1 op (flat_map (vals d' (x :: map ka_name ks)) rs)) VInv) = Some res /\ named d' res es.
Proof.
  intros H Hj Hk Hn Hb Hx K0 K1 K2. destruct (aggregated_ok q recs out d' H) as (Hw & Hs & F & G & HG). exists G. split; auto. intros g Hg. destruct HG as (_ & _ & _ & O). rewrite Forall_forall in O. destruct (O g Hg) as (_ & _ & R).
  destruct (nth_error (gp_res g) j) as [es|] eqn:Ees. 2:{ apply nth_error_None in Ees. apply F2_len in R. assert (X : nth_error (q_ker q) j <> None) by congruence. apply nth_error_Some in X. lia. }
  destruct (F2_nth _ _ _ R j c es Hj Ees) as (l & res & C & E & Na). destruct (collect_below d' q c (gp_key g) recs l C) as (rs & B & Ef). exists rs, es, res. split; auto. split; auto. split; auto.
  rewrite (kfinal_op c op) in E by auto. rewrite Ef in E. rewrite <- E. f_equal. f_equal. f_equal.
  assert (Fs : Forall (Forall (entry_ok d')) rs). { rewrite Forall_forall in *. intros r Hr. apply F. destruct (is_incl c); cbn [below] in B; exact (keep_incl _ _ _ B r Hr). }
  clear - Fs Hk Hn Hb Hw Hs Hx. induction Fs as [|r rs Fr Fs IH]; cbn [flat_map]; auto. rewrite map_app, (smatch_vals c x ks) by auto. rewrite IH. reflexivity.
Qed.
(* sum: the sum of the x values (and earlier sums of x) of the records of the group *)
Theorem C30_sum q recs out d' j x i : aggregated q recs out d' -> nth_error (q_ker q) j = Some (CSum x i) -> get_attr d' x <> None ->
  exists G, is_output d' q recs out G /\ forall g, In g G -> exists rs es, below i d' q (gp_key g) recs rs /\ nth_error (gp_res g) j = Some es /\
    named d' (opt_res (fold1 vadd (flat_map (vals d' [x; sel i p_incl p_sum ++ x]) rs)) (sel i p_incl p_sum ++ x)) es.
Proof.
  intros H Hj Hx. destruct (op_result q recs out d' j (CSum x i) vadd x _ H Hj eq_refl eq_refl eq_refl Hx eq_refl) as (G & HG & R); [intros ? ? (? & ?); reflexivity|reflexivity|]. exists G. split; auto. intros g Hg. destruct (R g Hg) as (rs & es & res & B & E & K & Na). exists rs, es. split; auto. split; auto. cbn [kresult k_a] in K. injection K as <-. exact Na.
Qed.
Theorem C30_min q recs out d' j x i : aggregated q recs out d' -> nth_error (q_ker q) j = Some (CMin x i) -> get_attr d' x <> None ->
  exists G, is_output d' q recs out G /\ forall g, In g G -> exists rs es, below i d' q (gp_key g) recs rs /\ nth_error (gp_res g) j = Some es /\
    named d' (opt_res (fold1 vmin (flat_map (vals d' [x; sel i p_imin p_min ++ x]) rs)) (sel i p_imin p_min ++ x)) es.
Proof.
  intros H Hj Hx. destruct (op_result q recs out d' j (CMin x i) vmin x _ H Hj eq_refl eq_refl eq_refl Hx eq_refl) as (G & HG & R); [intros ? ? (? & ?); reflexivity|reflexivity|]. exists G. split; auto. intros g Hg. destruct (R g Hg) as (rs & es & res & B & E & K & Na). exists rs, es. split; auto. split; auto. cbn [kresult k_a] in K. injection K as <-. exact Na.
Qed.
Theorem C30_max q recs out d' j x i : aggregated q recs out d' -> nth_error (q_ker q) j = Some (CMax x i) -> get_attr d' x <> None ->
  exists G, is_output d' q recs out G /\ forall g, In g G -> exists rs es, below i d' q (gp_key g) recs rs /\ nth_error (gp_res g) j = Some es /\
    named d' (opt_res (fold1 vmax (flat_map (vals d' [x; sel i p_imax p_max ++ x]) rs)) (sel i p_imax p_max ++ x)) es.
Proof.
  intros H Hj Hx. destruct (op_result q recs out d' j (CMax x i) vmax x _ H Hj eq_refl eq_refl eq_refl Hx eq_refl) as (G & HG & R); [intros ? ? (? & ?); reflexivity|reflexivity|]. exists G. split; auto. intros g Hg. destruct (R g Hg) as (rs & es & res & B & E & K & Na). exists rs, es. split; auto. split; auto. cbn [kresult k_a] in K. injection K as <-. exact Na.
Qed.
(* on 64-bit integers these folds are the sum (modulo 2^64), the minimum and the maximum *)
Lemma fold_min_int zs : Forall s64_ok zs -> forall a, fold_left vmin (map VInt zs) (VInt a) = VInt (fold_left Z.min zs a).
Proof. induction 1 as [|z zs Hz F IH]; intro a; cbn [map fold_left]; auto. rewrite vmin_int by auto. apply IH. Qed.
Lemma fold_max_int zs : Forall s64_ok zs -> forall a, fold_left vmax (map VInt zs) (VInt a) = VInt (fold_left Z.max zs a).
Proof. induction 1 as [|z zs Hz F IH]; intro a; cbn [map fold_left]; auto. rewrite vmax_int by auto. apply IH. Qed.
Lemma fold_min_spec zs : forall a, (forall z, In z (a :: zs) -> fold_left Z.min zs a <= z)%Z /\ In (fold_left Z.min zs a) (a :: zs).
Proof.
  induction zs as [|y zs IH]; intro a; cbn [fold_left]; [split; [intros z [->|[]]; lia|left; auto]|]. destruct (IH (Z.min a y)) as (H1 & H2). split.
  - intros z [->|[->|Hz]]; [assert (X := H1 (Z.min z y) (or_introl eq_refl)); lia|assert (X := H1 (Z.min a z) (or_introl eq_refl)); lia|apply H1; right; auto].
  - destruct H2 as [E|H2]; [|right; right; auto]. rewrite <- E. destruct (Z.min_spec a y) as [(_ & ->)|(_ & ->)]; [left|right; left]; auto.
Qed.
Lemma fold_max_spec zs : forall a, (forall z, In z (a :: zs) -> z <= fold_left Z.max zs a)%Z /\ In (fold_left Z.max zs a) (a :: zs).
Proof.
  induction zs as [|y zs IH]; intro a; cbn [fold_left]; [split; [intros z [->|[]]; lia|left; auto]|]. destruct (IH (Z.max a y)) as (H1 & H2). split.
  - intros z [->|[->|Hz]]; [assert (X := H1 (Z.max z y) (or_introl eq_refl)); lia|assert (X := H1 (Z.max a z) (or_introl eq_refl)); lia|apply H1; right; auto].
  - destruct H2 as [E|H2]; [|right; right; auto]. rewrite <- E. destruct (Z.max_spec a y) as [(_ & ->)|(_ & ->)]; [right; left|left]; auto.
Qed.
Theorem C30_integer_folds zs : Forall s64_ok zs -> zs <> [] ->
  fold1 vadd (map VInt zs) = VInt (swrap (zsum zs)) /\
  (exists m, fold1 vmin (map VInt zs) = VInt m /\ In m zs /\ forall z, In z zs -> (m <= z)%Z) /\
  (exists m, fold1 vmax (map VInt zs) = VInt m /\ In m zs /\ forall z, In z zs -> (z <= m)%Z).
Proof.
  intros F Hn. split; [rewrite fold1_int by auto; destruct zs; [congruence|reflexivity]|]. destruct zs as [|z zs]; [congruence|]. apply Forall_cons_iff in F as (Hz & F). split.
  - exists (fold_left Z.min zs z). destruct (fold_min_spec zs z) as (H1 & H2). split; auto. exact (fold_min_int zs F z).
  - exists (fold_left Z.max zs z). destruct (fold_max_spec zs z) as (H1 & H2). split; auto. exact (fold_max_int zs F z).
Qed.
(* count: number of records of the group; a record with a count value counts that many times *)
Theorem C30_count q recs out d' j c : aggregated q recs out d' -> nth_error (q_ker q) j = Some c -> (c = CCount \/ exists arg sc, c = CScount arg sc) ->
  exists G, is_output d' q recs out G /\ forall g, In g G -> exists rs es res, members d' q (gp_key g) recs rs /\ nth_error (gp_res g) j = Some es /\ named d' res es /\
    let n := wrap64 (nsum (map (counts_for d' c) rs)) in res = match c with CScount arg sc => if 0 <? n then [(p_scount ++ arg, VUint n); (n_scount, VDouble (dmul sc (d_of_Z (Z.of_N n))))] else [] | _ => if 0 <? n then [(n_count, VUint n)] else [] end.
Proof.
  intros H Hj Hc0. assert (Hc : match c with CCount | CScount _ _ => True | _ => False end) by (destruct Hc0 as [->|(? & ? & ->)]; exact Logic.I). clear Hc0.
  destruct (aggregated_ok q recs out d' H) as (Hw & Hs & F & G & HG). exists G. split; auto. intros g Hg. destruct HG as (_ & _ & _ & O). rewrite Forall_forall in O. destruct (O g Hg) as (_ & _ & R).
  destruct (nth_error (gp_res g) j) as [es|] eqn:Ees. 2:{ apply nth_error_None in Ees. apply F2_len in R. assert (X : nth_error (q_ker q) j <> None) by congruence. apply nth_error_Some in X. lia. }
  destruct (F2_nth _ _ _ R j c es Hj Ees) as (l & res & C & E & Na). destruct (collect_members d' q c (gp_key g) recs l) as (rs & B & Ef); [destruct c; try contradiction; reflexivity|auto|]. exists rs, es, res. split; auto. split; auto. split; auto. cbv zeta.
  rewrite kfinal_count in E by auto. rewrite Ef, map_map in E. cbn [snd] in E. rewrite (map_ext _ (counts_for d' c)) in E by (intro; apply count_vals; auto). destruct c; try contradiction; cbn [kresult k_n] in E; injection E as <-; reflexivity.
Qed.
(* average: sum divided by the number of values, with the sum and the number also in the result *)
Theorem C30_avg q recs out d' j x : aggregated q recs out d' -> nth_error (q_ker q) j = Some (CAvg x) -> get_attr d' x <> None ->
  exists G, is_output d' q recs out G /\ forall g, In g G -> exists rs es, members d' q (gp_key g) recs rs /\ nth_error (gp_res g) j = Some es /\
    let n := wrap64 (nsum (map (avg_count d' x) rs)) in let s := fold1 vadd (flat_map (avals d' [x; p_avgsum ++ x]) rs) in
    named d' (if 0 <? n then [(p_avg ++ x, vdiv s (n mod 4294967296)); (p_avgsum ++ x, s); (p_avgcnt ++ x, VUint n)] else []) es.
Proof.
  intros H Hj Hx. destruct (aggregated_ok q recs out d' H) as (Hw & Hs & F & G & HG). exists G. split; auto. intros g Hg. destruct HG as (_ & _ & _ & O). rewrite Forall_forall in O. destruct (O g Hg) as (_ & _ & R).
  destruct (nth_error (gp_res g) j) as [es|] eqn:Ees. 2:{ apply nth_error_None in Ees. apply F2_len in R. assert (X : nth_error (q_ker q) j <> None) by congruence. apply nth_error_Some in X. lia. }
  destruct (F2_nth _ _ _ R j (CAvg x) es Hj Ees) as (l & res & C & E & Na). destruct (collect_members d' q (CAvg x) (gp_key g) recs l eq_refl C) as (rs & B & Ef). exists rs, es. split; auto. split; auto. cbv zeta.
  rewrite kfinal_avg in E. assert (AV := fun r => avg_vals d' x r (proj2 Hw) Hx).
  assert (E1 : nsum (map acnt (mflat l)) = nsum (map (avg_count d' x) rs)). { rewrite Ef. clear - AV. induction rs as [|r rs IH]; cbn [map mflat flat_map snd]; auto. rewrite map_app, nsum_app, (proj1 (AV r)). fold (mflat (map (fun r => (true, smatch (CAvg x) d' r)) rs)). rewrite IH. reflexivity. }
  assert (E2 : asum (mflat l) = flat_map (avals d' [x; p_avgsum ++ x]) rs). { rewrite Ef. clear - AV. induction rs as [|r rs IH]; cbn [map mflat flat_map snd]; auto. rewrite asum_app, (proj2 (AV r)). fold (mflat (map (fun r => (true, smatch (CAvg x) d' r)) rs)). rewrite IH. reflexivity. }
  rewrite E1, E2 in E. cbn [kresult k_n k_a] in E. destruct (0 <? wrap64 (nsum (map (avg_count d' x) rs))); [|injection E as <-; exact Na]. destruct (_ && _ && _) in E; [discriminate|]. injection E as <-. exact Na.
Qed.
(* Conservation: the sums of the groups add up to the sum over all records (modulo 2^64), and the counts
   to the number of records *)
Definition ints_of (es : list entry) : list Z := flat_map (fun e => match e with EImm _ (VInt z) => [z] | _ => [] end) es.
Definition uints_of (es : list entry) : list N := flat_map (fun e => match e with EImm _ (VUint n) => [n] | _ => [] end) es.
Definition ivals (d : mdb) (names : list bytes) (r : list entry) : list Z := flat_map (fun v => match v with VInt z => [z] | _ => [] end) (vals d names r).
Lemma zsum_flat {A} (f : A -> list Z) l : zsum (flat_map f l) = zsum (map (fun a => zsum (f a)) l).
Proof. induction l as [|a l IH]; cbn [flat_map map]; auto. rewrite zsum_app, IH. reflexivity. Qed.
Lemma swrap_zsum {A} (f g : A -> Z) l : (forall a, In a l -> swrap (f a) = swrap (g a)) -> swrap (zsum (map f l)) = swrap (zsum (map g l)).
Proof. induction l as [|a l IH]; intro H; cbn [map zsum fold_right]; auto. fold (zsum (map f l)). fold (zsum (map g l)). rewrite <- swrap_add_l, <- swrap_add_r, (H a), IH by (try (left; auto); intros; apply H; right; auto). rewrite swrap_add_l, swrap_add_r. reflexivity. Qed.
Definition all_ints (d : mdb) (names : list bytes) (recs : list (list entry)) : Prop := Forall (fun r => Forall (fun v => exists z, v = VInt z /\ s64_ok z) (vals d names r)) recs.
Lemma all_ints_map d names rs : all_ints d names rs -> flat_map (vals d names) rs = map VInt (flat_map (ivals d names) rs) /\ Forall s64_ok (flat_map (ivals d names) rs).
Proof.
  unfold all_ints. induction 1 as [|r rs Hr F (IH1 & IH2)]; cbn [flat_map map]; [auto|]. assert (X : vals d names r = map VInt (ivals d names r) /\ Forall s64_ok (ivals d names r)).
  { unfold ivals. clear - Hr. induction Hr as [|v l (z & -> & Hz) F (A & B)]; cbn [flat_map app map]; auto. split; [f_equal; exact A|constructor; auto]. }
  destruct X as (X1 & X2). rewrite map_app, <- X1, IH1. split; auto. apply Forall_app. auto.
Qed.
Lemma sum_int_res d n es zs : named d (opt_res (fold1 vadd (map VInt zs)) n) es -> Forall s64_ok zs -> swrap (zsum (ints_of es)) = swrap (zsum zs).
Proof.
  intros Na F. rewrite fold1_int in Na by auto. destruct zs as [|z zs].
  - inversion Na; subst. reflexivity.
  - inversion Na as [|? ? ? ? (a & A & ->) T]; subst. inversion T; subst. unfold ints_of. cbn [flat_map snd app]. cbn [zsum fold_right]. rewrite Z.add_0_r. apply swrap_id. apply swrap_ok.
Qed.
Theorem C30_sum_conserved q recs out d' j x : aggregated q recs out d' -> nth_error (q_ker q) j = Some (CSum x false) -> get_attr d' x <> None -> all_ints d' [x; p_sum ++ x] recs ->
  exists G, is_output d' q recs out G /\ swrap (zsum (map (fun g => zsum (ints_of (nth j (gp_res g) []))) G)) = swrap (zsum (flat_map (ivals d' [x; p_sum ++ x]) recs)).
Proof.
  intros H Hj Hx Hi. destruct (C30_sum q recs out d' j x false H Hj Hx) as (G & HG & R). destruct (aggregated_ok q recs out d' H) as (Hw & Hs & F & _). exists G. split; auto.
  rewrite (zsum_flat (ivals d' [x; p_sum ++ x]) recs). destruct HG as (_ & ND & P & _).
  rewrite <- (zsum_partition (key_of d' q) (fun r => zsum (ivals d' [x; p_sum ++ x] r)) recs (map gp_key G) ND).
  - rewrite map_map. apply swrap_zsum. intros g Hg. destruct (R g Hg) as (rs & es & B & E & Na). cbn [below sel] in B, Na.
    assert (Irs : all_ints d' [x; p_sum ++ x] rs). { unfold all_ints in *. rewrite Forall_forall in *. intros r Hr. apply Hi. exact (keep_incl _ _ _ B r Hr). }
    apply (members_filter d' q (gp_key g) recs rs Hw Hs F) in B. rewrite <- B. destruct (all_ints_map d' [x; p_sum ++ x] rs Irs) as (E1 & E2). rewrite <- zsum_flat.
    rewrite (nth_error_nth _ _ [] E). apply (sum_int_res d' (p_sum ++ x)); [|exact E2]. rewrite <- E1. exact Na.
  - intros r Hr. apply P. rewrite Forall_forall in F. exists r, (key_of d' q r). split; auto. split; [apply key_of_ok; auto|left; auto].
Qed.
