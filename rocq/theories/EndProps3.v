(* C81: the inclusive report - every place with the time spent in it and in everything inside *)
From Verif Require Import Base VariantModel VariantSpec NamesModel NamesProps TextModel TreeModel TreeSpec TreeProofs TreeProofs2 RuntimeModel RuntimeSpec RuntimeProofs RuntimeProofs2 RuntimeProps RuntimeProps3 RuntimeProps4.
From Verif Require Import ArithModel RtAggModel RtAggSpec RFilterModel EventModel TimerModel ProfModel ProfSpec ProfProofs2 ProfProofs4 ProfProofs5 ProfProps EndProofs.
From Verif Require Import CaliFileModel CaliFileProofs CaliFileProofs2 CaliFileProofs3 CaliFileProofs4 CaliFileProofs5 CaliFileProps ArithSpec AggModel AggSpec AggSpec2 AggProofs7 FilterModel QFileSpec QFileModel QFileProofs4 QFileProofs6 QFileProps EndSpec EndProofs2 EndProps.
Open Scope N_scope.

(* ---------- places and names ---------- *)
Section N.
Variable tr : tree.
Variable lk : N -> option tnode.
Hypothesis Hu : names_unique lk.
Definition known (p : ProfSpec.path) : Prop := Forall (fun z => called lk (fst z) (name_of tr (fst z))) p.
Lemma by_name_first k p : by_name tr (firstn k p) = firstn k (by_name tr p).
Proof. unfold by_name. symmetry. apply firstn_map. Qed.
Lemma by_name_len p : length (by_name tr p) = length p.
Proof. apply map_length. Qed.
Lemma known_first k p : known p -> known (firstn k p).
Proof. intro H. unfold known in *. rewrite <- (firstn_skipn k p) in H. apply Forall_app in H as (H & _). exact H. Qed.
Lemma inside_spec p q : known p -> known q -> (inside p q = true <-> p = q \/ (p <> [] /\ exists z l, by_name tr q = by_name tr p ++ z :: l)).
Proof.
  intros Hp Hq. unfold inside. rewrite orb_true_iff, path_eqb_eq, andb_true_iff, negb_true_iff, Nat.eqb_neq, path_eqb_eq. split.
  - intros [H|(H1 & H2)]; [auto|]. destruct (list_eq_dec region_eq_dec p q) as [E|E]; [auto|]. right. split; [intros ->; apply H1; reflexivity|].
    assert (Hs : skipn (length p) q <> []) by (intro Z; apply E; rewrite <- (firstn_skipn (length p) q), Z, app_nil_r; exact H2).
    destruct (skipn (length p) q) as [|z r] eqn:Es; [congruence|]. eexists _, _. rewrite <- (firstn_skipn (length p) q), Es, <- H2. unfold by_name. rewrite map_app. cbn [map]. reflexivity.
  - intros [H|(H1 & z & r & H2)]; [auto|]. right. split; [destruct p; [congruence|discriminate]|].
    apply (by_name_inj tr lk p _ Hu Hp (known_first (length p) q Hq)). rewrite by_name_first, H2, <- (by_name_len p), firstn_app, Nat.sub_diag, firstn_all. cbn [firstn]. rewrite app_nil_r. reflexivity.
Qed.
End N.

Section Q.
Variable tr : tree.
Variable lk : N -> option tnode.
Variable D : dict.
Variable x : bytes.
Notation q := (inclusive_query x).
Hypothesis Hu : names_unique lk.
Lemma rec_group2 y w : rec_is tr D x y w -> group_of D q w = place tr (fst y).
Proof. exact (rec_group tr D x [CSum x false; CSum x true] y w). Qed.
Lemma place_eq p p' : known tr lk p -> known tr lk p' -> place tr p = place tr p' <-> p = p'.
Proof. intros H1 H2. split; [|intros ->; reflexivity]. intro E. injection E as E. exact (by_name_inj tr lk p p' Hu H1 H2 E). Qed.
Lemma encl_place p p' : known tr lk p -> known tr lk p' -> encl (place tr p) (place tr p') \/ p = p' <-> inside p p' = true.
Proof.
  intros H1 H2. rewrite (inside_spec tr lk Hu p p' H1 H2). unfold encl, place. cbn [ng_imm ng_np ng_path]. split.
  - intros [(_ & _ & N & z & r & H)|H]; [right|left; exact H]. split; [intros ->; apply N; reflexivity|eauto].
  - intros [H|(N & z & r & H)]; [right; exact H|left]. split; [reflexivity|]. split; [reflexivity|]. split; [destruct p; [congruence|discriminate]|eauto].
Qed.
Lemma measured_below i p L W : Forall2 (rec_is tr D x) L W -> (forall y, In y L -> known tr lk (fst y)) -> known tr lk p ->
  measured x (below_group D q i (place tr p) W) = map (fun y => VUint (snd y)) (filter (fun y => if i then inside p (fst y) else path_eqb p (fst y)) L).
Proof.
  intros HL HK Hp. induction HL as [|y w L W H HL IH]; [reflexivity|]. specialize (IH (fun z Hz => HK z (or_intror Hz))). pose proof (HK y (or_introl eq_refl)) as Ky.
  unfold below_group in *. cbn [filter]. rewrite (rec_group2 y w H).
  assert (E : ((if ngroup_eq_dec (place tr (fst y)) (place tr p) then true else false) || (i && encl_in (place tr p) (place tr (fst y)))) = (if i then inside p (fst y) else path_eqb p (fst y))).
  { assert (Ee := encl_in_ok (place tr p) (place tr (fst y))). assert (Ei := encl_place p (fst y) Hp Ky). assert (Ep := path_eqb_eq p (fst y)). assert (Eq := place_eq (fst y) p Ky Hp).
    destruct (ngroup_eq_dec (place tr (fst y)) (place tr p)) as [Eg|Eg]; cbn [orb].
    - apply Eq in Eg. symmetry. destruct i; [apply Ei; right; auto|apply Ep; auto].
    - destruct i; cbn [andb]; [|symmetry; apply not_true_is_false; intro Z; apply Ep in Z; apply Eg, Eq; auto].
      apply eq_true_iff_eq. rewrite Ee, <- Ei. split; [auto|intros [Z|Z]; [exact Z|]]. exfalso. apply Eg, Eq. auto. }
  rewrite E. destruct (if i then _ else _).
  - cbn [map]. unfold measured in *. cbn [flat_map]. destruct H as (_ & _ & ->). cbn [app]. f_equal. exact IH.
  - exact IH.
Qed.
Variable l : list (ProfSpec.path * N * bool).
Variable L : list (ProfSpec.path * N).
Variable W : list nrec.
Hypothesis HL : Forall2 (rec_is tr D x) L W.
Hypothesis Hnd : NoDup (map fst L).
Hypothesis HLi : forall p, In p (map fst L) <-> In p (map (fun y => fst (fst y)) l).
Hypothesis HLs : forall y, In y L -> snd y = spent (fst y) l.
Hypothesis HLk : forall y, In y L -> known tr lk (fst y).
Hypothesis Hmax : ProfSpec.nsum (map (fun z => snd (fst z)) l) < W64.
Lemma visited_in p : visited p l = true <-> In p (map fst L).
Proof.
  rewrite HLi. unfold visited. rewrite existsb_exists, in_map_iff. split; intros (z & H1 & H2); exists z; [apply path_eqb_eq in H2; auto|]. split; [exact H2|apply path_eqb_eq; auto].
Qed.
Lemma own_values p : map (fun y => VUint (snd y)) (filter (fun y => path_eqb p (fst y)) L) = if visited p l then [VUint (spent p l)] else [].
Proof.
  assert (V := visited_in p). destruct (visited p l).
  - assert (Hin : In p (map fst L)) by (apply V; reflexivity). clear V. revert Hin Hnd HLs. clear. induction L as [|y L' IH]; intros Hin Hnd HLs; [contradiction|]. cbn [map] in Hnd. apply NoDup_cons_iff in Hnd as (N1 & N2). cbn [filter].
    destruct (path_eqb p (fst y)) eqn:E.
    + apply path_eqb_eq in E. cbn [map]. rewrite (HLs y (or_introl eq_refl)), <- E. f_equal. rewrite (filter_none (fun y0 : ProfSpec.path * N => path_eqb p (fst y0)) L'); [reflexivity|]. apply Forall_forall. intros z Hz. apply not_true_is_false. intro Z. apply path_eqb_eq in Z.
      apply N1. rewrite <- E, Z. apply in_map. exact Hz.
    + apply IH; [|exact N2|intros z Hz; apply HLs; right; exact Hz]. cbn [map] in Hin. destruct Hin as [Hin|Hin]; [|exact Hin]. rewrite Hin in E. rewrite (proj2 (path_eqb_eq p p) eq_refl) in E. discriminate E.
  - rewrite filter_none; [reflexivity|]. apply Forall_forall. intros y Hy. apply not_true_is_false. intro Z. apply path_eqb_eq in Z. assert (X : false = true) by (apply V; rewrite Z; apply in_map; exact Hy). discriminate X.
Qed.
Lemma within_sum p : ProfSpec.nsum (map snd (filter (fun y => inside p (fst y)) L)) = within p l.
Proof.
  unfold within. set (f := fun z : ProfSpec.path * N * bool => inside p (fst (fst z))). set (g := fun y : ProfSpec.path * N => inside p (fst y)).
  rewrite <- (spent_partition (filter f l) (map fst (filter g L))).
  - rewrite map_map. f_equal. apply map_ext_in. intros y Hy. apply filter_In in Hy as (Hy & Hg). rewrite (HLs y Hy). unfold spent, at_path. f_equal. f_equal. 
    assert (Z : forall l0, filter (fun z : ProfSpec.path * N * bool => path_eqb (fst (fst z)) (fst y)) l0 = filter (fun z => path_eqb (fst (fst z)) (fst y)) (filter f l0)).
    { induction l0 as [|z l0 IH]; [reflexivity|]. cbn [filter]. destruct (path_eqb (fst (fst z)) (fst y)) eqn:E.
      - assert (Ef : f z = true) by (unfold f; apply path_eqb_eq in E; rewrite E; exact Hg). rewrite Ef. cbn [filter]. rewrite E, IH. reflexivity.
      - destruct (f z); [cbn [filter]; rewrite E|]; exact IH. }
    apply Z.
  - assert (E : map fst (filter g L) = filter (fun p' => inside p p') (map fst L)). { unfold g. clear. induction L as [|y L' IH]; [reflexivity|]. cbn [map filter]. destruct (inside p (fst y)); cbn [map]; rewrite IH; reflexivity. }
    rewrite E. apply NoDup_filter. exact Hnd.
  - intros z Hz. apply filter_In in Hz as (Hz & Hf). assert (Hin : In (fst (fst z)) (map fst L)) by (apply HLi; apply (in_map (fun y => fst (fst y))); exact Hz).
    apply in_map_iff in Hin as (y & Ey & Hy). apply in_map_iff. exists y. split; [exact Ey|]. apply filter_In. split; [exact Hy|]. unfold g. rewrite Ey. exact Hf.
Qed.
Lemma sum_filter (f : ProfSpec.path * N * bool -> bool) l0 : ProfSpec.nsum (map (fun z => snd (fst z)) (filter f l0)) <= ProfSpec.nsum (map (fun z => snd (fst z)) l0).
Proof. induction l0 as [|z l0 IH]; [cbn; lia|]. cbn [filter map]. unfold ProfSpec.nsum in *. destruct (f z); cbn [map fold_right]; lia. Qed.
Lemma within_small p : within p l < W64.
Proof. unfold within. eapply N.le_lt_trans; [apply sum_filter|exact Hmax]. Qed.
Lemma spent_small p : spent p l < W64.
Proof. unfold spent, at_path. eapply N.le_lt_trans; [apply sum_filter|exact Hmax]. Qed.
(* the rows: visited places and places around them *)
Lemma row_line2 d out rows r : result_of D q d W out rows -> In r rows ->
  exists p, known tr lk p /\ rw_group r = place tr p /\ line_says2 d x (rw_key r ++ concat (rw_res r)) (by_name tr p) (if visited p l then [spent p l] else []) (within p l) /\
    (In p (map fst L) \/ (p <> [] /\ exists z, In z (map fst L) /\ inside p z = true)).
Proof.
  intros HR Hr. pose proof HR as (Eo & Nd & HP & HF). rewrite Forall_forall in HF. destruct (HF r Hr) as (Sh & HK).
  destruct (proj1 (HP (rw_group r)) (in_map _ _ _ Hr)) as (w & Hw & Hg). destruct (F2_in_r _ _ _ _ HL Hw) as (y & Hy & Ry). rewrite (rec_group2 y w Ry) in Hg. pose proof (HLk y Hy) as Ky.
  assert (Hp : exists p, known tr lk p /\ rw_group r = place tr p /\ inside p (fst y) = true /\ (p = fst y \/ p <> [])).
  { destruct Hg as [Hg|(He & _)].
    - exists (fst y). split; [exact Ky|]. split; [auto|]. split; [apply (encl_place (fst y) (fst y) Ky Ky); auto|auto].
    - destruct He as (G1 & G2 & G3 & z & r' & G4). cbn [place ng_imm ng_np ng_path] in *. exists (firstn (length (ng_path (rw_group r))) (fst y)).
      assert (Kf : known tr lk (firstn (length (ng_path (rw_group r))) (fst y))) by apply known_first, Ky. split; [exact Kf|].
      assert (Ef : by_name tr (firstn (length (ng_path (rw_group r))) (fst y)) = ng_path (rw_group r)). { rewrite by_name_first, G4, firstn_app, Nat.sub_diag, firstn_all. cbn [firstn]. apply app_nil_r. }
      assert (Nf : firstn (length (ng_path (rw_group r))) (fst y) <> []). { intro Z. rewrite Z in Ef. apply G3. rewrite <- Ef. reflexivity. }
      split; [unfold place; rewrite Ef; destruct (rw_group r); cbn in *; congruence|]. split; [|auto].
      apply (inside_spec tr lk Hu _ _ Kf Ky). right. split; [exact Nf|]. exists z, r'. rewrite Ef. exact G4. }
  destruct Hp as (p & Kp & Ep & Ip & Np). exists p. split; [exact Kp|]. split; [exact Ep|]. split.
  2:{ assert (Hin : In (fst y) (map fst L)) by (apply in_map; exact Hy). destruct Np as [->|Np]; [left; exact Hin|right; split; [exact Np|eauto]]. }
  destruct (C76_fold D q d W out rows r 0 (CSum x false) vadd x false (p_sum ++ x) HR Hr eq_refl (or_introl eq_refl)) as (es1 & E1 & H1).
  destruct (C76_fold D q d W out rows r 1 (CSum x true) vadd x true (p_incl ++ x) HR Hr eq_refl (or_introl eq_refl)) as (es2 & E2 & H2).
  rewrite Ep in H1, H2. rewrite (measured_below false p L W HL HLk Kp), own_values in H1. rewrite (measured_below true p L W HL HLk Kp) in H2.
  assert (Em : map (fun y0 : ProfSpec.path * N => VUint (snd y0)) (filter (fun y0 => inside p (fst y0)) L) = map VUint (map snd (filter (fun y0 => inside p (fst y0)) L))) by (rewrite map_map; reflexivity).
  rewrite Em in H2. rewrite fold1_uint in H2.
  2:{ apply Forall_forall. intros n Hn. apply in_map_iff in Hn as (y0 & <- & Hy0). apply filter_In in Hy0 as (Hy0 & _). rewrite (HLs y0 Hy0). exact (spent_small (fst y0)). }
  assert (Hne : map snd (filter (fun y0 => inside p (fst y0)) L) <> []). { intro Z. assert (X : In y (filter (fun y0 => inside p (fst y0)) L)) by (apply filter_In; auto). apply (in_map snd) in X. rewrite Z in X. exact X. }
  assert (Es : wrap64 (AggSpec2.nsum (map snd (filter (fun y0 => inside p (fst y0)) L))) = within p l). { change (AggSpec2.nsum (map snd (filter (fun y0 => inside p (fst y0)) L))) with (ProfSpec.nsum (map snd (filter (fun y0 => inside p (fst y0)) L))). rewrite within_sum. apply wrap_id. exact (within_small p). }
  destruct (map snd (filter (fun y0 => inside p (fst y0)) L)) as [|n0 ns] eqn:En; [congruence|]. rewrite Es in H2. cbn [opt_res nonempty] in H2.
  inversion H2 as [|? e ? es' (b & Hb & He) Hn']; subst. inversion Hn'; subst. cbn [fst snd] in *.
  assert (Erw : rw_res r = [es1; [EImm b (VUint (within p l))]]).
  { apply F2_length in HK. cbn in HK. destruct (rw_res r) as [|e0 [|e1 [|e2 rs]]]; cbn in HK, E1, E2; try discriminate HK. injection E1 as ->. injection E2 as ->. reflexivity. }
  destruct Sh as (w' & S1 & S2 & S3 & S4). exists (rw_key r), w', es1, b. rewrite Erw. cbn [concat]. rewrite app_nil_r. split; [reflexivity|]. split; [exact Hb|]. split.
  - destruct (visited p l).
    + cbn in H1. inversion H1 as [|? e ? es' (a & Ha & He) Hn]; subst. inversion Hn; subst. constructor; [|constructor]. exists a. auto.
    + cbn in H1. inversion H1; subst. constructor.
  - split; [exact S1|]. split; [rewrite S3, Ep; cbn [ng_path ng_np place]; apply app_nil_r|]. destruct (wimms w') as [|z lz]; [reflexivity|]. inversion S4 as [|? ? C]; subst. cbn in C. contradiction.
Qed.
Lemma report_lines2 d out rows : result_of D q d W out rows ->
  exists qs, NoDup qs /\ (forall p, In p qs <-> In p (map fst L) \/ (p <> [] /\ exists z, In z (map fst L) /\ inside p z = true)) /\
    Forall2 (fun es p => line_says2 d x es (by_name tr p) (if visited p l then [spent p l] else []) (within p l)) out qs.
Proof.
  intros HR. pose proof HR as (Eo & Nd & HP & HF).
  assert (X : forall rs, incl rs rows -> exists qs, Forall2 (fun r p => known tr lk p /\ rw_group r = place tr p /\ line_says2 d x (rw_key r ++ concat (rw_res r)) (by_name tr p) (if visited p l then [spent p l] else []) (within p l) /\
    (In p (map fst L) \/ (p <> [] /\ exists z, In z (map fst L) /\ inside p z = true))) rs qs).
  { induction rs as [|r rs IH]; intro Hi; [exists []; constructor|]. destruct IH as (qs & Hqs); [intros z Hz; apply Hi; right; exact Hz|]. destruct (row_line2 d out rows r HR (Hi r (or_introl eq_refl))) as (p & Hp). exists (p :: qs). constructor; auto. }
  destruct (X rows (incl_refl _)) as (qs & Hqs). exists qs.
  assert (Eg : map rw_group rows = map (place tr) qs). { clear - Hqs. induction Hqs as [|r p rs qs (_ & E & _) HF IH]; [reflexivity|]. cbn. rewrite E, IH. reflexivity. }
  assert (Hk : forall p, In p qs -> known tr lk p /\ (In p (map fst L) \/ (p <> [] /\ exists z, In z (map fst L) /\ inside p z = true))). { intros p Hp. destruct (F2_in_r _ _ _ _ Hqs Hp) as (r & _ & K1 & _ & _ & K2). auto. }
  split; [|split].
  - rewrite Eg in Nd. clear - Nd. induction qs as [|y ys IH]; [constructor|]. cbn in *. apply NoDup_cons_iff in Nd as (N1 & N2). constructor; [|auto]. intro Hi. apply N1. apply in_map. exact Hi.
  - intro p. split; [intro Hp; apply Hk; exact Hp|]. intro Hp.
    assert (Hz : exists y, In y L /\ known tr lk p /\ inside p (fst y) = true /\ (p = fst y \/ p <> [])).
    { destruct Hp as [Hp|(Np & z & Hz & Ip)].
      - apply in_map_iff in Hp as (y & <- & Hy). exists y. split; [exact Hy|]. split; [apply HLk; exact Hy|]. split; [|auto]. apply (encl_place (fst y) (fst y)); auto.
      - apply in_map_iff in Hz as (y & <- & Hy). exists y. split; [exact Hy|]. split; [|auto]. unfold inside in Ip. apply orb_true_iff in Ip as [Ip|Ip]; [apply path_eqb_eq in Ip; rewrite Ip; apply HLk; exact Hy|].
        apply andb_true_iff in Ip as (_ & Ip). apply path_eqb_eq in Ip. rewrite Ip. apply known_first, HLk. exact Hy. }
    destruct Hz as (y & Hy & Kp & Ip & Np). destruct (F2_in_l _ _ _ _ HL Hy) as (w & Hw & Rw). pose proof (HLk y Hy) as Ky.
    assert (Hg : In (place tr p) (map rw_group rows)).
    { apply HP. exists w. split; [exact Hw|]. rewrite (rec_group2 y w Rw). apply (encl_place p (fst y) Kp Ky) in Ip. destruct Ip as [Ip|Ip]; [right|left; rewrite Ip; reflexivity]. split; [exact Ip|]. exists (CSum x true). split; [right; left; reflexivity|]. split; [reflexivity|].
      intro Z. pose proof (nmatch_values (CSum x true) x w eq_refl eq_refl) as V. rewrite Z in V. destruct Rw as (_ & _ & R3). rewrite R3 in V. discriminate V. }
    rewrite Eg in Hg. apply in_map_iff in Hg as (p' & E' & Hp'). destruct (Hk p' Hp') as (Kp' & _). apply (place_eq p' p Kp' Kp) in E'. rewrite <- E'. exact Hp'.
  - rewrite Eo. clear - Hqs. induction Hqs as [|r p rs qs (_ & _ & H & _) HF IH]; [constructor|]. cbn [map]. constructor; auto.
Qed.
End Q.

Section T.
Variable rx : bytes -> bytes -> bool.
Variable ea : N -> eattr.
Variable cv : value -> cvar.
Variable m : memory.
(* The same program, profile and file as in C81_report; the query SELECT sum(x), inclusive_sum(x) GROUP BY path
   prints one line for every place where the thread spent time and for every place that has such a place inside it:
   with the time spent in the place itself (nothing, if no time was spent there) and the time spent in the place and
   in the regions opened inside it *)
Theorem C81_inclusive : forall c es sk t ops0 s0 xs0 h s' xs kd kc amin amax asum aavg bmin bmax bsum bavg,
  rt_history ops0 s0 xs0 -> Forall (fun p => plain_op (snd p)) ops0 -> profiling c s0 ->
  reports_stats (pc_info c) kd (pc_dur c) amin amax asum aavg -> reports_stats (pc_info c) kc (pc_cnt c) bmin bmax bsum bavg ->
  ops_ok s0 (prog h) -> Forall (fun x => plain_op (snd x) /\ leaves_channel (pc_chn c) (snd x)) h ->
  rt_run s0 (prog h) = Some (s', xs) -> not_full (RuntimeModel.r_tree s') -> RuntimeModel.r_err s' t = false ->
  (forall n o b, In (n, o) (timeline t h) -> op_attr o = Some b -> find_marker es (ea (at_id b)) = true) ->
  ordered 0 (timeline t h) -> N.of_nat (length (timeline t h)) < 4294967296 ->
  exists p recs, prun rx ea cv m c (pstart s0 es sk) h = Some p /\ aflush (p_db p t) (pc_info c) = Some recs /\
    let l := stretches 0 (bb_regions (RuntimeModel.r_tree s0) (r_tbb s0 t)) (timeline t h) in
    forall dfmt dparse parse D f W x, file_of m (RuntimeModel.r_tree s') recs f -> query_ok dfmt dparse D (inclusive_query x) [f] W ->
      names_unique (fl_src f) -> called (fl_src f) asum x -> dc_type D x = T_UINT ->
      (forall y a v, In y l -> In (a, v) (fst (fst y)) -> dc_nested D (name_of (RuntimeModel.r_tree s') a) = true) ->
      exists d g out d' qs, aggregate_files dparse parse [] (inclusive_query x) [text_of dfmt f] = Some (d, g, false) /\ flush (inclusive_query x) (d, g) = Some (out, d') /\
        NoDup qs /\ (forall q, In q qs <-> In q (map (fun y => fst (fst y)) l) \/ (q <> [] /\ exists z, In z (map (fun y => fst (fst y)) l) /\ inside q z = true)) /\
        Forall2 (fun es q => line_says2 d' x es (by_name (RuntimeModel.r_tree s') q) (if visited q l then [spent q l] else []) (within q l)) out qs.
Proof.
  intros c es sk t ops0 s0 xs0 h s' xs kd kc amin amax asum aavg bmin bmax bsum bavg Hh Hp0 Hpf HA HB Ho Hp Hr Hnf He Hmk Hord Hlen.
  destruct (stored rx ea cv m c es sk t ops0 s0 xs0 h s' xs kd kc amin amax asum aavg bmin bmax bsum bavg Hh Hp0 Hpf HA HB Ho Hp Hr Hnf He Hmk Hord Hlen) as (p & recs & H1 & H2 & H3).
  exists p, recs. split; [exact H1|]. split; [exact H2|]. cbv zeta in *.
  destruct (stretch_total (timeline t h) 0 (bb_regions (RuntimeModel.r_tree s0) (r_tbb s0 t)) Hord ltac:(reflexivity)) as (T1 & T2).
  set (l := stretches _ _ _) in *.
  assert (Hmax : ProfSpec.nsum (map (fun z => snd (fst z)) l) < W64) by (rewrite <- T1 in T2; rewrite N.add_0_l in T2; exact T2).
  intros dfmt dparse parse D f W x Hf Hq Hu Hcl Hty Hnest. destruct (H3 dfmt dparse D f W x _ Hf Hq Hu Hcl Hty Hnest) as (L & HL & Hnd & HLi & HLs & HLc).
  destruct (C76_query dfmt dparse parse [] D (inclusive_query x) [f] W Hq) as (d & g & E1 & E2 & E3).
  destruct E3 as (out & d' & E3); [constructor; [exact Logic.I|constructor; [exact Logic.I|constructor]]|]. destruct (E2 out d' E3) as (rows & HR). rewrite passing_all in HR.
  destruct (report_lines2 (RuntimeModel.r_tree s') (fl_src f) D x Hu l L W HL Hnd HLi HLs HLc Hmax d' out rows HR) as (qs & Y1 & Y2 & Y3).
  exists d, g, out, d', qs. split; [exact E1|]. split; [exact E3|]. split; [exact Y1|]. split; [|exact Y3].
  intro q. rewrite (Y2 q), (HLi q). split; (intros [H|(N & z & Hz & Hi)]; [left; exact H|right; split; [exact N|exists z; split; [apply HLi; exact Hz|exact Hi]]]).
Qed.
Print Assumptions C81_inclusive.
End T.
