(* C81: from the annotations of a program to the time report of a query over the profile's file *)
From Verif Require Import Base VariantModel VariantSpec NamesModel NamesProps TextModel TreeModel TreeSpec TreeProofs TreeProofs2 RuntimeModel RuntimeSpec RuntimeProofs RuntimeProofs2 RuntimeProps RuntimeProps3 RuntimeProps4.
From Verif Require Import ArithModel RtAggModel RtAggSpec RFilterModel EventModel TimerModel ProfModel ProfSpec ProfProofs2 ProfProofs5 ProfProps EndProofs.
From Verif Require Import CaliFileModel CaliFileProofs CaliFileProofs2 CaliFileProofs3 CaliFileProofs4 CaliFileProofs5 CaliFileProps ArithSpec AggModel AggSpec AggSpec2 FilterModel QFileSpec QFileModel QFileProofs6 QFileProps EndSpec EndProofs2.
Open Scope N_scope.

(* ---------- the result of the query, given what the records say ---------- *)
Section Q.
Variable tr : tree.
Variable D : dict.
Variable x : bytes.
Variable K : list kcfg.
Notation q := (mkq [] false true K).
(* the record says: this place, this value *)
Definition rec_is (y : ProfSpec.path * N) (w : nrec) : Prop :=
  wpath w = by_name tr (fst y) /\ (forall a v, In (a, v) (fst y) -> dc_nested D (name_of tr a) = true) /\ values x (wimms w) = [VUint (snd y)].
Definition place (p : ProfSpec.path) : ngroup := mkng [] [] (by_name tr p).
Lemma filter_all {A} (f : A -> bool) l : Forall (fun a => f a = true) l -> filter f l = l.
Proof. induction 1 as [|a l H HF IH]; [reflexivity|]. cbn. rewrite H, IH. reflexivity. Qed.
Lemma filter_none {A} (f : A -> bool) l : Forall (fun a => f a = false) l -> filter f l = [].
Proof. induction 1 as [|a l H HF IH]; [reflexivity|]. cbn. rewrite H. exact IH. Qed.
Lemma rec_group y w : rec_is y w -> group_of D q w = place (fst y).
Proof.
  intros (H1 & H2 & _). assert (F : Forall (fun z : bytes * value => dc_nested D (fst z) = true) (wpath w)).
  { rewrite H1. unfold by_name. apply Forall_forall. intros z Hz. apply in_map_iff in Hz as ((a, v) & <- & Hz). exact (H2 a v Hz). }
  unfold group_of, place. cbn [q_keys map]. f_equal.
  - apply filter_none. eapply Forall_impl; [|exact F]. intros z E. cbn beta in E. rewrite E. apply andb_false_r.
  - rewrite <- H1. apply filter_all. eapply Forall_impl; [|exact F]. intros z E. cbn beta in E. unfold in_group. cbn [q_all q_nested q_keys]. rewrite E. reflexivity.
Qed.
End Q.
Section Q2.
Variable tr : tree.
Variable D : dict.
Variable x : bytes.
Notation q := (time_query x).
Variable L : list (ProfSpec.path * N).
Variable W : list nrec.
Hypothesis HL : Forall2 (rec_is tr D x) L W.
Hypothesis Hnd : NoDup (map fst L).
Hypothesis Hinj : forall y y', In y L -> In y' L -> by_name tr (fst y) = by_name tr (fst y') -> fst y = fst y'.
Lemma rec_group1 y w : rec_is tr D x y w -> group_of D q w = place tr (fst y).
Proof. exact (rec_group tr D x [CSum x false] y w). Qed.
Lemma measured_at y : In y L -> measured x (below_group D q false (place tr (fst y)) W) = [VUint (snd y)].
Proof.
  intro Hy. rewrite below_own. revert Hnd Hinj Hy. induction HL as [|z w L' W' H HF IH]; intros Hnd Hinj Hy; [contradiction|]. cbn in Hnd. apply NoDup_cons_iff in Hnd as (Nz & Nd).
  cbn [filter]. rewrite (rec_group1 z w H).
  destruct (ngroup_eq_dec (place tr (fst z)) (place tr (fst y))) as [E|E].
  - assert (Ez : fst z = fst y) by (apply Hinj; [left; reflexivity|exact Hy|]; injection E as E; exact E).
    assert (Hzy : z = y). { destruct Hy as [Hy|Hy]; [exact Hy|]. destruct Nz. rewrite Ez. apply in_map. exact Hy. } subst z.
    unfold measured. cbn [flat_map]. destruct H as (_ & _ & ->). cbn [app]. f_equal.
    assert (Z : filter (fun w0 => if ngroup_eq_dec (group_of D q w0) (place tr (fst y)) then true else false) W' = []).
    { apply filter_none. apply Forall_forall. intros w0 Hw0. destruct (F2_in_r _ _ _ _ HF Hw0) as (z & Hz & Rz). rewrite (rec_group1 z w0 Rz).
      destruct (ngroup_eq_dec (place tr (fst z)) (place tr (fst y))) as [E0|]; [|reflexivity]. exfalso. apply Nz. assert (E1 : fst z = fst y) by (apply Hinj; [right; exact Hz|left; reflexivity|]; injection E0 as E0; exact E0). rewrite <- E1. apply in_map. exact Hz. }
    rewrite Z. reflexivity.
  - apply IH; [exact HF|exact Nd|intros; apply Hinj; auto; right; auto|]. destruct Hy as [Hy|Hy]; [|exact Hy]. destruct E. rewrite Hy. reflexivity.
Qed.
Lemma row_line d out rows r : result_of D q d W out rows -> In r rows -> exists y, In y L /\ rw_group r = place tr (fst y) /\ line_says d (p_sum ++ x) (rw_key r ++ concat (rw_res r)) (by_name tr (fst y)) (snd y).
Proof.
  intros HR Hr. pose proof HR as (Eo & Nd & HP & HF). rewrite Forall_forall in HF. destruct (HF r Hr) as (Sh & HK).
  destruct (proj1 (HP (rw_group r)) (in_map _ _ _ Hr)) as (w & Hw & Hg).
  assert (Eg : group_of D q w = rw_group r). { destruct Hg as [Hg|(_ & c & Hc & Hi & _)]; [exact Hg|]. destruct Hc as [<-|[]]. discriminate Hi. }
  destruct (F2_in_r _ _ _ _ HL Hw) as (y & Hy & Ry). rewrite (rec_group1 y w Ry) in Eg. exists y. split; [exact Hy|]. split; [auto|].
  destruct (C76_fold D q d W out rows r 0 (CSum x false) vadd x false (p_sum ++ x) HR Hr eq_refl (or_introl eq_refl)) as (es & Ees & Hn).
  rewrite <- Eg, (measured_at y Hy) in Hn. cbn in Hn. inversion Hn as [|? e ? es' (a & Ha & He) Hn']; subst. inversion Hn'; subst.
  assert (Erw : rw_res r = [[EImm a (VUint (snd y))]]).
  { apply F2_length in HK. cbn in HK. destruct (rw_res r) as [|e0 [|e1 rs]]; cbn in HK, Ees; try discriminate HK. injection Ees as ->. reflexivity. }
  destruct Sh as (w' & S1 & S2 & S3 & S4). exists (rw_key r), w', a. rewrite Erw. split; [reflexivity|]. split; [exact Ha|]. split; [exact S1|]. rewrite S3, <- Eg. cbn [ng_path ng_np place]. rewrite app_nil_r. split; [reflexivity|].
  destruct (wimms w') as [|z l]; [reflexivity|]. inversion S4 as [|? ? C]; subst. destruct C.
Qed.
Lemma report_lines d out rows : result_of D q d W out rows ->
  exists ys, NoDup (map fst ys) /\ (forall y, In y ys <-> In y L) /\ Forall2 (fun es y => line_says d (p_sum ++ x) es (by_name tr (fst y)) (snd y)) out ys.
Proof.
  intros HR. pose proof HR as (Eo & Nd & HP & HF).
  assert (X : forall rs, incl rs rows -> exists ys, Forall2 (fun r y => In y L /\ rw_group r = place tr (fst y) /\ line_says d (p_sum ++ x) (rw_key r ++ concat (rw_res r)) (by_name tr (fst y)) (snd y)) rs ys).
  { induction rs as [|r rs IH]; intro Hi; [exists []; constructor|]. destruct IH as (ys & Hys); [intros z Hz; apply Hi; right; exact Hz|]. destruct (row_line d out rows r HR (Hi r (or_introl eq_refl))) as (y & Hy). exists (y :: ys). constructor; auto. }
  destruct (X rows (incl_refl _)) as (ys & Hys). exists ys.
  assert (Eg : map rw_group rows = map (fun y => place tr (fst y)) ys). { clear - Hys. induction Hys as [|r y rs ys (_ & E & _) HF IH]; [reflexivity|]. cbn. rewrite E, IH. reflexivity. }
  split; [|split].
  - rewrite Eg in Nd. clear - Nd. induction ys as [|y ys IH]; [constructor|]. cbn in *. apply NoDup_cons_iff in Nd as (N1 & N2). constructor; [|auto]. intro Hi. apply N1. apply in_map_iff in Hi as (z & Ez & Hz). apply in_map_iff. exists z. rewrite Ez. auto.
  - intro y. split.
    + intro Hy. destruct (F2_in_r _ _ _ _ Hys Hy) as (r & _ & H & _). exact H.
    + intro Hy. destruct (F2_in_l _ _ _ _ HL Hy) as (w & Hw & Rw). assert (Hg : In (place tr (fst y)) (map rw_group rows)). { apply HP. exists w. split; [exact Hw|]. left. exact (rec_group1 y w Rw). }
      rewrite Eg in Hg. apply in_map_iff in Hg as (z & Ez & Hz). destruct (F2_in_r _ _ _ _ Hys Hz) as (r & _ & Hz' & _).
      assert (E1 : fst z = fst y) by (apply Hinj; auto; injection Ez as Ez; exact Ez).
      assert (E2 : z = y). { pose proof Hnd as Hn. clear - E1 Hn Hz' Hy. induction L as [|u l IH]; [contradiction|]. cbn in Hn. apply NoDup_cons_iff in Hn as (N1 & N2). destruct Hz' as [->|Hz'], Hy as [->|Hy]; [reflexivity| | |auto]; destruct N1; [rewrite E1|rewrite <- E1]; apply in_map; assumption. }
      rewrite <- E2. exact Hz.
  - rewrite Eo. clear - Hys. induction Hys as [|r y rs ys (_ & _ & H) HF IH]; [constructor|]. cbn [map]. constructor; auto.
Qed.
End Q2.

Lemma passing_all parse D W : passing parse D [] W = W.
Proof. unfold passing. apply filter_all. apply Forall_forall. intros w _. reflexivity. Qed.
Lemma ctx_plain calls (recs : list (list rent)) m : Forall2 (fun r c => c_glob c = false /\ Forall2 (written_entry m) r (c_rec c)) recs calls -> ctx_calls calls = map (fun c => ref_first (c_rec c)) calls.
Proof. induction 1 as [|r c recs calls (H & _) HF IH]; [reflexivity|]. unfold ctx_calls in *. cbn [flat_map map]. rewrite H, IH. reflexivity. Qed.

Section T.
Variable rx : bytes -> bytes -> bool.
Variable ea : N -> eattr.
Variable cv : value -> cvar.
Variable m : memory.

(* what the records of the profile's file say *)
Lemma stored : forall c es sk t ops0 s0 xs0 h s' xs kd kc amin amax asum aavg bmin bmax bsum bavg,
  rt_history ops0 s0 xs0 -> Forall (fun p => plain_op (snd p)) ops0 -> profiling c s0 ->
  reports_stats (pc_info c) kd (pc_dur c) amin amax asum aavg -> reports_stats (pc_info c) kc (pc_cnt c) bmin bmax bsum bavg ->
  ops_ok s0 (prog h) -> Forall (fun x => plain_op (snd x) /\ leaves_channel (pc_chn c) (snd x)) h ->
  rt_run s0 (prog h) = Some (s', xs) -> not_full (RuntimeModel.r_tree s') -> RuntimeModel.r_err s' t = false ->
  (forall n o b, In (n, o) (timeline t h) -> op_attr o = Some b -> find_marker es (ea (at_id b)) = true) ->
  ordered 0 (timeline t h) -> N.of_nat (length (timeline t h)) < 4294967296 ->
  exists p recs, prun rx ea cv m c (pstart s0 es sk) h = Some p /\ aflush (p_db p t) (pc_info c) = Some recs /\
    let l := stretches 0 (bb_regions (RuntimeModel.r_tree s0) (r_tbb s0 t)) (timeline t h) in
    forall dfmt dparse D f W x K, file_of m (RuntimeModel.r_tree s') recs f -> query_ok dfmt dparse D (mkq [] false true K) [f] W ->
      names_unique (fl_src f) -> called (fl_src f) asum x -> dc_type D x = T_UINT ->
      (forall y a v, In y l -> In (a, v) (fst (fst y)) -> dc_nested D (name_of (RuntimeModel.r_tree s') a) = true) ->
      exists L, Forall2 (rec_is (RuntimeModel.r_tree s') D x) L W /\ NoDup (map fst L) /\ (forall q, In q (map fst L) <-> In q (map (fun y => fst (fst y)) l)) /\
        (forall y, In y L -> snd y = spent (fst y) l) /\ (forall y, In y L -> Forall (fun z => called (fl_src f) (fst z) (name_of (RuntimeModel.r_tree s') (fst z))) (fst y)).
Proof.
  intros c es sk t ops0 s0 xs0 h s' xs kd kc amin amax asum aavg bmin bmax bsum bavg Hh Hp0 Hpf HA HB Ho Hp Hr Hnf He Hmk Hord Hlen.
  destruct (C69_time_profile rx ea cv m c es sk t ops0 s0 xs0 h s' xs kd kc amin amax asum aavg bmin bmax bsum bavg Hh Hp0 Hpf HA HB Ho Hp Hr Hnf He Hmk Hord Hlen) as (p & recs & H1 & H2 & H3 & H4).
  destruct (profile_refs rx ea cv m c es sk t ops0 s0 xs0 h s' xs p recs Hh Hp0 Hpf Ho Hp Hr Hnf He Hmk Hord Hlen H1 H3) as (Hinv & Hrefs).
  exists p, recs. split; [exact H1|]. split; [exact H3|]. clear H2. cbv zeta in *. set (l := stretches _ _ _) in *. destruct H4 as (N1 & N2 & N3).
  intros dfmt dparse D f W x K (Hsrc & Hcalls) Hq Hu Hcl Hty Hnest. pose proof Hq as [Qf Qg Qi Qfr Qw Qs].
  inversion Qf as [|? ? Hf _]; subst. destruct Hf as (Ssrc & _ & _ & Scalls & _). inversion Qg as [|? ? (Ag & _ & Pl) _]; subst.
  set (tr := RuntimeModel.r_tree s') in *. set (lk := fl_src f) in *.
  destruct Qw as (Ws & HWs & EW). inversion HWs as [|? ws ? ? HW1 HW2]; subst. inversion HW2; subst. cbn [concat] in *. rewrite app_nil_r in *. rewrite (ctx_plain _ _ _ Hcalls) in HW1.
  set (L := map (fun r => (rec_path tr r, spent (rec_path tr r) l)) recs).
  assert (Hrec : Forall2 (fun r w => rec_is tr D x (rec_path tr r, spent (rec_path tr r) l) w /\ Forall (fun z => called lk (fst z) (name_of tr (fst z))) (rec_path tr r)) recs ws).
  { assert (Hgood : forall cl, In cl (fl_calls f) -> forall v, In (EImm asum v) (c_rec cl) -> val_type v = 3).
    { intros cl Hc v Hv. rewrite Forall_forall in Scalls. destruct (Scalls cl Hc) as (_ & _ & _ & _ & _ & T). destruct (T asum v Hv) as ((_ & fuel & Ec) & _).
      assert (Ha : 12 <= asum). { assert (Hrf : In (ref_first (c_rec cl)) (ctx_calls (fl_calls f))) by (rewrite (ctx_plain _ _ _ Hcalls); apply in_map_iff; exists cl; auto).
        refine (Pl _ (EImm asum v) Hrf _). unfold ref_first. apply in_or_app. right. apply in_map_iff. exists (asum, v). split; [reflexivity|]. unfold imms_of. apply in_flat_map. exists (EImm asum v). split; [exact Hv|left; reflexivity]. }
      destruct (Ag asum x Ha Hcl) as (_ & _ & T2). specialize (T2 _ _ Ec). rewrite Hty in T2. symmetry. exact T2. }
    assert (Hone : forall r es w, In r recs -> (forall v, In (EImm asum v) es -> val_type v = 3) -> Forall2 (written_entry m) r es -> record_says lk (ref_first es) w ->
      rec_is tr D x (rec_path tr r, spent (rec_path tr r) l) w /\ Forall (fun z => called lk (fst z) (name_of tr (fst z))) (rec_path tr r)).
    { intros r es0 w Hin Hv Hw Hs. rewrite Forall_forall in Hrefs. destruct (Hrefs r Hin) as (q & Hcx). destruct (record_ok tr lk Hsrc Hinv _ Ssrc m r es0 w asum x q Hw Hcx Hs Hu Hcl Hv) as (R1 & R2 & R3).
      assert (Eq : rec_path tr r = q). { rewrite rec_path_refs. destruct Hcx as [(-> & ->)|(i & -> & Z1 & Z2 & Z3)]; [reflexivity|]. apply (path_node_at tr Hinv i q Z2 Z1 Z3). }
      rewrite Eq. split; [|exact R2]. split; [exact R1|]. cbn [fst snd]. split.
      - intros a v Ha. assert (Hq' : In q (map (rec_path tr) recs)) by (rewrite <- Eq; apply in_map; exact Hin). apply N2 in Hq'. apply in_map_iff in Hq' as (y & Ey & Hy). apply (Hnest y a v Hy). rewrite Ey. exact Ha.
      - rewrite R3. destruct (N3 r Hin) as (-> & _). rewrite Eq. reflexivity. }
    assert (Hin2 : incl recs recs) by apply incl_refl. revert Hin2. clear - Hcalls HW1 Hgood Hone. revert Hcalls HW1 Hgood. generalize (fl_calls f) as calls. generalize recs at 1 2 4 as rs. intros rs calls Hc. revert ws.
    induction Hc as [|r cl rs calls (_ & Hw) Hc IH]; intros ws HW Hg Hi; inversion HW as [|? w ? ws' S1 S2]; subst; constructor.
    - apply (Hone r (c_rec cl)); [apply Hi; left; reflexivity|apply Hg; left; reflexivity|exact Hw|exact S1].
    - apply IH; [exact S2|intros cl' Hcl'; apply Hg; right; exact Hcl'|intros r' Hr'; apply Hi; right; exact Hr']. }
  assert (HL : Forall2 (rec_is tr D x) L ws). { unfold L. clear - Hrec. induction Hrec as [|r w rs ws (H & _) HF IH]; [constructor|]. cbn [map]. constructor; auto. }
  assert (EL : map fst L = map (rec_path tr) recs). { unfold L. rewrite map_map. reflexivity. }
  assert (Hnd : NoDup (map fst L)) by (rewrite EL; exact N1).
  assert (HLin : forall y, In y L -> exists r, In r recs /\ y = (rec_path tr r, spent (rec_path tr r) l)). { intros y Hy. unfold L in Hy. apply in_map_iff in Hy as (r & <- & Hr'). eauto. }
  assert (Hcalled : forall r, In r recs -> Forall (fun z => called lk (fst z) (name_of tr (fst z))) (rec_path tr r)). { intros r Hr'. destruct (F2_in_l _ _ _ _ Hrec Hr') as (w & _ & _ & Z). exact Z. }
  exists L. split; [exact HL|]. split; [exact Hnd|]. split; [intro q; rewrite EL; apply N2|]. split.
  - intros y Hy. destruct (HLin y Hy) as (r & _ & ->). reflexivity.
  - intros y Hy. destruct (HLin y Hy) as (r & Hr1 & ->). exact (Hcalled r Hr1).
Qed.
(* For every program and every thread t that used regions without errors: the channel's calls go through and a profile
   is flushed for t; whatever file it is stored in, whatever the ids and other contents of the reading database, the
   query SELECT sum(x) GROUP BY path over that file, x being the name of the attribute for total times, prints one
   line for every place where the thread spent time between two region calls, naming the regions that were
   open there (outermost first), with the time the thread spent there - and no other lines *)
Theorem C81_report : forall c es sk t ops0 s0 xs0 h s' xs kd kc amin amax asum aavg bmin bmax bsum bavg,
  rt_history ops0 s0 xs0 -> Forall (fun p => plain_op (snd p)) ops0 -> profiling c s0 ->
  reports_stats (pc_info c) kd (pc_dur c) amin amax asum aavg -> reports_stats (pc_info c) kc (pc_cnt c) bmin bmax bsum bavg ->
  ops_ok s0 (prog h) -> Forall (fun x => plain_op (snd x) /\ leaves_channel (pc_chn c) (snd x)) h ->
  rt_run s0 (prog h) = Some (s', xs) -> not_full (RuntimeModel.r_tree s') -> RuntimeModel.r_err s' t = false ->
  (forall n o b, In (n, o) (timeline t h) -> op_attr o = Some b -> find_marker es (ea (at_id b)) = true) ->
  ordered 0 (timeline t h) -> N.of_nat (length (timeline t h)) < 4294967296 ->
  exists p recs, prun rx ea cv m c (pstart s0 es sk) h = Some p /\ aflush (p_db p t) (pc_info c) = Some recs /\
    let l := stretches 0 (bb_regions (RuntimeModel.r_tree s0) (r_tbb s0 t)) (timeline t h) in
    forall dfmt dparse parse D f W x, file_of m (RuntimeModel.r_tree s') recs f -> query_ok dfmt dparse D (time_query x) [f] W ->
      names_unique (fl_src f) -> called (fl_src f) asum x -> dc_type D x = T_UINT ->
      (forall y a v, In y l -> In (a, v) (fst (fst y)) -> dc_nested D (name_of (RuntimeModel.r_tree s') a) = true) ->
      exists d g out d' qs, aggregate_files dparse parse [] (time_query x) [text_of dfmt f] = Some (d, g, false) /\ flush (time_query x) (d, g) = Some (out, d') /\
        NoDup qs /\ (forall q, In q qs <-> In q (map (fun y => fst (fst y)) l)) /\
        Forall2 (fun es q => line_says d' (p_sum ++ x) es (by_name (RuntimeModel.r_tree s') q) (spent q l)) out qs.
Proof.
  intros c es sk t ops0 s0 xs0 h s' xs kd kc amin amax asum aavg bmin bmax bsum bavg Hh Hp0 Hpf HA HB Ho Hp Hr Hnf He Hmk Hord Hlen.
  destruct (stored c es sk t ops0 s0 xs0 h s' xs kd kc amin amax asum aavg bmin bmax bsum bavg Hh Hp0 Hpf HA HB Ho Hp Hr Hnf He Hmk Hord Hlen) as (p & recs & H1 & H2 & H3).
  exists p, recs. split; [exact H1|]. split; [exact H2|]. cbv zeta in *. set (l := stretches _ _ _) in *.
  intros dfmt dparse parse D f W x Hf Hq Hu Hcl Hty Hnest. destruct (H3 dfmt dparse D f W x _ Hf Hq Hu Hcl Hty Hnest) as (L & HL & Hnd & HLi & HLs & HLc).
  assert (Hinj : forall y y', In y L -> In y' L -> by_name (RuntimeModel.r_tree s') (fst y) = by_name (RuntimeModel.r_tree s') (fst y') -> fst y = fst y').
  { intros y y' Hy Hy' E. exact (by_name_inj (RuntimeModel.r_tree s') (fl_src f) _ _ Hu (HLc y Hy) (HLc y' Hy') E). }
  destruct (C76_query dfmt dparse parse [] D (time_query x) [f] W Hq) as (d & g & E1 & E2 & E3).
  destruct E3 as (out & d' & E3); [constructor; [exact Logic.I|constructor]|]. destruct (E2 out d' E3) as (rows & HR). rewrite passing_all in HR.
  destruct (report_lines (RuntimeModel.r_tree s') D x L W HL Hnd Hinj d' out rows HR) as (ys & Y1 & Y2 & Y3).
  exists d, g, out, d', (map fst ys). split; [exact E1|]. split; [exact E3|]. split; [exact Y1|]. split.
  - intro q. rewrite <- HLi. rewrite !in_map_iff. split; intros (y & Ey & Hy); exists y; (split; [exact Ey|apply Y2; exact Hy]).
  - assert (Hys : forall y, In y ys -> snd y = spent (fst y) l) by (intros y Hy; apply HLs, Y2, Hy).
    clear - Y3 Hys. induction Y3 as [|es y out ys H HF IH]; [constructor|]. cbn [map]. constructor; [|apply IH; intros z Hz; apply Hys; right; exact Hz]. rewrite <- (Hys y (or_introl eq_refl)). exact H.
Qed.
End T.
