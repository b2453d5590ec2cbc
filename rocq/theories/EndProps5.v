(* C81: the report of a process with many threads *)
From Verif Require Import Base VariantModel VariantSpec NamesModel NamesProps TextModel TreeModel TreeSpec TreeProofs TreeProofs2 RuntimeModel RuntimeSpec RuntimeProofs RuntimeProofs2 RuntimeProps RuntimeProps3 RuntimeProps4.
From Verif Require Import ArithModel RtAggModel RtAggSpec RFilterModel EventModel TimerModel ProfModel ProfSpec ProfProofs2 ProfProofs4 ProfProofs5 ProfProps EndProofs.
From Verif Require Import CaliFileModel CaliFileProofs CaliFileProofs2 CaliFileProofs3 CaliFileProofs4 CaliFileProofs5 CaliFileProps ArithSpec AggModel AggSpec AggSpec2 AggProofs7 FilterModel QFileSpec QFileModel QFileProofs4 QFileProofs6 QFileProps EndSpec EndProofs2 EndProps EndProps3.
Open Scope N_scope.

(* ---------- the result of the inclusive query, for records with any values ---------- *)
Section Q.
Variable tr : tree.
Variable lk : N -> option tnode.
Variable D : dict.
Variable x : bytes.
Notation q := (inclusive_query x).
Hypothesis Hu : names_unique lk.
Variable L : list (ProfSpec.path * N).
Variable W : list nrec.
Hypothesis HL : Forall2 (rec_is tr D x) L W.
Hypothesis HLk : forall y, In y L -> known tr lk (fst y).
Hypothesis HLu : forall y, In y L -> snd y < W64.
Definition own (p : ProfSpec.path) : list N := map snd (filter (fun y => path_eqb p (fst y)) L).
Definition below (p : ProfSpec.path) : list N := map snd (filter (fun y => inside p (fst y)) L).
Definition row_for (p : ProfSpec.path) : Prop := In p (map fst L) \/ (p <> [] /\ exists z, In z (map fst L) /\ inside p z = true).
Lemma fold_list f : fold1 ArithSpec.vadd (map (fun y : ProfSpec.path * N => VUint (snd y)) (filter f L)) = match map snd (filter f L) with [] => VInv | _ => VUint (wrap64 (AggSpec2.nsum (map snd (filter f L)))) end.
Proof.
  rewrite <- (map_map snd VUint). apply fold1_uint. apply Forall_forall. intros n Hn. apply in_map_iff in Hn as (y0 & <- & Hy0). apply filter_In in Hy0 as (Hy0 & _). exact (HLu y0 Hy0).
Qed.
Lemma row_line3 d out rows r : result_of D q d W out rows -> In r rows ->
  exists p, known tr lk p /\ rw_group r = place tr p /\ line_says2 d x (rw_key r ++ concat (rw_res r)) (by_name tr p) (match own p with [] => [] | _ => [wrap64 (ProfSpec.nsum (own p))] end) (wrap64 (ProfSpec.nsum (below p))) /\ row_for p.
Proof.
  intros HR Hr. pose proof HR as (Eo & Nd & HP & HF). rewrite Forall_forall in HF. destruct (HF r Hr) as (Sh & HK).
  destruct (proj1 (HP (rw_group r)) (in_map _ _ _ Hr)) as (w & Hw & Hg). destruct (F2_in_r _ _ _ _ HL Hw) as (y & Hy & Ry). rewrite (rec_group2 tr D x y w Ry) in Hg. pose proof (HLk y Hy) as Ky.
  assert (Hp : exists p, known tr lk p /\ rw_group r = place tr p /\ inside p (fst y) = true /\ (p = fst y \/ p <> [])).
  { destruct Hg as [Hg|(He & _)].
    - exists (fst y). split; [exact Ky|]. split; [auto|]. split; [apply (encl_place tr lk Hu (fst y) (fst y) Ky Ky); auto|auto].
    - destruct He as (G1 & G2 & G3 & z & r' & G4). cbn [place ng_imm ng_np ng_path] in *. exists (firstn (length (ng_path (rw_group r))) (fst y)).
      assert (Kf : known tr lk (firstn (length (ng_path (rw_group r))) (fst y))) by apply known_first, Ky. split; [exact Kf|].
      assert (Ef : by_name tr (firstn (length (ng_path (rw_group r))) (fst y)) = ng_path (rw_group r)). { rewrite by_name_first, G4, firstn_app, Nat.sub_diag, firstn_all. cbn [firstn]. apply app_nil_r. }
      assert (Nf : firstn (length (ng_path (rw_group r))) (fst y) <> []). { intro Z. rewrite Z in Ef. apply G3. rewrite <- Ef. reflexivity. }
      split; [unfold place; rewrite Ef; destruct (rw_group r); cbn in *; congruence|]. split; [|auto].
      apply (inside_spec tr lk Hu _ _ Kf Ky). right. split; [exact Nf|]. exists z, r'. rewrite Ef. exact G4. }
  destruct Hp as (p & Kp & Ep & Ip & Np). exists p. split; [exact Kp|]. split; [exact Ep|]. split.
  2:{ assert (Hin : In (fst y) (map fst L)) by (apply in_map; exact Hy). destruct Np as [->|Np]; [left; exact Hin|right; split; [exact Np|eauto]]. }
  destruct (C76_fold D q d W out rows r 0 (CSum x false) ArithSpec.vadd x false (p_sum ++ x) HR Hr eq_refl (or_introl eq_refl)) as (es1 & E1 & H1).
  destruct (C76_fold D q d W out rows r 1 (CSum x true) ArithSpec.vadd x true (p_incl ++ x) HR Hr eq_refl (or_introl eq_refl)) as (es2 & E2 & H2).
  rewrite Ep in H1, H2. rewrite (measured_below tr lk D x Hu false p L W HL HLk Kp), fold_list in H1. rewrite (measured_below tr lk D x Hu true p L W HL HLk Kp), fold_list in H2. fold (own p) in H1. fold (below p) in H2.
  assert (Hne : below p <> []). { intro Z. assert (X : In y (filter (fun y0 => inside p (fst y0)) L)) by (apply filter_In; auto). apply (in_map snd) in X. fold (below p) in X. rewrite Z in X. exact X. }
  change (AggSpec2.nsum (below p)) with (ProfSpec.nsum (below p)) in H2. change (AggSpec2.nsum (own p)) with (ProfSpec.nsum (own p)) in H1.
  assert (H2' : named d (opt_res (VUint (wrap64 (ProfSpec.nsum (below p)))) (p_incl ++ x)) es2) by (destruct (below p); [congruence|exact H2]). clear H2. cbn [opt_res nonempty] in H2'.
  inversion H2' as [|? e ? es' (b & Hb & He) Hn']; subst. inversion Hn'; subst. cbn [fst snd] in *.
  assert (Erw : rw_res r = [es1; [EImm b (VUint (wrap64 (ProfSpec.nsum (below p))))]]).
  { apply F2_length in HK. cbn in HK. destruct (rw_res r) as [|e0 [|e1 [|e2 rs]]]; cbn in HK, E1, E2; try discriminate HK. injection E1 as ->. injection E2 as ->. reflexivity. }
  destruct Sh as (w' & S1 & S2 & S3 & S4). exists (rw_key r), w', es1, b. rewrite Erw. cbn [concat]. rewrite app_nil_r. split; [reflexivity|]. split; [exact Hb|]. split.
  - destruct (own p).
    + cbn in H1. inversion H1; subst. constructor.
    + cbn [opt_res nonempty] in H1. inversion H1 as [|? e ? es' (a & Ha & He) Hn]; subst. inversion Hn; subst. constructor; [|constructor]. exists a. auto.
  - split; [exact S1|]. split; [rewrite S3, Ep; cbn [ng_path ng_np place]; apply app_nil_r|]. destruct (wimms w') as [|z lz]; [reflexivity|]. inversion S4 as [|? ? C]; subst. cbn in C. contradiction.
Qed.
Lemma report_lines3 d out rows : result_of D q d W out rows ->
  exists qs, NoDup qs /\ (forall p, In p qs <-> row_for p) /\
    Forall2 (fun es p => line_says2 d x es (by_name tr p) (match own p with [] => [] | _ => [wrap64 (ProfSpec.nsum (own p))] end) (wrap64 (ProfSpec.nsum (below p)))) out qs.
Proof.
  intros HR. pose proof HR as (Eo & Nd & HP & HF).
  assert (X : forall rs, incl rs rows -> exists qs, Forall2 (fun r p => known tr lk p /\ rw_group r = place tr p /\ line_says2 d x (rw_key r ++ concat (rw_res r)) (by_name tr p) (match own p with [] => [] | _ => [wrap64 (ProfSpec.nsum (own p))] end) (wrap64 (ProfSpec.nsum (below p))) /\ row_for p) rs qs).
  { induction rs as [|r rs IH]; intro Hi; [exists []; constructor|]. destruct IH as (qs & Hqs); [intros z Hz; apply Hi; right; exact Hz|]. destruct (row_line3 d out rows r HR (Hi r (or_introl eq_refl))) as (p & Hp). exists (p :: qs). constructor; auto. }
  destruct (X rows (incl_refl _)) as (qs & Hqs). exists qs.
  assert (Eg : map rw_group rows = map (place tr) qs). { clear - Hqs. induction Hqs as [|r p rs qs (_ & E & _) HF IH]; [reflexivity|]. cbn. rewrite E, IH. reflexivity. }
  assert (Hk : forall p, In p qs -> known tr lk p /\ row_for p). { intros p Hp. destruct (F2_in_r _ _ _ _ Hqs Hp) as (r & _ & K1 & _ & _ & K2). auto. }
  split; [|split].
  - rewrite Eg in Nd. clear - Nd. induction qs as [|y ys IH]; [constructor|]. cbn in *. apply NoDup_cons_iff in Nd as (N1 & N2). constructor; [|auto]. intro Hi. apply N1. apply in_map. exact Hi.
  - intro p. split; [intro Hp; apply Hk; exact Hp|]. intro Hp.
    assert (Hz : exists y, In y L /\ known tr lk p /\ inside p (fst y) = true /\ (p = fst y \/ p <> [])).
    { destruct Hp as [Hp|(Np & z & Hz & Ip)].
      - apply in_map_iff in Hp as (y & <- & Hy). exists y. split; [exact Hy|]. split; [apply HLk; exact Hy|]. split; [|auto]. apply (encl_place tr lk Hu (fst y) (fst y)); auto.
      - apply in_map_iff in Hz as (y & <- & Hy). exists y. split; [exact Hy|]. split; [|auto]. unfold inside in Ip. apply orb_true_iff in Ip as [Ip|Ip]; [apply path_eqb_eq in Ip; rewrite Ip; apply HLk; exact Hy|].
        apply andb_true_iff in Ip as (_ & Ip). apply path_eqb_eq in Ip. rewrite Ip. apply known_first, HLk. exact Hy. }
    destruct Hz as (y & Hy & Kp & Ip & Np). destruct (F2_in_l _ _ _ _ HL Hy) as (w & Hw & Rw). pose proof (HLk y Hy) as Ky.
    assert (Hg : In (place tr p) (map rw_group rows)).
    { apply HP. exists w. split; [exact Hw|]. rewrite (rec_group2 tr D x y w Rw). apply (encl_place tr lk Hu p (fst y) Kp Ky) in Ip. destruct Ip as [Ip|Ip]; [right|left; rewrite Ip; reflexivity]. split; [exact Ip|]. exists (CSum x true). split; [right; left; reflexivity|]. split; [reflexivity|].
      intro Z. pose proof (nmatch_values (CSum x true) x w eq_refl eq_refl) as V. rewrite Z in V. destruct Rw as (_ & _ & R3). rewrite R3 in V. discriminate V. }
    rewrite Eg in Hg. apply in_map_iff in Hg as (p' & E' & Hp'). destruct (Hk p' Hp') as (Kp' & _). apply (place_eq tr lk Hu p' p Kp' Kp) in E'. rewrite <- E'. exact Hp'.
  - rewrite Eo. clear - Hqs. induction Hqs as [|r p rs qs (_ & _ & H & _) HF IH]; [constructor|]. cbn [map]. constructor; auto.
Qed.
End Q.

(* ---------- one thread's records ---------- *)
Lemma own_nsum l L p : NoDup (map fst L) -> (forall q, In q (map fst L) <-> In q (map (fun y : ProfSpec.path * N * bool => fst (fst y)) l)) -> (forall y, In y L -> snd y = spent (fst y) l) ->
  own L p = if visited p l then [spent p l] else [].
Proof.
  intros Nd Hi Hs. pose proof (own_values l L Nd Hi Hs p) as E. unfold own.
  assert (E2 : map VUint (map snd (filter (fun y => path_eqb p (fst y)) L)) = map VUint (if visited p l then [spent p l] else [])) by (rewrite map_map, E; destruct (visited p l); reflexivity).
  revert E2. generalize (if visited p l then [spent p l] else []). generalize (map snd (filter (fun y => path_eqb p (fst y)) L)). clear. induction l as [|n l IH]; intros [|k l'] H; cbn in H; try discriminate H; [reflexivity|]. injection H as H1 H2. rewrite H1, (IH l' H2). reflexivity.
Qed.
Section T.
Variable rx : bytes -> bytes -> bool.
Variable ea : N -> eattr.
Variable cv : value -> cvar.
Variable m : memory.
(* a thread whose region calls are all well formed *)
Definition thread_ok (es : esvc) (h : list (N * N * rop)) (s' : rt) (t : N) : Prop :=
  RuntimeModel.r_err s' t = false /\
  (forall n o b, In (n, o) (timeline t h) -> op_attr o = Some b -> find_marker es (ea (at_id b)) = true) /\
  ordered 0 (timeline t h) /\ N.of_nat (length (timeline t h)) < 4294967296.
Section H.
Variables (c : pcfg) (es : esvc) (sk : N) (ops0 : list (N * rop)) (s0 : rt) (xs0 : list out) (h : list (N * N * rop)) (s' : rt) (xs : list out).
Variables (kd kc : nat).
Variables amin amax asum aavg bmin bmax bsum bavg : N.
Hypothesis Hh : rt_history ops0 s0 xs0.
Hypothesis Hp0 : Forall (fun p => plain_op (snd p)) ops0.
Hypothesis Hpf : profiling c s0.
Hypothesis HA : reports_stats (pc_info c) kd (pc_dur c) amin amax asum aavg.
Hypothesis HB : reports_stats (pc_info c) kc (pc_cnt c) bmin bmax bsum bavg.
Hypothesis Ho : ops_ok s0 (prog h).
Hypothesis Hp : Forall (fun x => plain_op (snd x) /\ leaves_channel (pc_chn c) (snd x)) h.
Hypothesis Hr : rt_run s0 (prog h) = Some (s', xs).
Hypothesis Hnf : not_full (RuntimeModel.r_tree s').
Notation tr := (RuntimeModel.r_tree s').
Definition places_of (t : N) : list (ProfSpec.path * N * bool) := stretches 0 (bb_regions (RuntimeModel.r_tree s0) (r_tbb s0 t)) (timeline t h).
Lemma thread_recs t : thread_ok es h s' t -> exists p recs, prun rx ea cv m c (pstart s0 es sk) h = Some p /\ aflush (p_db p t) (pc_info c) = Some recs /\ inv tr /\
  NoDup (map (rec_path tr) recs) /\ (forall q, In q (map (rec_path tr) recs) <-> In q (map (fun x => fst (fst x)) (places_of t))) /\
  forall r, In r recs -> (exists q, ctx_for tr (filter is_ref r) q /\ rec_path tr r = q) /\ rec_val r asum = [spent (rec_path tr r) (places_of t)].
Proof.
  intros (He & Hmk & Hord & Hlen).
  destruct (C69_time_profile rx ea cv m c es sk t ops0 s0 xs0 h s' xs kd kc amin amax asum aavg bmin bmax bsum bavg Hh Hp0 Hpf HA HB Ho Hp Hr Hnf He Hmk Hord Hlen) as (p & recs & H1 & H2 & H3 & H4).
  destruct (profile_refs rx ea cv m c es sk t ops0 s0 xs0 h s' xs p recs Hh Hp0 Hpf Ho Hp Hr Hnf He Hmk Hord Hlen H1 H3) as (Hinv & Hrefs).
  exists p, recs. split; [exact H1|]. split; [exact H3|]. split; [exact Hinv|]. cbv zeta in H4. fold (places_of t) in H4. destruct H4 as (N1 & N2 & N3). split; [exact N1|]. split; [exact N2|].
  intros r Hin. rewrite Forall_forall in Hrefs. destruct (Hrefs r Hin) as (q & Hcx). split.
  - exists q. split; [exact Hcx|]. rewrite rec_path_refs. destruct Hcx as [(-> & ->)|(i & -> & Z1 & Z2 & Z3)]; [reflexivity|]. apply (path_node_at tr Hinv i q Z2 Z1 Z3).
  - destruct (N3 r Hin) as (E & _). exact E.
Qed.
Definition rows_of (t : N) (recs : list (list rent)) : list (ProfSpec.path * N) := map (fun r => (rec_path tr r, spent (rec_path tr r) (places_of t))) recs.
(* all threads *)
Lemma process_recs ts p : ts <> [] -> Forall (thread_ok es h s') ts -> prun rx ea cv m c (pstart s0 es sk) h = Some p ->
  exists R, Forall2 (fun t recs => aflush (p_db p t) (pc_info c) = Some recs) ts R /\ inv tr /\
    let L := concat (map (fun x => rows_of (fst x) (snd x)) (combine ts R)) in
    (forall y, In y L <-> exists t, In t ts /\ In (fst y) (map (fun x => fst (fst x)) (places_of t)) /\ snd y = spent (fst y) (places_of t)) /\
    (forall q, ProfSpec.nsum (own L q) = spent_all (map places_of ts) q /\ (own L q = [] <-> ~ In q (places (map places_of ts))) /\ ProfSpec.nsum (below L q) = within_all (map places_of ts) q) /\
    Forall2 (fun r y => (exists q, ctx_for tr (filter is_ref r) q /\ rec_path tr r = q) /\ rec_val r asum = [snd y] /\ fst y = rec_path tr r) (concat R) L.
Proof.
  intros Nts Hts Hrun.
  assert (Hinv : inv tr). { destruct ts as [|t ts]; [congruence|]. inversion Hts as [|? ? Ht _]; subst. destruct (thread_recs t Ht) as (_ & _ & _ & _ & Hi & _). exact Hi. }
  clear Nts. induction Hts as [|t ts Ht Hts IH].
  - exists []. split; [constructor|]. split; [exact Hinv|]. cbn. split; [|split; [|constructor]].
    + intro y. split; [contradiction|intros (t & [] & _)].
    + intro q. split; [reflexivity|]. split; [|reflexivity]. unfold own, places. cbn. tauto.
  - destruct IH as (R & R1 & _ & R2 & R3 & R4). destruct (thread_recs t Ht) as (p' & recs & E1 & E2 & _ & T1 & T2 & T3). assert (Ep : p' = p) by congruence. subst p'.
    exists (recs :: R). split; [constructor; auto|]. split; [exact Hinv|]. cbv zeta in *. cbn [combine map concat fst snd]. set (L := concat (map (fun x => rows_of (fst x) (snd x)) (combine ts R))) in *.
    set (Lt := rows_of t recs). assert (EL : map fst Lt = map (rec_path tr) recs) by (unfold Lt, rows_of; rewrite map_map; reflexivity).
    assert (HLs : forall y, In y Lt -> snd y = spent (fst y) (places_of t)) by (intros y Hy; apply in_map_iff in Hy as (r & <- & _); reflexivity).
    assert (HLi : forall q, In q (map fst Lt) <-> In q (map (fun y => fst (fst y)) (places_of t))) by (intro q; rewrite EL; apply T2).
    assert (HNd : NoDup (map fst Lt)) by (rewrite EL; exact T1).
    split; [|split].
    + intro y. rewrite in_app_iff, R2. split.
      * intros [H|(u & U1 & U2)]; [exists t; split; [left; reflexivity|]; split; [apply HLi, in_map, H|apply HLs, H]|exists u; split; [right; exact U1|exact U2]].
      * intros (u & [U0|U1] & U2 & U3); [subst u; left|right; exists u; auto]. apply HLi in U2. apply in_map_iff in U2 as (z & Ez & Hz). replace y with z; [exact Hz|]. destruct z as [z1 z2], y as [y1 y2]. cbn [fst snd] in *. subst z1. f_equal. rewrite U3. exact (HLs _ Hz).
    + intro q. destruct (R3 q) as (Q1 & Q2 & Q3).
      assert (A1 : forall (a b : list N), ProfSpec.nsum (a ++ b) = ProfSpec.nsum a + ProfSpec.nsum b). { induction a as [|n a IHa]; intro b; [reflexivity|]. unfold ProfSpec.nsum in *. cbn [app fold_right]. rewrite IHa. lia. }
      assert (Eo : own (Lt ++ L) q = own Lt q ++ own L q) by (unfold own; rewrite filter_app, map_app; reflexivity).
      assert (Eb : below (Lt ++ L) q = below Lt q ++ below L q) by (unfold below; rewrite filter_app, map_app; reflexivity).
      assert (Et : own Lt q = if visited q (places_of t) then [spent q (places_of t)] else []) by (apply own_nsum; auto).
      assert (Ev : visited q (places_of t) = false -> spent q (places_of t) = 0).
      { intro V. unfold spent, at_path. rewrite filter_none; [reflexivity|]. apply Forall_forall. intros z Hz. apply not_true_is_false. intro Z. apply path_eqb_eq in Z. assert (X : visited q (places_of t) = true) by (unfold visited; apply existsb_exists; exists z; split; [exact Hz|apply path_eqb_eq; auto]). congruence. }
      rewrite Eo, Eb, !A1, Q1, Q3. split; [|split].
      * unfold spent_all. cbn [map]. cbn [ProfSpec.nsum fold_right]. f_equal. rewrite Et. destruct (visited q (places_of t)); [cbn; lia|cbn; symmetry; auto].
      * unfold places. cbn [map flat_map]. rewrite in_app_iff. fold (places (map places_of ts)). rewrite Et.
        assert (V := visited_in (places_of t) Lt HLi q). rewrite HLi in V. destruct (visited q (places_of t)).
        -- split; [discriminate|]. intro Z. exfalso. apply Z. left. apply V. reflexivity.
        -- cbn [app]. rewrite Q2. split; [|tauto]. intros Z [Y|Y]; [apply V in Y; discriminate Y|auto].
      * unfold within_all. cbn [map]. cbn [ProfSpec.nsum fold_right]. f_equal. exact (within_sum (places_of t) Lt HNd HLi HLs q).
    + assert (Hap : Forall2 (fun r y => (exists q, ctx_for tr (filter is_ref r) q /\ rec_path tr r = q) /\ rec_val r asum = [snd y] /\ fst y = rec_path tr r) recs Lt).
      { unfold Lt, rows_of. clear - T3. induction recs as [|r recs IH]; [constructor|]. cbn [map]. constructor; [|apply IH; intros r' Hr'; apply T3; right; exact Hr']. destruct (T3 r (or_introl eq_refl)) as (A1 & A2). split; [exact A1|]. split; [exact A2|reflexivity]. }
      apply Forall2_app; [exact Hap|exact R4].
Qed.
End H.
End T.

Section P.
Variable rx : bytes -> bytes -> bool.
Variable ea : N -> eattr.
Variable cv : value -> cvar.
Variable m : memory.
(* For every program and any set ts of its threads that used regions without errors: the channel's calls go through
   and a profile is flushed for every thread.  A file that holds the records of all of them, read by the query
   SELECT sum(x), inclusive_sum(x) GROUP BY path, gives one line for every place where some thread spent time and for
   every place around one, with the total of the times that the threads spent in the place itself and in
   the place with everything inside it (modulo 2^64) *)
Theorem C81_process : forall c es sk ts ops0 s0 xs0 h s' xs kd kc amin amax asum aavg bmin bmax bsum bavg,
  rt_history ops0 s0 xs0 -> Forall (fun p => plain_op (snd p)) ops0 -> profiling c s0 ->
  reports_stats (pc_info c) kd (pc_dur c) amin amax asum aavg -> reports_stats (pc_info c) kc (pc_cnt c) bmin bmax bsum bavg ->
  ops_ok s0 (prog h) -> Forall (fun x => plain_op (snd x) /\ leaves_channel (pc_chn c) (snd x)) h ->
  rt_run s0 (prog h) = Some (s', xs) -> not_full (RuntimeModel.r_tree s') -> ts <> [] -> Forall (thread_ok ea es h s') ts ->
  exists p R, prun rx ea cv m c (pstart s0 es sk) h = Some p /\ Forall2 (fun t recs => aflush (p_db p t) (pc_info c) = Some recs) ts R /\
    let ls := map (fun t => stretches 0 (bb_regions (RuntimeModel.r_tree s0) (r_tbb s0 t)) (timeline t h)) ts in
    forall dfmt dparse parse D f W x, file_of m (RuntimeModel.r_tree s') (concat R) f -> query_ok dfmt dparse D (inclusive_query x) [f] W ->
      names_unique (fl_src f) -> called (fl_src f) asum x -> dc_type D x = T_UINT ->
      (forall y a v, In y (places ls) -> In (a, v) y -> dc_nested D (name_of (RuntimeModel.r_tree s') a) = true) ->
      exists d g out d' qs, aggregate_files dparse parse [] (inclusive_query x) [text_of dfmt f] = Some (d, g, false) /\ flush (inclusive_query x) (d, g) = Some (out, d') /\
        NoDup qs /\ (forall q, In q qs <-> In q (places ls) \/ (q <> [] /\ exists z, In z (places ls) /\ inside q z = true)) /\
        Forall2 (fun es q => line_says2 d' x es (by_name (RuntimeModel.r_tree s') q) (if existsb (path_eqb q) (places ls) then [spent_all ls q mod W64] else []) (within_all ls q mod W64)) out qs.
Proof.
  intros c es sk ts ops0 s0 xs0 h s' xs kd kc amin amax asum aavg bmin bmax bsum bavg Hh Hp0 Hpf HA HB Ho Hp Hr Hnf Nts Hts.
  assert (Hex : exists p, prun rx ea cv m c (pstart s0 es sk) h = Some p).
  { destruct ts as [|t ts]; [congruence|]. inversion Hts as [|? ? Ht _]; subst. destruct (thread_recs rx ea cv m c es sk ops0 s0 xs0 h s' xs kd kc amin amax asum aavg bmin bmax bsum bavg Hh Hp0 Hpf HA HB Ho Hp Hr Hnf t Ht) as (p & _ & E & _). eauto. }
  destruct Hex as (p & H1).
  destruct (process_recs rx ea cv m c es sk ops0 s0 xs0 h s' xs kd kc amin amax asum aavg bmin bmax bsum bavg Hh Hp0 Hpf HA HB Ho Hp Hr Hnf ts p Nts Hts H1) as (R & H2 & Hinv & H4).
  exists p, R. split; [exact H1|]. split; [exact H2|]. cbv zeta in *.
  change (map (fun t => stretches 0 (bb_regions (RuntimeModel.r_tree s0) (r_tbb s0 t)) (timeline t h)) ts) with (map (places_of s0 h) ts).
  set (L := concat (map (fun x => rows_of s0 h s' (fst x) (snd x)) (combine ts R))) in *. set (ls := map (places_of s0 h) ts) in *. destruct H4 as (L1 & L2 & L3).
  intros dfmt dparse parse D f W x (Hsrc & Hcalls) Hq Hu Hcl Hty Hnest. pose proof Hq as [Qf Qg Qi Qfr Qw Qs].
  inversion Qf as [|? ? Hf _]; subst. destruct Hf as (Ssrc & _ & _ & Scalls & _). inversion Qg as [|? ? (Ag & _ & Pl) _]; subst.
  set (tr := RuntimeModel.r_tree s') in *. set (lk := fl_src f) in *.
  destruct Qw as (Ws & HWs & EW). inversion HWs as [|? ws ? ? HW1 HW2]; subst. inversion HW2; subst. cbn [concat] in *. rewrite app_nil_r in *. rewrite (ctx_plain _ _ _ Hcalls) in HW1.
  assert (Hgood : forall cl, In cl (fl_calls f) -> forall v, In (EImm asum v) (c_rec cl) -> val_type v = 3).
  { intros cl Hc v Hv. rewrite Forall_forall in Scalls. destruct (Scalls cl Hc) as (_ & _ & _ & _ & _ & T). destruct (T asum v Hv) as ((_ & fuel & Ec) & _).
    assert (Ha : 12 <= asum). { assert (Hrf : In (ref_first (c_rec cl)) (ctx_calls (fl_calls f))) by (rewrite (ctx_plain _ _ _ Hcalls); apply in_map_iff; exists cl; auto).
      refine (Pl _ (EImm asum v) Hrf _). unfold ref_first. apply in_or_app. right. apply in_map_iff. exists (asum, v). split; [reflexivity|]. unfold imms_of. apply in_flat_map. exists (EImm asum v). split; [exact Hv|left; reflexivity]. }
    destruct (Ag asum x Ha Hcl) as (_ & _ & T2). specialize (T2 _ _ Ec). rewrite Hty in T2. symmetry. exact T2. }
  assert (Hpl : forall y, In y L -> In (fst y) (places ls)).
  { intros y Hy. apply L1 in Hy as (t & Ht & Hy & _). unfold places, ls. apply in_flat_map. exists (places_of s0 h t). split; [apply in_map, Ht|exact Hy]. }
  assert (Hrec : Forall2 (fun y w => rec_is tr D x y w /\ known tr lk (fst y)) L ws).
  { assert (Hone : forall r y es0 w, In y L -> ((exists q, ctx_for tr (filter is_ref r) q /\ rec_path tr r = q) /\ rec_val r asum = [snd y] /\ fst y = rec_path tr r) -> (forall v, In (EImm asum v) es0 -> val_type v = 3) -> Forall2 (written_entry m) r es0 -> record_says lk (ref_first es0) w -> rec_is tr D x y w /\ known tr lk (fst y)).
    { intros r y es0 w Hy ((q & Hcx & Eq) & R3 & Ey) Hv Hw Hs. destruct (record_ok tr lk Hsrc Hinv _ Ssrc m r es0 w asum x q Hw Hcx Hs Hu Hcl Hv) as (A1 & A2 & A3). rewrite Ey, Eq. split; [|exact A2].
      split; [rewrite A1, Ey, Eq; reflexivity|]. split.
      - intros a v Ha. apply (Hnest (fst y) a v (Hpl y Hy) Ha).
      - rewrite A3, R3. reflexivity. }
    assert (Hi : incl L L) by apply incl_refl. revert Hi. clear - Hcalls HW1 Hgood Hone L3. revert Hcalls HW1 Hgood. generalize (fl_calls f) as calls. revert ws. revert L3. generalize L at 1 2 4 as L'. generalize (concat R) as rs. intros rs L' F. 
    induction F as [|r y rs L' Hy F IH]; intros ws calls Hc HW Hg Hi; inversion Hc as [|? cl ? calls' (_ & Hw) Hc']; subst; inversion HW as [|? w ? ws' S1 S2]; subst; constructor.
    - apply (Hone r y (c_rec cl)); [apply Hi; left; reflexivity|exact Hy|apply Hg; left; reflexivity|exact Hw|exact S1].
    - apply (IH ws' calls'); [exact Hc'|exact S2|intros cl' Hcl'; apply Hg; right; exact Hcl'|intros z Hz; apply Hi; right; exact Hz]. }
  assert (HL : Forall2 (rec_is tr D x) L ws). { clear - Hrec. induction Hrec as [|y w L ws (H & _) HF IH]; constructor; auto. }
  assert (HLk : forall y, In y L -> known tr lk (fst y)). { intros y Hy. destruct (F2_in_l _ _ _ _ Hrec Hy) as (w & _ & _ & Z). exact Z. }
  assert (HLu : forall y, In y L -> snd y < W64).
  { intros y Hy. apply L1 in Hy as (t & Ht & _ & ->). rewrite Forall_forall in Hts. destruct (Hts t Ht) as (_ & _ & Hord & _).
    destruct (stretch_total (timeline t h) 0 (bb_regions (RuntimeModel.r_tree s0) (r_tbb s0 t)) Hord ltac:(reflexivity)) as (T1 & T2). rewrite <- T1, N.add_0_l in T2. apply (spent_small (places_of s0 h t) T2). }
  assert (HLp : forall q, In q (map fst L) <-> In q (places ls)).
  { intro q. split; [intro H; apply in_map_iff in H as (y & <- & Hy); apply Hpl, Hy|]. intro H. unfold places, ls in H. apply in_flat_map in H as (l & Hl & Hq2). apply in_map_iff in Hl as (t & <- & Ht).
    apply in_map_iff. exists (q, spent q (places_of s0 h t)). split; [reflexivity|]. apply L1. exists t. auto. }
  destruct (C76_query dfmt dparse parse [] D (inclusive_query x) [f] ws Hq) as (d & g & E1 & E2 & E3).
  destruct E3 as (out & d' & E3); [constructor; [exact Logic.I|constructor; [exact Logic.I|constructor]]|]. destruct (E2 out d' E3) as (rows & HR). rewrite passing_all in HR.
  destruct (report_lines3 tr lk D x Hu L ws HL HLk HLu d' out rows HR) as (qs & Y1 & Y2 & Y3).
  exists d, g, out, d', qs. split; [exact E1|]. split; [exact E3|]. split; [exact Y1|]. split.
  - intro q. rewrite (Y2 q). unfold row_for. rewrite (HLp q). split; (intros [H|(Nn & z & Hz & Hi)]; [left; exact H|right; split; [exact Nn|exists z; split; [apply HLp; exact Hz|exact Hi]]]).
  - clear - Y3 L2. induction Y3 as [|e q out qs H HF IH]; [constructor|]. constructor; [|exact IH]. destruct (L2 q) as (A1 & A2 & A3). rewrite A3 in H. unfold wrap64 in H.
    destruct (existsb (path_eqb q) (places ls)) eqn:E.
    + assert (Hi : In q (places ls)) by (apply existsb_exists in E as (z & Hz & Ez); apply path_eqb_eq in Ez; subst z; exact Hz). destruct (own L q) as [|n o] eqn:Eo; [exfalso; apply (proj1 A2 eq_refl); exact Hi|]. rewrite A1 in H. exact H.
    + assert (Eo : own L q = []). { apply A2. intro Hi. assert (X : existsb (path_eqb q) (places ls) = true) by (apply existsb_exists; exists q; split; [exact Hi|apply path_eqb_eq; reflexivity]). congruence. }
      rewrite Eo in H. exact H.
Qed.
Print Assumptions C81_process.
End P.
