(* C82: a time series says, interval by interval, where the thread spent its time. *)
From Verif Require Import Base VariantModel VariantSpec FloatModel ArithModel TreeModel TreeSpec TreeProofs TreeProofs2 RuntimeModel RuntimeSpec RuntimeProofs RuntimeProofs2 RuntimeProps RuntimeProps3 RuntimeProps4.
From Verif Require Import RtAggModel RtAggSpec RtAggProofs RtAggProofs2 RtAggProofs3 RtAggProofs4 RtAggProps RFilterModel EventModel TimerModel ProfModel ProfSpec ProfProofs ProfProofs2 ProfProofs3 ProfProofs4 ProfProofs5 ProfProps TimeserModel TimeserSpec TimeserProofs.
Open Scope N_scope.

Definition whole (l : list interval) : list (N * rop) := concat (map (fun x => fst x ++ snd x) l).
Lemma timeline_all t rs : timeline t (all_calls rs) = whole (intervals t rs).
Proof.
  unfold whole. induction rs as [|r rs IH]; [reflexivity|]. change (all_calls (r :: rs)) with ((rd_calls r ++ rd_during r) ++ all_calls rs).
  rewrite !timeline_app, IH. reflexivity.
Qed.
Lemma by_interval_sums l : forall since q, ordered since (whole l) -> since < W64 -> Forall (fun s => ProfSpec.nsum (map (fun x => snd (fst x)) s) < W64) (by_interval since q l).
Proof.
  induction l as [|[a d] l IH]; intros since q H Hs; [constructor|]. cbn [by_interval]. change (whole ((a, d) :: l)) with ((a ++ d) ++ whole l) in H.
  apply ordered_app in H as (H1 & H2). pose proof (stretch_total (a ++ d) since q H1 Hs) as (_ & T). apply ordered_app in H1 as (H1 & _).
  constructor; [|apply IH; auto]. destruct (stretch_total a since q H1 Hs) as (T1 & T2). rewrite <- T1 in T2. lia.
Qed.
Lemma by_interval_len l : forall since q i, (length (nth i (by_interval since q l) []) <= length (whole l))%nat.
Proof.
  induction l as [|[a d] l IH]; intros since q i; [destruct i; cbn; lia|]. change (whole ((a, d) :: l)) with ((a ++ d) ++ whole l). rewrite !app_length.
  destruct i as [|i]; cbn [by_interval nth]; [rewrite len_stretches; lia|]. pose proof (IH (last_time since (a ++ d)) (place q (a ++ d)) i). lia.
Qed.
Lemma by_interval_concat l : Forall (fun x => snd x = []) l -> forall since q, concat (by_interval since q l) = stretches since q (whole l).
Proof.
  induction 1 as [|[a d] l Hd _ IH]; intros since q; [reflexivity|]. cbn [snd] in Hd. subst d. change (whole ((a, []) :: l)) with ((a ++ []) ++ whole l). cbn [by_interval concat].
  rewrite app_nil_r, stretches_app, IH. reflexivity.
Qed.
Lemma by_interval_length l : forall since q, length (by_interval since q l) = length l.
Proof. induction l as [|[a d] l IH]; intros; cbn; auto. Qed.
Lemma nth_of {A} (P : A -> Prop) l d : Forall P l -> P d -> forall i, P (nth i l d).
Proof. induction 1; intros Hd [|i]; cbn; auto. Qed.

Lemma reported_spent tr k recs l : NoDup (map (rec_path tr) recs) -> (forall q, In q (map (rec_path tr) recs) <-> In q (map (fun x => fst (fst x)) l)) ->
  (forall r, In r recs -> rec_val r k = [spent (rec_path tr r) l]) -> forall q, reported tr k q recs = spent q l.
Proof.
  intros Nd Hi Hv q. destruct (in_dec (list_eq_dec region_eq_dec) q (map (rec_path tr) recs)) as [Iq|Iq].
  - apply in_map_iff in Iq as (r & Eq & Hr). apply in_split in Hr as (l1 & l2 & ->). unfold reported. rewrite filter_app. cbn [filter].
    rewrite (proj2 (path_eqb_eq _ _) Eq). rewrite map_app in Nd. cbn [map] in Nd. apply NoDup_remove_2 in Nd.
    assert (F : forall k, (forall x, In x k -> In (rec_path tr x) (map (rec_path tr) l1 ++ map (rec_path tr) l2)) -> filter (fun r => path_eqb (rec_path tr r) q) k = []).
    { induction k0 as [|x k0 IH]; intro H; [reflexivity|]. cbn [filter]. destruct (path_eqb (rec_path tr x) q) eqn:E; [|apply IH; intros; apply H; right; auto].
      exfalso. apply path_eqb_eq in E. apply Nd. rewrite Eq, <- E. apply H. left; auto. }
    rewrite F by (intros x Hx; apply in_or_app; left; apply in_map; auto). rewrite F by (intros x Hx; apply in_or_app; right; apply in_map; auto).
    cbn [app flat_map]. rewrite Hv by (apply in_or_app; right; left; auto). rewrite Eq. cbn. lia.
  - assert (F : filter (fun r => path_eqb (rec_path tr r) q) recs = []).
    { clear -Iq. induction recs as [|x k0 IH]; [reflexivity|]. cbn [filter]. destruct (path_eqb (rec_path tr x) q) eqn:E; [|apply IH; intro; apply Iq; right; auto].
      exfalso. apply path_eqb_eq in E. apply Iq. left; auto. }
    unfold reported. rewrite F. cbn [flat_map]. rewrite Hi in Iq. unfold spent, at_path. clear -Iq. induction l as [|x l IH]; [reflexivity|]. cbn [filter].
    destruct (path_eqb (fst (fst x)) q) eqn:E; [|apply IH; intro; apply Iq; right; auto]. exfalso. apply path_eqb_eq in E. apply Iq. left; auto.
Qed.
Lemma spent_concat q ls : spent q (concat ls) = ProfSpec.nsum (map (spent q) ls).
Proof.
  induction ls as [|l ls IH]; [reflexivity|]. cbn [concat map ProfSpec.nsum fold_right]. fold (ProfSpec.nsum (map (spent q) ls)). rewrite <- IH.
  unfold spent, at_path, ProfSpec.nsum. rewrite filter_app, map_app. clear. induction (map _ (filter _ l)) as [|x r IH]; cbn [app fold_right]; lia.
Qed.
Lemma nsum_app a b : ProfSpec.nsum (a ++ b) = ProfSpec.nsum a + ProfSpec.nsum b.
Proof. unfold ProfSpec.nsum. induction a; cbn; lia. Qed.
Lemma choose {B} n (Q : nat -> B -> Prop) : (forall i, (i < n)%nat -> exists p, Q i p) -> exists ps, length ps = n /\ forall i p, nth_error ps i = Some p -> Q i p.
Proof.
  induction n as [|n IH]; intro H; [exists []; split; auto; intros [|i] p E; discriminate E|]. destruct IH as (ps & L & P); [intros i Hi; apply H; lia|].
  destruct (H n ltac:(lia)) as (p & Hp). exists (ps ++ [p]). split; [rewrite app_length; cbn; lia|]. intros i x E. destruct (Nat.lt_ge_cases i n) as [Hl|Hg].
  - rewrite nth_error_app1 in E by lia. auto.
  - rewrite nth_error_app2 in E by lia. assert (i = n). { destruct (i - length ps)%nat as [|j] eqn:Ej; [lia|]. cbn in E. destruct j; discriminate E. } subst i.
    rewrite L, Nat.sub_diag in E. injection E as <-. exact Hp.
Qed.
Lemma whole_calls t rs : Forall (fun r => timeline t (rd_during r) = []) rs -> Forall (fun x => snd x = []) (intervals t rs).
Proof. induction 1; cbn; constructor; auto. Qed.
Lemma map_nth_eq {A B} (f : list A -> N) (g : B -> N) (ps : list B) (ls : list (list A)) : length ps = length ls -> (forall i p, nth_error ps i = Some p -> g p = f (nth i ls [])) -> map g ps = map f ls.
Proof.
  revert ls. induction ps as [|p ps IH]; intros [|l ls] L H; try discriminate L; [reflexivity|]. cbn. f_equal; [apply (H 0%nat); reflexivity|]. apply IH; [cbn in L; lia|]. intros i x E. apply (H (S i)). exact E.
Qed.

Section T.
Variable rx : bytes -> bytes -> bool.
Variable ea : N -> eattr.
Variable cv : value -> cvar.
Variable m : memory.

(* For every program with snapshots of the time-series channel, taken by any threads: the i-th
   snapshot hands on, for each thread t that used regions without errors, one record for each place
   where a stretch of t's time ended since the last snapshot, with total, shortest and longest time,
   the number of stretches and how often the place was closed - followed by the snapshot's trigger info,
   the time of the previous snapshot by the snapshot's thread and the snapshot's number *)
Theorem C82_interval : forall c ths es sk u0 now0 t ops0 s0 xs0 rs s' xs kd kc amin amax asum aavg bmin bmax bsum bavg,
  rt_history ops0 s0 xs0 -> Forall (fun p => plain_op (snd p)) ops0 -> profiling (q_prof c) s0 -> In t ths ->
  reports_stats (pc_info (q_prof c)) kd (pc_dur (q_prof c)) amin amax asum aavg -> reports_stats (pc_info (q_prof c)) kc (pc_cnt (q_prof c)) bmin bmax bsum bavg ->
  ops_ok s0 (prog (all_calls rs)) -> Forall (fun x => plain_op (snd x) /\ leaves_channel (pc_chn (q_prof c)) (snd x)) (all_calls rs) ->
  rt_run s0 (prog (all_calls rs)) = Some (s', xs) -> not_full (r_tree s') -> r_err s' t = false ->
  (forall n o b, In (n, o) (timeline t (all_calls rs)) -> op_attr o = Some b -> find_marker es (ea (at_id b)) = true) ->
  ordered 0 (timeline t (all_calls rs)) -> N.of_nat (length (timeline t (all_calls rs))) < 4294967296 ->
  exists s2 outs, trun rx ea cv m c ths (tstart s0 es sk u0 now0) rs = Some (s2, outs) /\ p_rt (z_prof s2) = s' /\ length outs = length rs /\
    forall i r, nth_error rs i = Some r -> exists o recs, nth_error outs i = Some o /\
      let start := previous (if rd_thr r =? u0 then Some now0 else None) (rd_thr r) rs i in
      let stamp := [RImm (q_start c) (start_var start); RImm (q_snap c) (make_uint (N.of_nat i mod 4294967296))] in
      o_recs o = map (fun f => f ++ rd_info r ++ stamp) (flat_map recs ths) /\
      o_own o = stamp ++ [RImm (q_dur c) (make_double (dsub (rd_clock r) (to_double (start_var start))))] /\
      let l := nth i (by_interval 0 (bb_regions (r_tree s0) (r_tbb s0 t)) (intervals t rs)) [] in
      NoDup (map (rec_path (r_tree s')) (recs t)) /\
      (forall q, In q (map (rec_path (r_tree s')) (recs t)) <-> In q (map (fun x => fst (fst x)) l)) /\
      (forall r, In r (recs t) -> let q := rec_path (r_tree s') r in
         rec_val r asum = [spent q l] /\ rec_val r amin = [least (durations q l)] /\ rec_val r amax = [greatest (durations q l)] /\
         rec_val r (i_count (pc_info (q_prof c))) = [pieces q l] /\ rec_val r bsum = (if closed q l =? 0 then [] else [closed q l])).
Proof.
  intros c ths es sk u0 now0 t ops0 s0 xs0 rs s' xs kd kc amin amax asum aavg bmin bmax bsum bavg Hh Hp0 Hpf Hin HA HB Ho Hp Hr Hnf He Hmk Hord Hlen.
  destruct (history_ok _ _ _ Hh Hp0) as (a0 & R0 & V0 & U0 & Nd0 & _). destruct Hpf as [P1 P2 P3 P4 P5 P6 P7 P8 P9].
  set (pc := q_prof c) in *. set (s := tstart s0 es sk u0 now0).
  assert (HJ : J m pc (adb_init sk) es t (z_prof s) a0 [] 0 (bb_regions (r_tree s0) (r_tbb s0 t))).
  { constructor; cbn; auto. - intro u. exists (adb_init sk), []. split; [apply fresh_init|]. split; [reflexivity|constructor]. - symmetry. apply (rel_shows _ _ t R0). - apply fresh_init. }
  destruct (rounds rx ea cv m c ths es t P2 P3 P4 P5 P6 Hin rs s a0 0 _ (adb_init sk) s' xs HJ Ho Hp Hr Hnf He Hmk Hord Hlen ltac:(reflexivity)) as (s2 & outs & a' & d1 & Q1 & Q2 & Q3 & Q4 & Q5 & Q6).
  exists s2, outs. split; [exact Q1|]. split; [exact Q2|]. split; [exact Q5|].
  pose proof (j_rel _ _ _ _ _ _ _ _ _ _ Q3) as Rl. pose proof (rl_inv _ _ Rl) as Hinv. rewrite Q2 in Hinv.
  pose proof (j_uniq _ _ _ _ _ _ _ _ _ _ Q3) as Huniq. rewrite Q2 in Huniq.
  assert (Hattr : Forall (is_attribute (r_tree s')) [pc_off pc; pc_dur pc; pc_cnt pc]).
  { eapply Forall_impl; [|exact P9]. intros k (n & Hn & E). exists n. split; auto. destruct Q4 as ((new' & E4) & _). rewrite E4. apply in_or_app; auto. }
  intros i r Hi. destruct (Q6 i r Hi) as (o & N1 & news & recs & K1 & K2 & K3 & K4). exists o, recs. split; [exact N1|].
  cbn [s tstart z_start z_snaps] in K3, K4. rewrite N.add_0_l in K3, K4. cbv zeta. split; [exact K3|]. split; [exact K4|].
  rewrite timeline_all in Hord, Hlen. set (l := nth i _ []) in *.
  assert (Hll : N.of_nat (length l) < 4294967296). { pose proof (by_interval_len (intervals t rs) 0 (bb_regions (r_tree s0) (r_tbb s0 t)) i) as Z. fold l in Z. lia. }
  assert (Htot : ProfSpec.nsum (map (fun x => snd (fst x)) l) < W64).
  { apply (nth_of (fun s => ProfSpec.nsum (map (fun x => snd (fst x)) s) < W64)); [apply by_interval_sums; [exact Hord|reflexivity]|reflexivity]. }
  exact (records pc m (r_tree s') Hinv Huniq P5 P8 Hattr news l (recs t) kd amin amax asum aavg kc bmin bmax bsum bavg K1 P7 HA HB Htot Hll K2).
Qed.

(* No time is lost: when thread t makes no region calls while a snapshot is being taken, the times
   its records report for a place, over all snapshots, add up to the time spent there until the last
   snapshot, and all of them to the time of its last region call *)
Theorem C82_conserved : forall c ths es sk u0 now0 t ops0 s0 xs0 rs s' xs kd kc amin amax asum aavg bmin bmax bsum bavg,
  rt_history ops0 s0 xs0 -> Forall (fun p => plain_op (snd p)) ops0 -> profiling (q_prof c) s0 -> In t ths ->
  reports_stats (pc_info (q_prof c)) kd (pc_dur (q_prof c)) amin amax asum aavg -> reports_stats (pc_info (q_prof c)) kc (pc_cnt (q_prof c)) bmin bmax bsum bavg ->
  ops_ok s0 (prog (all_calls rs)) -> Forall (fun x => plain_op (snd x) /\ leaves_channel (pc_chn (q_prof c)) (snd x)) (all_calls rs) ->
  rt_run s0 (prog (all_calls rs)) = Some (s', xs) -> not_full (r_tree s') -> r_err s' t = false ->
  (forall n o b, In (n, o) (timeline t (all_calls rs)) -> op_attr o = Some b -> find_marker es (ea (at_id b)) = true) ->
  ordered 0 (timeline t (all_calls rs)) -> N.of_nat (length (timeline t (all_calls rs))) < 4294967296 ->
  Forall (fun r => timeline t (rd_during r) = []) rs ->
  exists s2 outs parts, trun rx ea cv m c ths (tstart s0 es sk u0 now0) rs = Some (s2, outs) /\
    Forall2 (fun o p => exists before after tail, o_recs o = map (fun f => f ++ tail) (before ++ p ++ after)) outs parts /\
    (forall q, ProfSpec.nsum (map (reported (r_tree s') asum q) parts) = spent q (stretches 0 (bb_regions (r_tree s0) (r_tbb s0 t)) (timeline t (all_calls rs)))) /\
    ProfSpec.nsum (map (fun p => ProfSpec.nsum (flat_map (fun r => rec_val r asum) p)) parts) = end_time (timeline t (all_calls rs)).
Proof.
  intros c ths es sk u0 now0 t ops0 s0 xs0 rs s' xs kd kc amin amax asum aavg bmin bmax bsum bavg Hh Hp0 Hpf Hin HA HB Ho Hp Hr Hnf He Hmk Hord Hlen Hdur.
  destruct (C82_interval c ths es sk u0 now0 t ops0 s0 xs0 rs s' xs kd kc amin amax asum aavg bmin bmax bsum bavg Hh Hp0 Hpf Hin HA HB Ho Hp Hr Hnf He Hmk Hord Hlen) as (s2 & outs & E1 & _ & E2 & E3).
  set (q0 := bb_regions _ _) in *. set (ls := by_interval 0 q0 (intervals t rs)) in *.
  destruct (choose (length rs) (fun i p => (exists o, nth_error outs i = Some o /\ exists before after tail, o_recs o = map (fun f => f ++ tail) (before ++ p ++ after)) /\
    (forall q, reported (r_tree s') asum q p = spent q (nth i ls [])) /\ ProfSpec.nsum (flat_map (fun r => rec_val r asum) p) = ProfSpec.nsum (map (fun x => snd (fst x)) (nth i ls [])))) as (parts & L & P).
  { intros i Hi. destruct (nth_error rs i) as [r|] eqn:Er; [|apply nth_error_None in Er; lia]. destruct (E3 i r Er) as (o & recs & N1 & N2 & _ & N3 & N4 & N5).
    exists (recs t). split; [exists o; split; auto|].
    - apply in_split in Hin as (l1 & l2 & ->). rewrite flat_map_app in N2. cbn [flat_map] in N2. eexists _, _, _. exact N2.
    - split; [apply reported_spent; auto; intros x Hx; exact (proj1 (N5 x Hx))|].
      rewrite <- (spent_partition (nth i ls []) (map (rec_path (r_tree s')) (recs t)) N3); [|intros x Hx; apply N4; apply in_map_iff; eauto].
      rewrite map_map. clear -N5. induction (recs t) as [|x k IH]; [reflexivity|]. cbn [flat_map map]. rewrite nsum_app. rewrite (proj1 (N5 x (or_introl eq_refl))), IH; [unfold ProfSpec.nsum; cbn; lia|].
      intros y Hy. apply N5. right; auto. }
  exists s2, outs, parts. split; [exact E1|].
  assert (Ll : length parts = length ls) by (unfold ls, intervals; rewrite by_interval_length, map_length; exact L).
  assert (Ec : concat ls = stretches 0 q0 (timeline t (all_calls rs))) by (rewrite timeline_all; apply by_interval_concat; apply whole_calls; exact Hdur).
  split.
  - apply F2_of_nth; [congruence|]. intros i o p Ho' Hp'. destruct (P i p Hp') as ((o' & X1 & X2) & _). replace o with o' by congruence. exact X2.
  - split.
    + intro q. rewrite <- Ec, spent_concat. f_equal. apply map_nth_eq; [exact Ll|]. intros i p Hp'. exact (proj1 (proj2 (P i p Hp')) q).
    + rewrite (map_nth_eq (fun l => ProfSpec.nsum (map (fun x => snd (fst x)) l)) (fun p => ProfSpec.nsum (flat_map (fun r => rec_val r asum) p)) parts ls Ll) by (intros i p Hp'; exact (proj2 (proj2 (P i p Hp')))).
      destruct (stretch_total (timeline t (all_calls rs)) 0 q0 Hord ltac:(reflexivity)) as (T1 & _). unfold end_time. rewrite <- T1, N.add_0_l, <- Ec. clear.
      induction ls as [|l ls IH]; [reflexivity|]. cbn [concat map]. rewrite map_app, nsum_app. unfold ProfSpec.nsum at 1. cbn [fold_right]. fold (ProfSpec.nsum (map (fun l => ProfSpec.nsum (map (fun x => snd (fst x)) l)) ls)). rewrite IH. reflexivity.
Qed.
End T.
