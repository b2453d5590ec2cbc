(* C69: the time profile of a thread says how long the thread was in which region. *)
From Verif Require Import Base VariantModel VariantSpec TreeModel TreeSpec TreeProofs TreeProofs2 RuntimeModel RuntimeSpec RuntimeProofs RuntimeProofs2 RuntimeProps RuntimeProps3 RuntimeProps4.
From Verif Require Import ArithModel RtAggModel RtAggSpec RtAggProofs RtAggProofs2 RtAggProofs3 RtAggProofs4 RtAggProps RFilterModel EventModel TimerModel ProfModel ProfSpec ProfProofs ProfProofs2 ProfProofs3 ProfProofs4 ProfProofs5.
Open Scope N_scope.

Lemma stretches_length l : forall since q, length (stretches since q l) = length l.
Proof. induction l as [|[n o] l IH]; intros; cbn; auto. Qed.
Lemma pieces_partition ps : forall l, NoDup ps -> (forall x, In x l -> In (fst (fst x)) ps) -> ProfSpec.nsum (map (fun q => pieces q l) ps) = N.of_nat (length l).
Proof.
  unfold pieces. induction ps as [|q ps IH]; intros l Nd Hc; cbn.
      { destruct l as [|x l]; [reflexivity|]. exfalso. exact (Hc x (or_introl eq_refl)). }
      set (l2 := filter (fun x => negb (path_eqb (fst (fst x)) q)) l). apply NoDup_cons_iff in Nd as (Hq & Nd).
      assert (E : forall q', In q' ps -> at_path q' l = at_path q' l2).
      { intros q' Hq'. unfold at_path, l2. induction l as [|x l IHl]; [reflexivity|]. cbn [filter].
        assert (IHl' := IHl ltac:(intros; apply Hc; right; auto)). destruct (path_eqb (fst (fst x)) q) eqn:E1; cbn [negb filter].
        - apply path_eqb_eq in E1. destruct (path_eqb (fst (fst x)) q') eqn:E2; auto. apply path_eqb_eq in E2. congruence.
        - destruct (path_eqb (fst (fst x)) q'); [f_equal|]; auto. }
      assert (E2 : length l = (length (at_path q l) + length l2)%nat).
      { unfold at_path, l2. clear. induction l as [|x l IHl]; [reflexivity|]. cbn [filter]. destruct (path_eqb (fst (fst x)) q); cbn [negb length]; lia. }
      rewrite E2, Nat2N.inj_add. f_equal. rewrite <- (IH l2 Nd).
      * unfold ProfSpec.nsum. f_equal. apply map_ext_in. intros q' Hq'. rewrite E; auto.
      * intros x Hx. apply filter_In in Hx as (Hx & Hn). destruct (Hc x Hx) as [Z|]; auto. rewrite (proj2 (path_eqb_eq _ _) (eq_sym Z)) in Hn. discriminate.
Qed.

Section T.
Variable rx : bytes -> bytes -> bool.
Variable ea : N -> eattr.
Variable cv : value -> cvar.
Variable m : memory.

(* For every program and every thread t that used regions without errors: the channel's calls go
   through, and the records flushed for t are one for each place the thread spent time at, with the
   total, shortest and longest time between two region calls there, the number of snapshots, and how often the
   place was closed *)
Theorem C69_time_profile : forall c es sk t ops0 s0 xs0 h s' xs kd kc amin amax asum aavg bmin bmax bsum bavg,
  rt_history ops0 s0 xs0 -> Forall (fun p => plain_op (snd p)) ops0 -> profiling c s0 ->
  reports_stats (pc_info c) kd (pc_dur c) amin amax asum aavg -> reports_stats (pc_info c) kc (pc_cnt c) bmin bmax bsum bavg ->
  ops_ok s0 (prog h) -> Forall (fun x => plain_op (snd x) /\ leaves_channel (pc_chn c) (snd x)) h ->
  rt_run s0 (prog h) = Some (s', xs) -> not_full (r_tree s') -> r_err s' t = false ->
  (forall n o b, In (n, o) (timeline t h) -> op_attr o = Some b -> find_marker es (ea (at_id b)) = true) ->
  ordered 0 (timeline t h) -> N.of_nat (length (timeline t h)) < 4294967296 ->
  exists p recs, prun rx ea cv m c (pstart s0 es sk) h = Some p /\ p_rt p = s' /\ aflush (p_db p t) (pc_info c) = Some recs /\
    let l := stretches 0 (bb_regions (r_tree s0) (r_tbb s0 t)) (timeline t h) in
    NoDup (map (rec_path (r_tree s')) recs) /\
    (forall q, In q (map (rec_path (r_tree s')) recs) <-> In q (map (fun x => fst (fst x)) l)) /\
    (forall r, In r recs -> let q := rec_path (r_tree s') r in
       rec_val r asum = [spent q l] /\ rec_val r amin = [least (durations q l)] /\ rec_val r amax = [greatest (durations q l)] /\
       rec_val r (i_count (pc_info c)) = [pieces q l] /\ rec_val r bsum = (if closed q l =? 0 then [] else [closed q l])).
Proof.
  intros c es sk t ops0 s0 xs0 h s' xs kd kc amin amax asum aavg bmin bmax bsum bavg Hh Hp0 Hpf HA HB Ho Hp Hr Hnf He Hmk Hord Hlen.
  destruct (history_ok _ _ _ Hh Hp0) as (a0 & R0 & V0 & U0 & Nd0 & _). destruct Hpf as [P1 P2 P3 P4 P5 P6 P7 P8 P9].
  assert (HJ : J m c (adb_init sk) es t (pstart s0 es sk) a0 [] 0 (bb_regions (r_tree s0) (r_tbb s0 t))).
  { constructor; cbn; auto. - intro u. exists (adb_init sk), []. split; [apply fresh_init|]. split; [reflexivity|constructor]. - symmetry. apply (rel_shows _ _ t R0). - apply fresh_init. }
  destruct (main rx ea cv m c (adb_init sk) es t P2 P3 P4 P5 h (pstart s0 es sk) a0 [] 0 _ s' xs HJ Ho Hp Hr Hnf He Hmk Hord) as (p & a' & new & prev' & q' & R1 & R2 & R3 & R4 & R5).
  cbn [app pstart p_rt] in R3, R5. exists p. set (l := stretches 0 _ _) in *.
  pose proof (j_rel _ _ _ _ _ _ _ _ _ _ R3) as Rl. pose proof (rl_inv _ _ Rl) as Hinv. rewrite R2 in Hinv.
  pose proof (j_uniq _ _ _ _ _ _ _ _ _ _ R3) as Huniq. rewrite R2 in Huniq.
  pose proof (j_run _ _ _ _ _ _ _ _ _ _ R3) as Hrun. pose proof (j_good _ _ _ _ _ _ _ _ _ _ R3) as Hgood.
  assert (Hll : length new = length (timeline t h)) by (rewrite (F2_length _ _ _ R4); apply stretches_length).
  assert (Hattr : Forall (is_attribute (r_tree s')) [pc_off c; pc_dur c; pc_cnt c]).
  { eapply Forall_impl; [|exact P9]. intros k (n & Hn & E). exists n. split; auto. destruct R5 as ((new' & ->) & _). apply in_or_app; auto. }
  assert (Hfit : keys_fit new).
  { apply Forall_forall. intros sn Hs. destruct (F2_in_l _ _ _ _ R4 Hs) as (x & _ & Hx). destruct (sfor_key c (r_tree s') P5 _ _ Hx) as (-> & [(-> & _)|(i & -> & _)]); cbn; unfold MAXKEY; lia. }
  assert (Hknown : attrs_known (pc_info c) new). { eapply Forall_impl; [|exact Hgood]. intros sn (-> & _). exact P6. }
  assert (Hsm : small new) by (unfold small; rewrite Hll; auto).
  assert (Hal : Forall (fun s => s_alloc s = true) new). { eapply Forall_impl; [|exact Hgood]. intros sn (_ & Z & _). exact Z. }
  destruct (C37_no_skips m sk new (p_db p t) (pc_info c) (good_growing c new Hgood) Hfit Hknown Hsm Hal Hrun) as (_ & Hfl).
  destruct (C37_conservation m sk new (p_db p t) (pc_info c) (good_growing c new Hgood) Hknown Hsm Hrun) as (recs & _ & _ & _ & Hrec & _).
  exists recs. split; auto. split; auto. split; auto. rewrite Hrec in Hfl. symmetry in Hfl.
  destruct (stretch_total (timeline t h) 0 (bb_regions (r_tree s0) (r_tbb s0 t)) Hord ltac:(reflexivity)) as (T1 & T2). fold l in T1.
  assert (Hll2 : N.of_nat (length l) < 4294967296) by (unfold l; rewrite stretches_length; auto).
  refine (records c m (r_tree s') Hinv Huniq P5 P8 Hattr new l recs kd amin amax asum aavg kc bmin bmax bsum bavg R4 P7 HA HB _ Hll2 Hfl). lia.
Qed.

(* no time gets lost: the totals of all records add up to the time of the thread's last region call *)
Theorem C69_total_time : forall c es sk t ops0 s0 xs0 h s' xs kd kc amin amax asum aavg bmin bmax bsum bavg,
  rt_history ops0 s0 xs0 -> Forall (fun p => plain_op (snd p)) ops0 -> profiling c s0 ->
  reports_stats (pc_info c) kd (pc_dur c) amin amax asum aavg -> reports_stats (pc_info c) kc (pc_cnt c) bmin bmax bsum bavg ->
  ops_ok s0 (prog h) -> Forall (fun x => plain_op (snd x) /\ leaves_channel (pc_chn c) (snd x)) h ->
  rt_run s0 (prog h) = Some (s', xs) -> not_full (r_tree s') -> r_err s' t = false ->
  (forall n o b, In (n, o) (timeline t h) -> op_attr o = Some b -> find_marker es (ea (at_id b)) = true) ->
  ordered 0 (timeline t h) -> N.of_nat (length (timeline t h)) < 4294967296 ->
  exists p recs, prun rx ea cv m c (pstart s0 es sk) h = Some p /\ aflush (p_db p t) (pc_info c) = Some recs /\
    fold_right N.add 0 (flat_map (fun r => rec_val r asum) recs) = end_time (timeline t h) /\
    fold_right N.add 0 (flat_map (fun r => rec_val r (i_count (pc_info c))) recs) = N.of_nat (length (timeline t h)).
Proof.
  intros c es sk t ops0 s0 xs0 h s' xs kd kc amin amax asum aavg bmin bmax bsum bavg Hh Hp0 Hpf HA HB Ho Hp Hr Hnf He Hmk Hord Hlen.
  destruct (C69_time_profile c es sk t ops0 s0 xs0 h s' xs kd kc amin amax asum aavg bmin bmax bsum bavg Hh Hp0 Hpf HA HB Ho Hp Hr Hnf He Hmk Hord Hlen) as (p & recs & H1 & H2 & H3 & H4).
  cbv zeta in H4. set (l := stretches _ _ _) in *. destruct H4 as (N1 & N2 & N3). exists p, recs. split; auto. split; auto.
  set (ps := map (rec_path (r_tree s')) recs) in *.
  assert (Hcov : forall x, In x l -> In (fst (fst x)) ps) by (intros x Hx; apply N2; apply in_map_iff; eauto).
  split.
  - transitivity (ProfSpec.nsum (map (fun q => spent q l) ps)).
    + unfold ps, ProfSpec.nsum. clear -N3. rewrite map_map. induction recs as [|r recs IH]; [reflexivity|]. cbn [flat_map map]. destruct (N3 r (or_introl eq_refl)) as (-> & _). cbn [app fold_right].
      rewrite IH; [reflexivity|]. intros; apply N3; right; auto.
    + rewrite (spent_partition l ps N1 Hcov). destruct (stretch_total (timeline t h) 0 (bb_regions (r_tree s0) (r_tbb s0 t)) Hord ltac:(reflexivity)) as (T1 & T2). fold l in T1. exact T1.
  - transitivity (ProfSpec.nsum (map (fun q => pieces q l) ps)).
    + unfold ps, ProfSpec.nsum. clear -N3. rewrite map_map. induction recs as [|r recs IH]; [reflexivity|]. cbn [flat_map map]. destruct (N3 r (or_introl eq_refl)) as (_ & _ & _ & -> & _). cbn [app fold_right].
      rewrite IH; [reflexivity|]. intros; apply N3; right; auto.
    + rewrite <- (stretches_length (timeline t h) 0 (bb_regions (r_tree s0) (r_tbb s0 t))). fold l. apply pieces_partition; auto.
Qed.
End T.

(* the hypotheses are met: thread 0 begins m within an open region x, thread 1 runs meanwhile *)
Definition x_ops0 : list (N * rop) :=
  mk_attr_ops ++ [(0, OTree (TGetChild 8 (VStr [100]) (Some 3))); (0, OTree (TGetChild 8 (VStr [99]) (Some 3))); (0, OTree (TGetChild 8 (VStr [111]) (Some 3)));
                  (0, OActivate 7); (0, OBegin a_fun (VStr [120]))].
Definition x_h : list (N * N * rop) :=
  [(0, 10, OBegin a_fun (VStr [109])); (1, 12, OBegin a_fun (VStr [122])); (0, 25, OEnd a_fun); (0, 30, OBegin a_fun (VStr [109])); (1, 33, OEnd a_fun);
   (0, 37, OEndCheck a_fun (VStr [109])); (0, 50, OSet a_fun (VStr [121]))].
Definition x_c : pcfg := mkpc (mkec [] false 0 (mkRF None None) (mkRF None None)) (mktc false 0 0) 7 18 16 0 17 (mkinfo [] [16; 17] [(101, 102, 103, 104); (105, 106, 107, 108)] 109 110).
Definition x_ea (i : N) : eattr := mkea i [] T_STRING 0 false.
Definition x_cv (v : value) : cvar := make_uint 0.
Definition x_es : esvc := mkes [12] [].
Definition x_x : N * value := (12, VStr [120]).
Definition x_m : N * value := (12, VStr [109]).
Definition nm_node (tr : tree) (k : N) : bool := existsb (fun n => (n_id n =? k) && (n_attr n =? NAME_ATTR_ID)) (t_nodes tr).
Lemma nm_node_ok tr k : nm_node tr k = true -> is_attribute tr k.
Proof. unfold nm_node. rewrite existsb_exists. intros (n & Hn & H). apply andb_true_iff in H as (H1 & H2). apply N.eqb_eq in H1, H2. exists n; auto. Qed.
Definition x_mem : memory := fun _ => 0.
(* what the profile of thread 0 says *)
Definition x_profile : option (list (path * list N * list N * list N * list N * list N)) :=
  match prun (fun _ _ => true) x_ea x_cv x_mem x_c (pstart (st x_ops0) x_es 99) x_h with
  | Some p => option_map (map (fun r => (rec_path (r_tree (p_rt p)) r, rec_val r 103, rec_val r 101, rec_val r 102, rec_val r 109, rec_val r 107))) (aflush (p_db p 0) (pc_info x_c))
  | None => None
  end.
Definition plain_opb (o : rop) : bool :=
  match o with OBegin a _ | OEnd a | OEndCheck a _ | OSet a _ | OGet a => region_attr a || internal_attr a | OTree (TRawCreate _ _ _) => false | _ => true end.
Lemma plain_opb_ok o : plain_opb o = true -> plain_op o.
Proof. destruct o as [| | | | | | |t]; cbn; auto; try (intro H; apply orb_true_iff in H; exact H). destruct t; cbn; auto; discriminate. Qed.
Definition leavesb (ch : N) (o : rop) : bool := match o with OActivate k | ODeactivate k => negb (k =? ch) | _ => true end.
Lemma leavesb_ok ch o : leavesb ch o = true -> leaves_channel ch o.
Proof. intro H. split; intros ->; cbn in H; rewrite N.eqb_refl in H; discriminate. Qed.
Fixpoint nodup_b (l : list N) : bool := match l with [] => true | x :: r => negb (existsb (N.eqb x) r) && nodup_b r end.
Lemma nodup_b_ok l : nodup_b l = true -> NoDup l.
Proof.
  induction l as [|x l IH]; cbn; [constructor|]. intro H. apply andb_true_iff in H as (H1 & H2). constructor; auto. intro Hi.
  apply negb_true_iff in H1. assert (existsb (N.eqb x) l = true) by (apply existsb_exists; exists x; split; auto; apply N.eqb_refl). congruence.
Qed.
Lemma st_run ops xs : option_map snd (rt_run (rt_init tr0) ops) = Some xs -> rt_run (rt_init tr0) ops = Some (st ops, xs).
Proof. unfold st. destruct (rt_run (rt_init tr0) ops) as [[s y]|]; cbn [option_map snd]; [|discriminate]. intro H; injection H as ->. reflexivity. Qed.
Definition run_of (s : rt) (ops : list (N * rop)) : rt := match rt_run s ops with Some (s, _) => s | None => s end.
Lemma run_of_ok s ops xs : option_map snd (rt_run s ops) = Some xs -> rt_run s ops = Some (run_of s ops, xs).
Proof. unfold run_of. destruct (rt_run s ops) as [[s1 y]|]; cbn [option_map snd]; [|discriminate]. intro H; injection H as ->. reflexivity. Qed.
Example C69_ex : exists s0 xs0 s' xs, rt_history x_ops0 s0 xs0 /\ Forall (fun p => plain_op (snd p)) x_ops0 /\ profiling x_c s0 /\
  reports_stats (pc_info x_c) 0 (pc_dur x_c) 101 102 103 104 /\ reports_stats (pc_info x_c) 1 (pc_cnt x_c) 105 106 107 108 /\
  ops_ok s0 (prog x_h) /\ Forall (fun x => plain_op (snd x) /\ leaves_channel (pc_chn x_c) (snd x)) x_h /\
  rt_run s0 (prog x_h) = Some (s', xs) /\ not_full (r_tree s') /\ r_err s' 0 = false /\
  (forall n o b, In (n, o) (timeline 0 x_h) -> op_attr o = Some b -> find_marker x_es (x_ea (at_id b)) = true) /\
  ordered 0 (timeline 0 x_h) /\ N.of_nat (length (timeline 0 x_h)) < 4294967296.
Proof.
  exists (st x_ops0), (map (fun _ => ODone) x_ops0), (run_of (st x_ops0) (prog x_h)), (map (fun _ => ODone) x_h).
  split; [apply mk_history; [vm_compute; reflexivity|apply st_run; vm_compute; reflexivity|vm_compute; reflexivity]|].
  split. { apply Forall_forall. intros x Hx. apply plain_opb_ok. revert x Hx. apply forallb_forall. vm_compute. reflexivity. }
  split. { constructor.
    - replace (r_act (st x_ops0)) with [7] by (vm_compute; reflexivity). left. reflexivity.
    - reflexivity.
    - reflexivity.
    - reflexivity.
    - reflexivity.
    - cbn. lia.
    - apply nodup_b_ok. vm_compute. reflexivity.
    - apply nodup_b_ok. vm_compute. reflexivity.
    - constructor; [|constructor; [|constructor; [|constructor]]]; apply nm_node_ok; vm_compute; reflexivity. }
  split; [split; reflexivity|]. split; [split; reflexivity|]. split; [apply ops_okb_ok; vm_compute; reflexivity|].
  split. { apply Forall_forall. intros x Hx. assert (Z : plain_opb (snd x) && leavesb 7 (snd x) = true) by (revert x Hx; apply forallb_forall; vm_compute; reflexivity).
    apply andb_true_iff in Z as (Z1 & Z2). split; [apply plain_opb_ok|apply leavesb_ok]; auto. }
  split; [apply run_of_ok; vm_compute; reflexivity|]. split; [unfold not_full; apply N.ltb_lt; vm_compute; reflexivity|]. split; [vm_compute; reflexivity|].
  split. { intros n o b Hin Hb. assert (Z : forallb (fun x : N * rop => match op_attr (snd x) with Some b => find_marker x_es (x_ea (at_id b)) | None => true end) (timeline 0 x_h) = true) by (vm_compute; reflexivity).
    rewrite forallb_forall in Z. specialize (Z _ Hin). cbn [snd] in Z. rewrite Hb in Z. exact Z. }
  split; [cbn; repeat split; (discriminate || reflexivity || exact Logic.I)|reflexivity].
Qed.
Example C69_ex_profile : x_profile = Some
  [([x_x], [28], [5], [13], [3], []); ([x_x; x_m], [22], [7], [15], [2], [2])].
Proof. vm_compute. reflexivity. Qed.
