(* C69: one call, seen by the event, timer and aggregate services *)
From Verif Require Import Base VariantModel VariantSpec TreeModel TreeSpec TreeProofs TreeProofs2 RuntimeModel RuntimeSpec RuntimeProofs RuntimeProofs2 RuntimeProps RuntimeProps2 RuntimeProps3.
From Verif Require Import RtAggModel RtAggSpec RtAggProofs RtAggProofs2 RtAggProofs3 RtAggProps RtAggProps2 RtAggProps3 RFilterModel EventModel TimerModel ProfModel ProfSpec ProfProofs.
Open Scope N_scope.

Section P.
Variable rx : bytes -> bytes -> bool.
Variable ea : N -> eattr.
Variable cv : value -> cvar.
Variable m : memory.
Variable c : pcfg.
Hypothesis Hinfo : ec_info (pc_event c) = false.
Hypothesis Hreg : has_filters (ec_region (pc_event c)) = false.
Hypothesis Hbr : has_filters (ec_branch (pc_event c)) = false.
Hypothesis Hkeys : i_keys (pc_info c) = [].
Notation push := (push_snapshot cv m c).
Notation onev := (on_event rx ea cv m c).

Definition uentry (e : rent) : Prop := match e with RRef _ => True | RImm _ v => extract_type (ts v) = T_UINT end.
Definition good (sn : snap) : Prop := s_info sn = pc_info c /\ s_alloc sn = true /\ Forall uentry (s_rec sn).
Lemma good_growing l : Forall good l -> growing l.
Proof.
  induction 1 as [|s l (Hs & _) Hl IH]; cbn; auto. split; auto. apply Forall_forall. intros x Hx. rewrite Forall_forall in Hl. destruct (Hl x Hx) as (E & _).
  rewrite Hs, E. exists []. rewrite app_nil_r. auto.
Qed.
Lemma good_key s : good s -> full_key s = filter is_ref (s_rec s).
Proof. intros (E & _). unfold full_key. rewrite E, Hkeys. cbn. apply app_nil_r. Qed.
(* a database without records: new or cleared *)
Definition fresh_db (d : adb) : Prop := exists k0, Rep d k0 0 [] /\ (N.to_nat 4096 <= d_ecap d /\ N.to_nat 16384 <= d_kcap d /\ N.to_nat 16384 <= d_ncap d)%nat.
Lemma good_runs d0 l : fresh_db d0 -> Forall good l -> exists d, arun m d0 l = Some d.
Proof.
  intros (k0 & R & C1 & C2 & C3) H. refine (runs_from m d0 k0 l R C1 C2 C3 _ _ _).
  - apply good_growing; auto.
  - eapply Forall_impl; [|exact H]. intros s Hs. unfold hashable. rewrite (good_key _ Hs). apply Forall_forall. intros e He. apply filter_In in He as (_ & He).
    destruct e; [auto|discriminate].
  - intros mem a Hsub. apply ue_total. unfold values_of. apply Forall_forall. intros v Hv. apply in_flat_map in Hv as (s & Hs & Hv). apply in_map_iff in Hv as (e & <- & He).
    assert (Hin : In s l). { clear -Hsub Hs. induction Hsub; cbn in *; [contradiction| |]; intuition. }
    rewrite Forall_forall in H. destruct (H s Hin) as (_ & _ & Hu). rewrite Forall_forall in Hu.
    assert (Hin2 : In e (s_rec s)). { unfold first_imm in He. destruct (filter _ (s_rec s)) as [|y r] eqn:Ef; [contradiction|]. destruct He as [<-|[]]. assert (In y (filter (fun e => r_node e =? a) (s_rec s))) by (rewrite Ef; left; auto). apply filter_In in H0. apply H0. }
    specialize (Hu e Hin2). destruct e; cbn in *; auto.
Qed.

(* ---- the timer's part of a snapshot ---- *)
Definition prev_of (ts : tsvc) (t : N) : N := match ts_info ts (N.to_nat t) with Some i => ti_prev i | None => 0 end.
Lemma timer_snap ts t now : exists ts', snapshot_cb (pc_timer c) ts (N.to_nat t) false now None = ([OOffset now; ODuration (sub64 now (prev_of ts t))], ts') /\
  prev_of ts' t = now /\ forall u, u <> t -> prev_of ts' u = prev_of ts u.
Proof.
  unfold snapshot_cb, acquire, prev_of. destruct (ts_info ts (N.to_nat t)) as [ti|] eqn:E.
  - assert (X : (if tc_incl (pc_timer c) && negb false then @None attr_path else None) = None) by (destruct (tc_incl (pc_timer c) && negb false); auto). rewrite X.
    eexists. split; [reflexivity|]. cbn. rewrite Nat.eqb_refl. split; auto. intros u Hu. destruct (Nat.eqb_spec (N.to_nat u) (N.to_nat t)); auto. lia.
  - assert (X : (if tc_incl (pc_timer c) && negb false then @None attr_path else None) = None) by (destruct (tc_incl (pc_timer c) && negb false); auto). rewrite X.
    eexists. split; [reflexivity|]. cbn. rewrite Nat.eqb_refl. split; auto. intros u Hu. destruct (Nat.eqb_spec (N.to_nat u) (N.to_nat t)); auto. lia.
Qed.

(* ---- one snapshot ---- *)
Definition db_ok (p : pst) : Prop := forall u, exists d0 sn, fresh_db d0 /\ arun m d0 sn = Some (p_db p u) /\ Forall good sn.
Definition all_refs (l : list rent) : Prop := exists i, l = [] \/ l = [RRef i].
Definition rec_of (refs : list rent) (cnt : bool) (now d : N) : list rent :=
  refs ++ (if cnt then [RImm (pc_cnt c) (make_uint 1)] else []) ++ [RImm (pc_off c) (make_uint now); RImm (pc_dur c) (make_uint d)].
Lemma push_ok d0 p s t now x sn : fresh_db d0 -> all_refs (snap_ctx cv s t) -> arun m d0 sn = Some (p_db p t) -> Forall good sn ->
  exists q, push p s t now x = Some q /\ p_rt q = p_rt p /\ p_es q = p_es p /\
    (let r := mksnap (rec_of (snap_ctx cv s t) (p_count x) now (sub64 now (prev_of (p_ts p) t))) (pc_info c) true in
     good r /\ arun m d0 (sn ++ [r]) = Some (p_db q t)) /\
    prev_of (p_ts q) t = now /\ (forall u, u <> t -> prev_of (p_ts q) u = prev_of (p_ts p) u /\ p_db q u = p_db p u).
Proof.
  intros Hfr (i & Hr) Ha Hg. unfold push_snapshot. destruct (timer_snap (p_ts p) t now) as (ts' & Et & T1 & T2). rewrite Et. cbv zeta.
  set (r := mksnap (rec_of (snap_ctx cv s t) (p_count x) now (sub64 now (prev_of (p_ts p) t))) (pc_info c) true).
  assert (Er : add_ents (add_ents (add_ents [] (snap_ctx cv s t)) (if p_count x then [RImm (pc_cnt c) (make_uint 1)] else [])) (map (tout_rent c) [OOffset now; ODuration (sub64 now (prev_of (p_ts p) t))]) = s_rec r).
  { unfold r, rec_of, s_rec. destruct Hr as [-> | ->]; destruct (p_count x); reflexivity. }
  rewrite Er. assert (Hgr : good r). { split; [reflexivity|]. split; [reflexivity|]. unfold r, rec_of, s_rec. destruct Hr as [-> | ->]; destruct (p_count x); repeat (constructor; [exact Logic.I || reflexivity|]); constructor. }
  destruct (good_runs d0 (sn ++ [r]) Hfr) as (d & Hd). { apply Forall_app. split; auto. }
  pose proof Hd as Hd'. rewrite arun_app, Ha in Hd'. cbn [arun] in Hd'. change (pc_info c) with (s_info r). change true with (s_alloc r).
  destruct (process m (p_db p t) (s_info r) (s_alloc r) (s_rec r)) as [d1|]; [|discriminate]. injection Hd' as ->.
  eexists. split; [reflexivity|]. cbn [p_rt p_es p_db p_ts]. split; auto. split; auto. rewrite N.eqb_refl. split; [split; auto|]. split; auto.
  intros u Hu. split; auto. apply N.eqb_neq in Hu. rewrite Hu. reflexivity.
Qed.
Lemma push_db p s t now x : all_refs (snap_ctx cv s t) -> db_ok p ->
  exists q, push p s t now x = Some q /\ p_rt q = p_rt p /\ p_es q = p_es p /\ db_ok q /\ (forall u, u <> t -> prev_of (p_ts q) u = prev_of (p_ts p) u /\ p_db q u = p_db p u).
Proof.
  intros Hr Hd. destruct (Hd t) as (d0 & sn & Hfr & Ha & Hg). destruct (push_ok d0 p s t now x sn Hfr Hr Ha Hg) as (q & E & Q1 & Q2 & (Q3 & Q4) & Q5 & Q6).
  exists q. split; auto. split; auto. split; auto. split; auto. intro u. destruct (N.eq_dec u t) as [->|Hu].
  - exists d0. eexists. split; [exact Hfr|]. split; [exact Q4|]. apply Forall_app. split; auto.
  - destruct (Q6 u Hu) as (_ & ->). apply Hd.
Qed.

(* ---- one callback ---- *)
Lemma pass_all v : pass rx (ec_region (pc_event c)) v = true.
Proof. unfold has_filters in Hreg. unfold pass. destruct (rf_excl _); [discriminate|]. destruct (rf_incl _); [discriminate|]. reflexivity. Qed.
Lemma mkp_id p : mkp (p_rt p) (p_es p) (p_ts p) (p_db p) = p.
Proof. destruct p; reflexivity. Qed.
Lemma onev_cases p s now e : onev p s now e = Some p \/ exists x, onev p s now e = push p s (ev_thr e) now x.
Proof.
  unfold on_event. destruct (ev_chn e =? pc_chn c); [|left; auto].
  assert (G : forall x, fold_left (fun q x => match q with Some q => push q s (ev_thr e) now x | None => None end) [x] (Some (mkp (p_rt p) (p_es p) (p_ts p) (p_db p))) = push p s (ev_thr e) now x).
  { intro x. cbn [fold_left]. rewrite mkp_id. reflexivity. }
  destruct (ev_kind e); unfold pre_open, pre_end; try (destruct (negb _); [left; cbn; rewrite mkp_id; auto|]); try (rewrite pass_all, andb_false_r, Hbr; right; eexists; apply G).
  left. cbn. rewrite mkp_id. auto.
Qed.
Definition cnt_of (k : evk) : bool := match k with PreEnd => true | _ => false end.
Lemma onev_marked p s now k t id v ctx : k <> PostBegin -> find_marker (p_es p) (ea id) = true ->
  exists x, p_count x = cnt_of k /\ onev p s now (mkev k (pc_chn c) t id v ctx) = push p s t now x.
Proof.
  intros Hk Hm. unfold on_event. cbn [ev_chn ev_attr ev_val ev_kind ev_thr]. rewrite N.eqb_refl. unfold pre_open, pre_end.
  rewrite Hm. cbn [negb]. rewrite !pass_all. cbn [negb]. rewrite !andb_false_r, Hbr.
  destruct k; try congruence; cbn [fold_left]; rewrite mkp_id; eexists; (split; [|reflexivity]); unfold mk_push; rewrite Hinfo; reflexivity.
Qed.
Lemma onev_post p s now t ch id v ctx : onev p s now (mkev PostBegin ch t id v ctx) = Some p.
Proof. unfold on_event. cbn [ev_chn ev_attr ev_val ev_kind ev_thr]. destruct (ch =? pc_chn c); auto. cbn. rewrite mkp_id. auto. Qed.
Definition onf (s : rt) (now : N) (q : option pst) (e : ev) : option pst := match q with Some q => onev q s now e | None => None end.
Lemma fold_evs s now k t b v ctx act p : NoDup act -> In (pc_chn c) act ->
  fold_left (onf s now) (evs_of k t b v ctx act) (Some p) = onev p s now (mkev k (pc_chn c) t (at_id b) v ctx).
Proof.
  assert (O : forall act q, ~ In (pc_chn c) act -> fold_left (onf s now) (evs_of k t b v ctx act) q = q).
  { clear. induction act as [|x act IH]; intros q H; [reflexivity|]. cbn in H. cbn [evs_of map fold_left]. assert (E : onf s now q (mkev k x t (at_id b) v ctx) = q).
    { destruct q; [|reflexivity]. unfold onf, on_event. cbn [ev_chn]. destruct (N.eqb_spec x (pc_chn c)); [exfalso; auto|reflexivity]. }
    rewrite E. apply IH. auto. }
  intros Hn Hin. apply in_split in Hin as (l1 & l2 & ->). unfold evs_of. rewrite map_app, fold_left_app.
  assert (N1 : ~ In (pc_chn c) l1 /\ ~ In (pc_chn c) l2). { apply NoDup_remove_2 in Hn. rewrite in_app_iff in Hn. auto. }
  fold (evs_of k t b v ctx l1). rewrite O by apply N1. cbn [map fold_left onf]. fold (evs_of k t b v ctx l2). apply O. apply N1.
Qed.
Lemma fold_post s now t b v ctx act p : fold_left (onf s now) (evs_of PostBegin t b v ctx act) (Some p) = Some p.
Proof. unfold evs_of. induction act as [|x act IH]; [reflexivity|]. cbn [map fold_left onf]. rewrite onev_post. exact IH. Qed.
(* callbacks from thread u leave the data of other threads alone *)
Lemma fold_other s now u evs : all_refs (snap_ctx cv s u) -> Forall (fun e => ev_thr e = u) evs -> forall p, db_ok p ->
  exists q, fold_left (onf s now) evs (Some p) = Some q /\ p_rt q = p_rt p /\ p_es q = p_es p /\ db_ok q /\ (forall w, w <> u -> prev_of (p_ts q) w = prev_of (p_ts p) w /\ p_db q w = p_db p w).
Proof.
  intros Hr H. induction H as [|e evs He Hev IH]; intros p Hd; [exists p; auto 10|]. cbn [fold_left onf].
  destruct (onev_cases p s now e) as [-> | (x & ->)]; [apply IH; auto|]. rewrite He.
  destruct (push_db p s u now x Hr Hd) as (q & -> & Q1 & Q2 & Q3 & Q4). destruct (IH q Q3) as (q2 & E & R1 & R2 & R3 & R4).
  exists q2. split; auto. split; [congruence|]. split; [congruence|]. split; auto. intros w Hw. destruct (Q4 w Hw). destruct (R4 w Hw). split; congruence.
Qed.

(* ---- the context of a snapshot ---- *)
Definition ctx_for (tr : tree) (refs : list rent) (q : path) : Prop :=
  (refs = [] /\ q = []) \/ exists i, refs = [RRef i] /\ q <> [] /\ has_path tr i q /\ Forall (fun x => 12 <= fst x) q.
Lemma fresh_init sk : fresh_db (adb_init sk).
Proof. destruct (caps_fresh sk) as (F1 & F2 & F3). eexists. split; [apply rep_fresh|]. auto. Qed.
End P.
Section Q.
Variable cv : value -> cvar.
Lemma snap_ctx_ok s a t : rel s a -> vis2_st s -> all_refs (snap_ctx cv s t) /\ ctx_for (r_tree s) (snap_ctx cv s t) (c_reg (a_thr a t)).
Proof.
  intros H (V1 & V2). unfold snap_ctx. rewrite (vis2_visible _ (proj1 (rl_thr _ _ H t)) (V1 t)), (visp_visible _ V2), app_nil_r.
  pose proof (br_reg _ _ _ (proj2 (rl_thr _ _ H t))) as (Hf & Hr). destruct (bget (r_tbb s t) REGION_KEY) as [[i v]|].
  - destruct Hr as (Hne & Hp & _). destruct (path_last _ _ _ (rl_inv _ _ H) Hp Hne) as (n & p & l' & Hn & En & Pn & Hl' & El & Ea & Hroot).
    cbn [map]. unfold ent_rent. cbn [fst]. rewrite Ea.
    assert (12 <= n_attr n). { rewrite Forall_forall in Hf. apply (Hf (n_attr n, n_val n)). rewrite El. apply in_or_app; right; left; auto. }
    destruct (N.eqb_spec (n_attr n) NAME_ATTR_ID) as [Z|_]; [unfold NAME_ATTR_ID in Z; lia|]. split; [exists i; auto|]. right. exists i. split; auto. split; auto. split; auto.
    eapply Forall_impl; [|exact Hf]. intros x Hx; apply Hx.
  - cbn. split; [exists 0; auto|]. left; auto.
Qed.
End Q.
