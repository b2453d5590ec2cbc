(* C82: intervals of a time series *)
From Verif Require Import Base VariantModel VariantSpec FloatModel ArithModel TreeModel TreeSpec TreeProofs TreeProofs2 RuntimeModel RuntimeSpec RuntimeProofs RuntimeProofs2 RuntimeProps RuntimeProps2 RuntimeProps3.
From Verif Require Import RtAggModel RtAggSpec RtAggProofs RtAggProofs2 RtAggProofs3 RtAggProofs4 RtAggProps RtAggProps2 RFilterModel EventModel TimerModel ProfModel ProfSpec ProfProofs ProfProofs2 ProfProofs3 ProfProofs4 ProfProofs5 TimeserModel TimeserSpec.
Open Scope N_scope.

Lemma len_stretches l : forall since q, length (stretches since q l) = length l.
Proof. induction l as [|[n o] l IH]; intros; cbn; auto. Qed.
Lemma last_first {A} (l : list A) : forall x d, last (x :: l) d = last l x.
Proof. induction l as [|y l IH]; intros x d; [reflexivity|]. change (last (x :: y :: l) d) with (last (y :: l) d). rewrite !IH. reflexivity. Qed.
Lemma stretches_app a : forall since q b, stretches since q (a ++ b) = stretches since q a ++ stretches (last_time since a) (place q a) b.
Proof.
  induction a as [|[n o] a IH]; intros since q b; cbn [app stretches]; [reflexivity|]. cbn [app]. f_equal. rewrite IH. f_equal.
  unfold last_time, place. cbn [map fold_left fst snd]. rewrite last_first. reflexivity.
Qed.
Lemma last_time_app since a b : last_time since (a ++ b) = last_time (last_time since a) b.
Proof.
  unfold last_time. rewrite map_app. revert since. induction a as [|[n o] a IH]; intro since; [reflexivity|]. cbn [map app fst].
  rewrite !last_first. rewrite IH. reflexivity.
Qed.
Lemma place_app q a b : place q (a ++ b) = place (place q a) b.
Proof. unfold place. rewrite map_app, fold_left_app. reflexivity. Qed.
Lemma ordered_app a : forall since b, ordered since (a ++ b) <-> ordered since a /\ ordered (last_time since a) b.
Proof.
  induction a as [|[n o] a IH]; intros since b; cbn [app ordered]; [cbn; tauto|]. rewrite IH.
  assert (E : last_time since ((n, o) :: a) = last_time n a) by (apply (last_time_app since [(n, o)] a)). rewrite E. tauto.
Qed.
Lemma timeline_app t a b : timeline t (a ++ b) = timeline t a ++ timeline t b.
Proof. unfold timeline. apply flat_map_app. Qed.
Lemma prog_app a b : prog (a ++ b) = prog a ++ prog b.
Proof. apply map_app. Qed.
Lemma rt_run_app a : forall s b s' xs, rt_run s (a ++ b) = Some (s', xs) -> exists s1 x1 x2, rt_run s a = Some (s1, x1) /\ rt_run s1 b = Some (s', x2).
Proof.
  induction a as [|[u o] a IH]; intros s b s' xs H; cbn [app rt_run] in *; [eauto|].
  destruct (rt_step s u o) as [s1 x|?|]; try discriminate. destruct (rt_run s1 (a ++ b)) as [[s2 ys]|] eqn:E; [|discriminate]. injection H as -> <-.
  destruct (IH _ _ _ _ E) as (s3 & x1 & x2 & E1 & E2). rewrite E1. eauto.
Qed.
Lemma ops_ok_app a : forall s b, ops_ok s (a ++ b) -> ops_ok s a /\ forall s1 x1, rt_run s a = Some (s1, x1) -> ops_ok s1 b.
Proof.
  induction a as [|[u o] a IH]; intros s b H; cbn [app ops_ok rt_run] in *.
  - split; auto. intros s1 x1 E. injection E as <- <-. auto.
  - destruct H as (H1 & H2). destruct (rt_step s u o) as [s1 x|?|].
    + destruct (IH _ _ H2) as (A & B). split; auto. intros s2 x2 E. destruct (rt_run s1 a) as [[s3 ys]|] eqn:Er; [|discriminate]. injection E as <- <-. eapply B; eauto.
    + split; auto. discriminate.
    + split; auto. discriminate.
Qed.
(* flushing and clearing any database of the channel *)
Lemma gflush_some m ks info fs gs : Forall2 (grp_ok m ks) fs gs -> attrs_known info fs -> forall slot, exists l, gflush info gs slot = Some l.
Proof.
  induction 1 as [|f g fs gs H HF IH]; intros Ha slot; cbn [gflush]; [eauto|]. apply Forall_cons_iff in Ha as (Hf & Ha).
  destruct H as (_ & _ & _ & Eks). destruct (flush_kerns_some _ _ _ (i_res info) Eks Hf) as (st & ->). destruct (IH Ha (slot + 1)) as (l & ->). destruct (IH Ha slot) as (l' & ->). destruct (g_cnt g =? 0); eauto.
Qed.
Lemma db_flush m c d0 sn d : i_keys (pc_info c) = [] -> (length (i_aggr (pc_info c)) <= length (i_res (pc_info c)))%nat -> fresh_db d0 -> arun m d0 sn = Some d -> Forall (good c) sn ->
  (exists l, aflush d (pc_info c) = Some l) /\ exists d', aclear d = Some d' /\ fresh_db d'.
Proof.
  intros Hk Hl (k0 & R & C1 & C2 & C3) Hr Hg. pose proof (good_growing c sn Hg) as Hgr.
  destruct (RtAggProofs4.history m d0 k0 R C1 C2 C3 sn d Hgr Hr) as (fl & gs & L & R' & HI & Hcap & Hd).
  destruct (pick_all sn fl L) as (P1 & P2).
  { intros i x Hi Hfl. destruct (Hd i x Hi Hfl) as (A & _). rewrite Forall_forall in Hg. destruct (Hg x) as (_ & Z & _); [eapply nth_error_In; eauto|congruence]. }
  rewrite P1, P2 in *. cbn [length N.of_nat] in R'. change (wrap64 0) with 0 in R'. split.
  - rewrite (aflush_groups d _ _ gs _ R' eq_refl). refine (gflush_some m sn _ _ gs HI _ 0). apply Forall_forall. intros f Hf. apply firsts_in in Hf. rewrite Forall_forall in Hg. destruct (Hg f Hf) as (-> & _). exact Hl.
  - destruct (clear_rep _ _ _ _ R') as (d' & E & Rd & Cd). exists d'. split; auto. exists []. split; auto. unfold caps_le in *. lia.
Qed.
(* ---- the rounds ---- *)
Lemma flush_fresh m c d0 sn d : i_keys (pc_info c) = [] -> (length (i_aggr (pc_info c)) <= length (i_res (pc_info c)))%nat -> fresh_db d0 -> arun m d0 sn = Some d -> Forall (good c) sn ->
  keys_fit sn -> small sn -> aflush d (pc_info c) = reports (same_key m) full_key (pc_info c) sn (firsts (same_key m) sn) 0.
Proof.
  intros Hkeys Hl (k0 & R & C1 & C2 & C3) Hr Hg Hk Hs. pose proof (good_growing c sn Hg) as Hgr.
  assert (Hal : Forall (fun s => s_alloc s = true) sn). { eapply Forall_impl; [|exact Hg]. intros s (_ & Z & _). exact Z. }
  assert (Hknown : attrs_known (pc_info c) sn). { eapply Forall_impl; [|exact Hg]. intros s (-> & _). exact Hl. }
  destruct (flush_from m d0 k0 sn d (pc_info c) R C1 C2 C3 Hgr Hknown Hs Hal Hr) as (-> & _).
  unfold keys_fit in Hk. rewrite Forall_forall in Hk.
  assert (Hc : forall s t, In s sn -> In t sn -> cls m s t = same_key m s t) by (intros s t Is It; apply cls_same; auto).
  assert (Hk16 : forall s, In s sn -> key16 s = full_key s) by (intros s Is; unfold key16; apply firstn_all2; auto).
  rewrite (firsts_ext (cls m) (same_key m)) by auto.
  apply reports_ext; [intros f Hff; eapply firsts_in; eauto|auto|auto].
Qed.

Section P.
Variable rx : bytes -> bytes -> bool.
Variable ea : N -> eattr.
Variable cv : value -> cvar.
Variable m : memory.
Variable c : tscfg.
Variable ths : list N.
Variable es : esvc.
Variable t : N.
Let pc := q_prof c.
Hypothesis Hinfo : ec_info (pc_event pc) = false.
Hypothesis Hreg : has_filters (ec_region (pc_event pc)) = false.
Hypothesis Hbr : has_filters (ec_branch (pc_event pc)) = false.
Hypothesis Hkeys : i_keys (pc_info pc) = [].
Hypothesis Hlen : (length (i_aggr (pc_info pc)) <= length (i_res (pc_info pc)))%nat.
Hypothesis Hin : In t ths.

Definition db_run (d : adb) : Prop := exists d0 sn, fresh_db d0 /\ arun m d0 sn = Some d /\ Forall (good pc) sn.
Lemma fresh_run d : fresh_db d -> db_run d.
Proof. intro H. exists d, []. split; auto. Qed.
Definition recs_of (db : N -> adb) (u : N) : list (list rent) := match aflush (db u) (pc_info pc) with Some l => l | None => [] end.
Lemma flush_all_ok db l : (forall u, db_run (db u)) -> flush_all c db l = Some (flat_map (recs_of db) l).
Proof.
  intro H. induction l as [|u l IH]; cbn [flush_all flat_map]; [reflexivity|]. destruct (H u) as (d0 & sn & H1 & H2 & H3).
  destruct (db_flush m pc d0 sn (db u) Hkeys Hlen H1 H2 H3) as ((x & E) & _). rewrite IH. unfold recs_of at 2. fold pc. rewrite E. reflexivity.
Qed.
Lemma clear_all_ok l : forall db, (forall u, db_run (db u)) -> exists db', clear_all db l = Some db' /\ (forall u, db_run (db' u)) /\ (forall u, In u l -> fresh_db (db' u)) /\ (forall u, ~ In u l -> db' u = db u).
Proof.
  induction l as [|u l IH]; intros db H; cbn [clear_all]; [exists db; repeat split; auto; intros u []|].
  destruct (H u) as (d0 & sn & H1 & H2 & H3). destruct (db_flush m pc d0 sn (db u) Hkeys Hlen H1 H2 H3) as (_ & (d & E & F)). rewrite E.
  destruct (IH (fun w => if w =? u then d else db w)) as (db' & E' & A & B & C).
  { intro w. destruct (w =? u); [apply fresh_run|]; auto. }
  exists db'. split; auto. split; auto. split.
  - intros w Hw. destruct (in_dec N.eq_dec w l) as [i|n]; [auto|]. rewrite (C w n). destruct Hw as [<-|Hw]; [|contradiction]. rewrite N.eqb_refl. exact F.
  - intros w Hw. rewrite C by (intro; apply Hw; right; auto). destruct (N.eqb_spec w u) as [->|]; auto. exfalso. apply Hw. left; auto.
Qed.

(* what the i-th snapshot hands on *)
Definition out_ok (tr : tree) (r : round) (st : list rent) (l : list (path * N * bool)) (o : sout) (own : list rent) : Prop :=
  exists news rs, Forall2 (snap_for pc tr) news l /\
    reports (same_key m) full_key (pc_info pc) news (firsts (same_key m) news) 0 = Some (rs t) /\
    o_recs o = map (fun f => f ++ rd_info r ++ st) (flat_map rs ths) /\ o_own o = own.
Definition own_of (r : round) (prev : option N) (n : N) : list rent := stamps c prev n ++ [RImm (q_dur c) (make_double (dsub (rd_clock r) (to_double (start_var prev))))].

Lemma snaps_fit tr news l : Forall2 (snap_for pc tr) news l -> keys_fit news.
Proof.
  intro H. apply Forall_forall. intros sn Hs. destruct (F2_in_l _ _ _ _ H Hs) as (x & _ & Hx).
  destruct (sfor_key pc tr Hkeys _ _ Hx) as (-> & [(-> & _)|(i & -> & _)]); cbn; unfold MAXKEY; lia.
Qed.
Lemma snap_for_ext tr tr' news l : ext tr tr' -> Forall2 (snap_for pc tr) news l -> Forall2 (snap_for pc tr') news l.
Proof.
  intros X. induction 1 as [|s x news l (A1 & A2 & refs & now & A3 & A4) _ IH]; constructor; auto. split; auto. split; auto. exists refs, now. split; auto. eapply ctx_for_ext; eauto.
Qed.
Lemma previous_S init u r rs i : previous init u (r :: rs) (S i) = previous (if rd_thr r =? u then Some (rd_clock r) else init) u rs i.
Proof. unfold previous. cbn [firstn filter]. destruct (rd_thr r =? u); [|reflexivity]. cbn [map]. apply last_first. Qed.

Lemma rounds rs : forall s a since q d0 s' xs, J m pc d0 es t (z_prof s) a [] since q -> ops_ok (p_rt (z_prof s)) (prog (all_calls rs)) ->
  Forall (fun x => plain_op (snd x) /\ not_chn (pc_chn pc) (snd x)) (all_calls rs) ->
  rt_run (p_rt (z_prof s)) (prog (all_calls rs)) = Some (s', xs) -> not_full (r_tree s') -> r_err s' t = false ->
  (forall n o b, In (n, o) (timeline t (all_calls rs)) -> op_attr o = Some b -> find_marker es (ea (at_id b)) = true) ->
  ordered since (timeline t (all_calls rs)) -> N.of_nat (length (timeline t (all_calls rs))) < 4294967296 -> z_snaps s < 4294967296 ->
  exists s2 outs a' d1, trun rx ea cv m c ths s rs = Some (s2, outs) /\ p_rt (z_prof s2) = s' /\
    J m pc d1 es t (z_prof s2) a' [] (last_time since (timeline t (all_calls rs))) (place q (timeline t (all_calls rs))) /\ ext (r_tree (p_rt (z_prof s))) (r_tree s') /\
    length outs = length rs /\
    forall i r, nth_error rs i = Some r -> exists o, nth_error outs i = Some o /\
      let prev := previous (z_start s (rd_thr r)) (rd_thr r) rs i in let n := (z_snaps s + N.of_nat i) mod 4294967296 in
      out_ok (r_tree s') r (stamps c prev n) (nth i (by_interval since q (intervals t rs)) []) o (own_of r prev n).
Proof.
  induction rs as [|r rs IH]; intros s a since q d0 s' xs HJ Ho Hp Hr Hnf He Hmk Hord Hsm Hz.
  - cbn in Hr. injection Hr as <- <-. exists s, [], a, d0. split; [reflexivity|]. split; [reflexivity|]. split; [exact HJ|]. split; [apply ext_refl|]. split; [reflexivity|]. intros [|i] r E; discriminate E.
  - change (all_calls (r :: rs)) with ((rd_calls r ++ rd_during r) ++ all_calls rs) in *. set (h := rd_calls r) in *. set (g := rd_during r) in *. set (k := all_calls rs) in *.
    rewrite <- !app_assoc in *. rewrite !prog_app in *. rewrite !timeline_app in *.
    destruct (ops_ok_app _ _ _ Ho) as (Ho1 & Ho23). destruct (rt_run_app _ _ _ _ _ Hr) as (s1 & x1 & y1 & R1 & R23). specialize (Ho23 _ _ R1).
    destruct (ops_ok_app _ _ _ Ho23) as (Ho2 & Ho3). destruct (rt_run_app _ _ _ _ _ R23) as (s2 & x2 & y2 & R2 & R3). specialize (Ho3 _ _ R2).
    apply Forall_app in Hp as (Hp1 & Hp23). apply Forall_app in Hp23 as (Hp2 & Hp3).
    assert (Hnf2 : not_full (r_tree s2)) by (eapply mono_nf; eauto using run_mono).
    assert (Hnf1 : not_full (r_tree s1)) by (eapply mono_nf; eauto using run_mono).
    assert (He2 : r_err s2 t = false). { destruct (r_err s2 t) eqn:Z; auto. exfalso. destruct (C20_error_freezes_thread _ s2 t s' y2 Z R3) as (Z2 & _). congruence. }
    assert (He1 : r_err s1 t = false). { destruct (r_err s1 t) eqn:Z; auto. exfalso. destruct (C20_error_freezes_thread _ s1 t s2 x2 Z R2) as (Z2 & _). congruence. }
    apply ordered_app in Hord as (O1 & O23). apply ordered_app in O23 as (O2 & O3).
    rewrite !app_length, !Nat2N.inj_add in Hsm.
    destruct (main2 rx ea cv m pc d0 es t Hinfo Hreg Hbr Hkeys h (z_prof s) a [] since q s1 x1 HJ Ho1 Hp1 R1 Hnf1 He1) as (p1 & a1 & n1 & M1 & M2 & M3 & M4 & M5); auto.
    { intros n o b Hi Hb. eapply Hmk; [apply in_or_app; left; exact Hi|exact Hb]. }
    cbv zeta in *. fold (last_time since (timeline t h)) in M3. fold (place q (timeline t h)) in M3. cbn [app] in M3.
    rewrite <- M2 in Ho2, R2.
    destruct (main2 rx ea cv m pc d0 es t Hinfo Hreg Hbr Hkeys g p1 a1 n1 _ _ s2 x2 M3 Ho2 Hp2 R2 Hnf2 He2) as (p2 & a2 & n2 & K1 & K2 & K3 & K4 & K5); auto.
    { intros n o b Hi Hb. eapply Hmk; [apply in_or_app; right; apply in_or_app; left; exact Hi|exact Hb]. }
    cbv zeta in *. fold (last_time (last_time since (timeline t h)) (timeline t g)) in K3. fold (place (place q (timeline t h)) (timeline t g)) in K3. rewrite <- last_time_app, <- place_app in K3.
    pose proof M3 as [J1 J2 J3 J4 J5 J6 J7 J8 J9 J10 J11 J12]. pose proof K3 as [L1 L2 L3 L4 L5 L6 L7 L8 L9 L10 L11 L12].
    destruct (clear_all_ok ths (p_db p2) L7) as (db' & C1 & C2 & C3 & C4).
    set (st1 := fun u => if u =? rd_thr r then Some (rd_clock r) else z_start s u).
    set (sB := mkts (mkp (p_rt p2) (p_es p2) (p_ts p2) db') st1 ((z_snaps s + 1) mod 4294967296)).
    set (prev0 := z_start s (rd_thr r)).
    set (out := mkout (map (fun f => f ++ rd_info r ++ stamps c prev0 (z_snaps s)) (flat_map (recs_of (p_db p1)) ths)) (own_of r prev0 (z_snaps s))).
    assert (Er : tround rx ea cv m c ths s r = Some (sB, out)).
    { unfold tround. fold h. fold pc. rewrite M1. unfold snapshot. cbn [z_prof z_start z_snaps]. rewrite (flush_all_ok _ _ J7). fold g. fold pc. rewrite K1, C1. reflexivity. }
    assert (HJ' : J m pc (db' t) es t (z_prof sB) a2 [] (last_time since (timeline t h ++ timeline t g)) (place q (timeline t h ++ timeline t g))).
    { constructor; cbn; auto. }
    assert (E2 : p_rt (z_prof sB) = s2) by exact K2. rewrite <- E2 in Ho3, R3.
    destruct (IH sB a2 _ _ (db' t) s' y2 HJ' Ho3 Hp3 R3 Hnf He) as (s3 & outs & a' & d1 & Q1 & Q2 & Q3 & Q4 & Q5 & Q6).
    { intros n o b Hi Hb. eapply Hmk; [apply in_or_app; right; apply in_or_app; right; exact Hi|exact Hb]. }
    { rewrite last_time_app. exact O3. } { lia. } { apply N.mod_lt. discriminate. }
    exists s3, (out :: outs), a', d1. cbn [trun]. rewrite Er, Q1. split; [reflexivity|]. split; [exact Q2|]. split.
    { rewrite !app_assoc. rewrite (last_time_app since _ (timeline t k)), (place_app q _ (timeline t k)). exact Q3. }
    rewrite E2 in Q4. rewrite M2 in K5. split; [eapply ext_trans; [exact M5|eapply ext_trans; [exact K5|exact Q4]]|].
    split; [cbn; congruence|]. intros [|i] r' E.
    + cbn in E. injection E as <-. exists out. split; [reflexivity|]. cbv zeta. cbn [intervals map by_interval nth N.of_nat]. rewrite N.add_0_r, N.mod_small by auto.
      exists n1, (recs_of (p_db p1)). split; [eapply snap_for_ext; [|exact M4]; eapply ext_trans; eauto|]. split; [|split; reflexivity].
      unfold recs_of. rewrite <- (flush_fresh m pc d0 n1 (p_db p1 t) Hkeys Hlen J12 J8 J9).
      * destruct (db_flush m pc d0 n1 (p_db p1 t) Hkeys Hlen J12 J8 J9) as ((x & ->) & _). reflexivity.
      * eapply snaps_fit; eauto.
      * unfold small. rewrite (F2_length _ _ _ M4). rewrite len_stretches. lia.
    + cbn [nth_error] in E. destruct (Q6 i r' E) as (o & N1 & N2). exists o. split; [exact N1|]. cbv zeta in *. rewrite previous_S. cbn [sB z_start z_snaps] in N2. unfold st1 in N2.
      cbn [intervals map by_interval nth]. fold h g. fold (intervals t rs).
      assert (E3 : (z_snaps s + N.of_nat (S i)) mod 4294967296 = ((z_snaps s + 1) mod 4294967296 + N.of_nat i) mod 4294967296).
      { rewrite N.add_mod_idemp_l by discriminate. f_equal. lia. }
      rewrite E3. rewrite N.eqb_sym. exact N2.
Qed.
End P.
