From Verif Require Import Base VariantModel VariantSpec TreeModel TreeSpec TreeProofs TreeProofs2
  RuntimeModel RuntimeSpec RuntimeProofs RuntimeProofs2 RuntimeProps2 RuntimeProps3 ChnModel ChnSpec ChnProofs ChnProofs2 ChnProofs3.

Lemma events_app c l l' : events_of c (l ++ l') = events_of c l ++ events_of c l'.
Proof. unfold events_of. apply filter_app. Qed.
Lemma events_none c l : Forall (fun e => ev_channel e <> c) l -> events_of c l = [].
Proof. induction 1; cbn; auto. destruct (N.eqb_spec (ev_channel x) c); [contradiction|auto]. Qed.
Lemma events_forall (P : kev -> Prop) c l : Forall P l -> Forall P (events_of c l).
Proof. intro H. apply Forall_forall. intros e He. apply filter_In in He. rewrite Forall_forall in H. apply H, He. Qed.

Definition log_ok (t0 : N) (s s' : kst) (k : call) (c : N) : Prop :=
  exists l, events_of c (k_log s') = events_of c (k_log s) ++ l /\
  (In c (created1 k) -> l = [KPostInit c]) /\
  (~ In c (created1 k) -> In c (k_all s) -> deletes t0 c k = true -> exists m, l = m ++ [KPreFinish c; KFinish c] /\ Forall ordinary m) /\
  (~ In c (created1 k) -> In c (k_all s) -> deletes t0 c k = false -> Forall ordinary l) /\
  (~ In c (created1 k) -> ~ In c (k_all s) -> l = []).

(* only ordinary callbacks, on existing channels *)
Lemma log_quiet t0 s s' k c l : k_log s' = k_log s ++ l -> Forall (fun e => ordinary e /\ In (ev_channel e) (k_all s)) l ->
  created1 k = [] -> deletes t0 c k = false -> log_ok t0 s s' k c.
Proof.
  intros E F Hc Hd. exists (events_of c l). rewrite E, events_app, Hc, Hd. split; auto. split; [intros []|]. split; [discriminate|]. split.
  - intros _ _ _. eapply Forall_impl; [|apply events_forall; exact F]. intros e He; apply He.
  - intros _ Hn. apply events_none. eapply Forall_impl; [|exact F]. intros e (_ & He) Eq. subst; auto.
Qed.
Lemma log_pre t0 s s1 s' k c l : k_log s1 = k_log s ++ l -> Forall (fun e => ordinary e /\ In (ev_channel e) (k_all s)) l -> k_all s1 = k_all s ->
  (In c (created1 k) -> ~ In c (k_all s)) -> log_ok t0 s1 s' k c -> log_ok t0 s s' k c.
Proof.
  intros E F Ea Hn (l2 & A1 & A2 & A3 & A4 & A5). rewrite Ea in *. exists (events_of c l ++ l2).
  assert (Hz : ~ In c (k_all s) -> events_of c l = []).
  { intro Hz. apply events_none. eapply Forall_impl; [|exact F]. intros e (_ & He) Eq. subst; auto. }
  assert (Ho : Forall ordinary (events_of c l)).
  { eapply Forall_impl; [|apply events_forall; exact F]. intros e He; apply He. }
  split; [rewrite A1, E, events_app, app_assoc; reflexivity|]. split.
  - intro Hc. rewrite (Hz (Hn Hc)). apply A2; auto.
  - split; [|split].
    + intros B1 B2 B3. destruct (A3 B1 B2 B3) as (m & -> & Hm). exists (events_of c l ++ m). rewrite app_assoc. split; auto. apply Forall_app; auto.
    + intros B1 B2 B3. apply Forall_app; split; auto.
    + intros B1 B2. rewrite (Hz B2), (A5 B1 B2). reflexivity.
Qed.
Lemma events_fin s t c : forall l, NoDup l -> (forall d, In d l -> k_body s d <> None) ->
  events_of c (flat_map (fin_events s t) l) = if existsb (N.eqb c) l then fin_events s t c else [].
Proof.
  induction l as [|d l IH]; [reflexivity|]. cbn [flat_map existsb]. intros Hn Hb. rewrite events_app, IH; [|inversion Hn; auto|intros e He; apply Hb; right; auto].
  assert (Ef : events_of c (fin_events s t d) = if c =? d then fin_events s t d else []).
  { unfold fin_events. destruct (k_body s d) as [b|]; [|destruct (c =? d); reflexivity].
    destruct (b_flush b); cbn; rewrite (N.eqb_sym d c); destruct (c =? d); reflexivity. }
  rewrite Ef. destruct (N.eqb_spec c d); cbn [orb].
  - subst d. inversion Hn; subst. destruct (existsb (N.eqb c) l) eqn:Ex; [apply existsb_In in Ex; contradiction|]. apply app_nil_r.
  - reflexivity.
Qed.
Lemma release_log t0 s t t' o s' x c : kinv t0 s -> k_release s t = KOk s' x -> created1 (t', o, x) = [] -> deletes t0 c (t', o, x) = true ->
  log_ok t0 s s' (t', o, x) c.
Proof.
  intros H E Hc Hd. destruct (release_spec t0 s t H) as (s1 & E1 & A1 & A2 & A3 & A4 & A5 & A6 & A7 & A8 & A9 & A10 & A11 & A12 & A13 & A14).
  rewrite E1 in E. injection E as <- <-.
  assert (Hb : forall d, In d (k_all s) -> k_body s d <> None).
  { intros d Hd'. destruct (inv_body _ _ d H (ki_lt _ _ H d Hd')) as (b & E). congruence. }
  exists (events_of c (flat_map (fin_events s t) (k_all s))). rewrite A14, events_app, Hc, Hd. split; auto. split; [intros []|].
  rewrite (events_fin s t c _ (ki_nodup _ _ H) Hb). split; [|split; [discriminate|]].
  - intros _ Hi _. pose proof Hi as Hi2. apply existsb_In in Hi2. rewrite Hi2. unfold fin_events. destruct (k_body s c) as [b|] eqn:Eb; [|destruct (Hb c Hi Eb)].
    eexists. split; [reflexivity|]. destruct (b_flush b); repeat constructor.
  - intros _ Hi. destruct (existsb (N.eqb c) (k_all s)) eqn:Ex; auto. apply existsb_In in Ex. contradiction.
Qed.
Lemma delete_log t0 s t o c s' x d : kinv t0 s -> In c (k_all s) -> chn_delete s c = KOk s' x -> created1 (t, o, x) = [] -> deletes t0 d (t, o, x) = (c =? d) ->
  log_ok t0 s s' (t, o, x) d.
Proof.
  intros H Hi E Hc Hd. unfold chn_delete in E. destruct (k_body s c) as [b|]; [|discriminate]. cbn zeta in E. injection E as <- <-.
  exists (events_of d ([KPreFinish c] ++ [KFinish c])). cbn [klog with_all with_rt k_log]. rewrite <- app_assoc, events_app, Hc. split; auto.
  assert (Ee : events_of d ([KPreFinish c] ++ [KFinish c]) = if c =? d then [KPreFinish c; KFinish c] else []) by (cbn; destruct (c =? d); reflexivity).
  rewrite Ee, Hd. clear Ee. split; [intros []|]. destruct (N.eqb_spec c d).
  - subst. split; [intros _ _ _; exists []; auto|]. split; [discriminate|]. intros; contradiction.
  - split; [discriminate|]. split; auto.
Qed.
Lemma nolog t0 s s' k c : k_log s' = k_log s -> created1 k = [] -> deletes t0 c k = false -> log_ok t0 s s' k c.
Proof. intros E Hc Hd. apply (log_quiet t0 s s' k c []); auto. rewrite app_nil_r; auto. Qed.

Lemma step_log t0 s t o s' x c : kinv t0 s -> (forall d, In d (r_act (k_rt s)) -> In d (k_all s)) -> kop_ok s o -> kop_disc s o ->
  k_step s t o = KOk s' x -> log_ok t0 s s' (t, o, x) c.
Proof.
  intros H Hs (Hok1 & _ & _ & Hok4) Hdisc E.
  destruct (ensure_log s t) as (le & Ele & Fle).
  destruct (guarded o) eqn:Hg.
  - destruct o; try discriminate; cbn [k_step] in E.
    + injection E as <- <-. apply nolog; auto.
    + destruct (k_live s) eqn:HL.
      * eapply (log_pre _ _ (ensure s t)); eauto using ensure_all. eapply release_log; eauto using ensure_inv.
      * injection E as <- <-. pose proof (ki_dead _ _ H HL) as Ha. exists []. rewrite app_nil_r. split; auto. cbn. rewrite Ha. split; [intros []|]. split; [intros _ []|]. split; auto.
    + destruct (k_live s) eqn:HL.
      * unfold k_thread_exit in E. destruct (existsb (N.eqb t) (k_thr s)) eqn:Et.
        -- rewrite (ki_main _ _ H) in E. destruct (N.eqb_spec t t0).
           ++ subst t. eapply release_log; eauto. cbn. apply N.eqb_refl.
           ++ injection E as <- <-. eapply log_quiet; [reflexivity| |reflexivity|].
              ** apply Forall_map. apply Forall_forall. intros d Hd. split; [exact Logic.I|exact Hd].
              ** cbn. destruct (N.eqb_spec t t0); [contradiction|reflexivity].
        -- injection E as <- <-. assert (Hn : t <> t0).
           { intros ->. pose proof (ki_thr _ _ H HL) as Hi. apply existsb_In in Hi. congruence. }
           apply nolog; auto. cbn. destruct (N.eqb_spec t t0); [contradiction|reflexivity].
      * injection E as <- <-. pose proof (ki_dead _ _ H HL) as Ha. exists []. rewrite app_nil_r. split; auto. cbn [created1]. rewrite Ha. split; [intros []|]. split; [intros _ []|]. split; auto.
  - specialize (Hok1 eq_refl). pose proof (live_step _ _ _ _ _ E Hg Hok1) as E1. clear E.
    pose proof (ensure_inv t0 s t H) as H1.
    assert (Hcr : forall d, In d (created1 (t, o, x)) -> ~ In d (k_all s)).
    { intros d Hd Hi. assert (Ed : d = k_next s).
      { clear -Hd E1. destruct o; cbn in Hd; try contradiction. cbn [k_run1] in E1. unfold chn_create in E1. cbn zeta in E1.
        destruct (chn_sets _ _ _ _); try discriminate. injection E1 as _ <-. destruct Hd as [<-|[]]. apply (ensure_same s t). }
      pose proof (ki_lt _ _ H d Hi). lia. }
    eapply (log_pre _ _ (ensure s t)); eauto using ensure_all.
    assert (Hs1 : forall d, In d (r_act (k_rt (ensure s t))) -> In d (k_all (ensure s t))) by (rewrite ensure_rt, ensure_all; auto).
    assert (Hd1 : kop_disc (ensure s t) o) by (unfold kop_disc; rewrite ensure_all; auto).
    set (s1 := ensure s t) in *. clearbody s1. clear Hs Hdisc H Hok1.
    destruct (quiet_op o) eqn:Hq.
    + destruct (quiet_run t0 s1 t o s' x H1) as (S & R & l & El & Fl); auto.
      { destruct o; auto. apply Hok4. }
      eapply log_quiet; eauto using quiet_created.
      * eapply Forall_impl; [|exact Fl]. intros e (A1 & A2). split; auto. destruct A2 as [A2|[A2|A2]]; auto.
      * destruct o; try discriminate; reflexivity.
    + destruct o; try discriminate; cbn [k_run1] in E1.
      * unfold chn_create in E1. cbn zeta in E1.
        match type of E1 with (match chn_sets ?u _ _ _ with _ => _ end) = _ => set (s0 := u) in E1 end.
        destruct (chn_sets s0 t (k_next s1) _) as [s2 x2| |] eqn:E2; try discriminate. injection E1 as <- <-.
        apply sets_eff in E2. destruct E2 as (_ & l & El & _ & Nl).
        assert (Hl : l = []). { apply (Nl flush). unfold flags. cbn. unfold upd. rewrite N.eqb_refl. reflexivity. }
        subst l. rewrite app_nil_r in El. exists (events_of c [KPostInit (k_next s1)]). cbn [klog k_log]. rewrite events_app, El.
        split; auto. cbn [created1 In deletes events_of filter ev_channel]. split.
        -- intros [<-|[]]. rewrite N.eqb_refl. reflexivity.
        -- destruct (N.eqb_spec (k_next s1) c); [subst; split; [intros Z; exfalso; apply Z; auto|split; intros Z; exfalso; apply Z; auto]|].
           split; [discriminate|]. split; auto.
      * eapply delete_log; eauto. apply Hd1. reflexivity.
      * unfold chn_activate in E1. destruct (k_body s1 c0); [|discriminate]. injection E1 as <- <-. apply nolog; auto.
      * unfold chn_deactivate in E1. destruct (k_body s1 c0); [|discriminate]. injection E1 as <- <-. apply nolog; auto.
      * destruct (chn_find s1 i) as [d|] eqn:Ef.
        -- apply find_some in Ef. destruct Ef as (-> & Ef). assert (Ex : x = KDone).
           { clear -E1. unfold chn_delete in E1. destruct (k_body s1 i); [|discriminate]. injection E1 as _ <-. reflexivity. }
           subst x. eapply delete_log; eauto.
        -- injection E1 as <- <-. apply nolog; auto.
      * destruct (chn_find s1 i) as [d|] eqn:Ef.
        -- unfold chn_activate in E1. destruct (k_body s1 d); [|discriminate]. injection E1 as <- <-. apply nolog; auto.
        -- injection E1 as <- <-. apply nolog; auto.
      * destruct (chn_find s1 i) as [d|] eqn:Ef.
        -- unfold chn_deactivate in E1. destruct (k_body s1 d); [|discriminate]. injection E1 as <- <-. apply nolog; auto.
        -- injection E1 as <- <-. apply nolog; auto.
Qed.

(* ---- histories ---- *)
Lemma init_kinv tr t0 : kinv t0 (k_init tr t0).
Proof.
  constructor; cbn; auto; try apply NoDup_nil; try contradiction; try discriminate.
  intro c. split; [intro H; exfalso; apply H; reflexivity|lia].
Qed.

Record kJ (t0 : N) (h : list call) (s : kst) : Prop := mkJ {
  j_inv : kinv t0 s;
  j_sub : forall c, In c (r_act (k_rt s)) -> In c (k_all s);
  j_all : forall c, In c (k_all s) <-> alive t0 c h = true;
  j_act : forall c, In c (r_act (k_rt s)) <-> active t0 c h = true;
  j_flag : forall c, In c (k_all s) -> option_map fst (flags s c) = Some (active t0 c h);
  j_created : created h = map N.of_nat (seq 0 (N.to_nat (k_next s)));
  j_life : forall c,
     (k_next s <= c -> events_of c (k_log s) = []) /\
     (In c (k_all s) -> exists m, events_of c (k_log s) = KPostInit c :: m /\ Forall ordinary m) /\
     (c < k_next s -> ~ In c (k_all s) -> exists m, events_of c (k_log s) = KPostInit c :: m ++ [KPreFinish c; KFinish c] /\ Forall ordinary m) }.

Lemma disc_change t0 s t o s' x c : kinv t0 s -> kop_ok s o -> kop_disc s o -> k_step s t o = KOk s' x -> change t0 c (t, o, x) = Some true -> In c (k_all s).
Proof.
  intros H (Hok1 & _) Hd E. unfold change. destruct (deletes t0 c (t, o, x)); [discriminate|].
  destruct o; try discriminate; try (destruct x; discriminate).
  - destruct (N.eqb_spec c0 c); [|discriminate]. subst. intros _. apply Hd. reflexivity.
  - destruct (N.eqb_spec c0 c); discriminate.
  - destruct x; try discriminate. destruct (N.eqb_spec i c); [|discriminate]. subst. intros _. specialize (Hok1 eq_refl).
    apply live_step in E; auto. cbn [k_run1] in E. destruct (chn_find (ensure s t) c) eqn:Ef; [|discriminate]. apply find_some in Ef. rewrite ensure_all in Ef. apply Ef.
  - destruct x; try discriminate. destruct (N.eqb_spec i c); discriminate.
Qed.
Lemma created_one k : created1 k = [] \/ exists c, created1 k = [c].
Proof. destruct k as [[t o] x]. destruct o; auto. destruct x; auto. destruct c; auto. right. cbn. eauto. Qed.

Lemma J_step t0 h s t o s' x : kJ t0 h s -> kop_ok s o -> kop_disc s o -> k_step s t o = KOk s' x -> kJ t0 (h ++ [(t, o, x)]) s'.
Proof.
  intros [J1 J2 J3 J4 J5 J6 J7] Hok Hd E. set (k := (t, o, x)).
  pose proof (step_eff t0 s t o s' x J1 Hok E) as F. fold k in F.
  assert (Hnew : forall c, In c (created1 k) -> ~ In c (k_all s)).
  { intros c Hc Hi. pose proof (ki_lt _ _ J1 c Hi). rewrite (e_new _ _ _ _ F c Hc) in H. lia. }
  assert (Hcd : forall c, In c (created1 k) -> change t0 c k = None).
  { intros c Hc. unfold k in *. destruct o; cbn in Hc; try contradiction. reflexivity. }
  assert (Hin : forall c, In c (k_all s') <-> In c (created1 k) \/ (In c (k_all s) /\ deletes t0 c k = false)).
  { intro c. rewrite (e_all _ _ _ _ F), in_app_iff, filter_In, negb_true_iff. tauto. }
  destruct (eff_inv t0 s s' k J1 F J2) as (I1 & I2).
  { intros c Hc. apply Hin. right. split; [eapply disc_change; eauto|]. unfold change in Hc. destruct (deletes t0 c k); [discriminate|auto]. }
  constructor; auto.
  - intro c. rewrite alive_snoc, Hin, J3. destruct (existsb (N.eqb c) (created1 k)) eqn:Ex.
    + apply existsb_In in Ex. tauto.
    + assert (~ In c (created1 k)) by (intro Z; apply existsb_In in Z; congruence). destruct (deletes t0 c k); intuition discriminate.
  - intro c. rewrite active_snoc, (e_act _ _ _ _ F c (J2 c)). destruct (change t0 c k) as [b|]; [reflexivity|apply J4].
  - intros c Hc. rewrite active_snoc, (e_flags _ _ _ _ F c Hc). destruct (existsb (N.eqb c) (created1 k)) eqn:Ex.
    + apply existsb_In in Ex. rewrite (Hcd c Ex). f_equal. symmetry. destruct (active t0 c h) eqn:Ea; auto. exfalso. apply (Hnew c Ex). apply J2, J4. auto.
    + destruct (change t0 c k) as [b|]; auto. apply J5. apply Hin in Hc. destruct Hc as [Hc|Hc]; [|apply Hc]. apply existsb_In in Hc. congruence.
  - unfold created in *. rewrite flat_map_app, J6, (e_next _ _ _ _ F). cbn [flat_map]. rewrite app_nil_r. destruct (created_one k) as [Ec|(c & Ec)].
    + rewrite Ec. cbn. rewrite app_nil_r. f_equal. f_equal. lia.
    + pose proof (e_new _ _ _ _ F c) as En. rewrite Ec in En |- *. specialize (En (or_introl eq_refl)). subst c. cbn [length].
      replace (N.to_nat (k_next s + N.of_nat 1)) with (N.to_nat (k_next s) + 1)%nat by lia. rewrite seq_app, map_app. cbn. rewrite N2Nat.id. reflexivity.
  - intro c. destruct (step_log t0 s t o s' x c J1 J2 Hok Hd E) as (l & L1 & L2 & L3 & L4 & L5). fold k in L2, L3, L4, L5.
    destruct (J7 c) as (K1 & K2 & K3). destruct (In_dec N.eq_dec c (created1 k)) as [Hc|Hc].
    + pose proof (e_new _ _ _ _ F c Hc) as En.
      assert (El : events_of c (k_log s') = [KPostInit c]) by (rewrite L1, (L2 Hc), (K1 ltac:(lia)); reflexivity).
      assert (Hi : In c (k_all s')) by (apply Hin; auto). split; [intro Z; pose proof (ki_lt _ _ I1 c Hi); lia|].
      split; [intros _; exists []; rewrite El; auto|]. intros _ Z. contradiction.
    + destruct (In_dec N.eq_dec c (k_all s)) as [Hi|Hi].
      * pose proof (ki_lt _ _ J1 c Hi). assert (k_next s <= k_next s') by (rewrite (e_next _ _ _ _ F); lia). split; [intro; lia|].
        destruct (K2 Hi) as (m & Em & Fm). destruct (deletes t0 c k) eqn:Ed.
        -- destruct (L3 Hc Hi eq_refl) as (m' & El & Fm'). split.
           ++ intro Z. apply Hin in Z. destruct Z as [Z|(_ & Z)]; [contradiction|congruence].
           ++ intros _ _. exists (m ++ m'). rewrite L1, Em, El. cbn. rewrite app_assoc. split; auto. apply Forall_app; auto.
        -- split.
           ++ intros _. exists (m ++ l). rewrite L1, Em. cbn. split; auto. apply Forall_app; auto.
           ++ intros _ Z. exfalso. apply Z, Hin. auto.
      * rewrite L1, (L5 Hc Hi), app_nil_r.
        assert (Hlt : c < k_next s' -> c < k_next s).
        { intro Hlt. rewrite (e_next _ _ _ _ F) in Hlt. destruct (created_one k) as [Ec|(d & Ec)]; rewrite Ec in Hlt; cbn in Hlt; [lia|].
          pose proof (e_new _ _ _ _ F d) as En. rewrite Ec in En, Hc. specialize (En (or_introl eq_refl)). subst d. assert (c <> k_next s) by (intros ->; apply Hc; left; auto). lia. }
        split; [intro; apply K1; rewrite (e_next _ _ _ _ F) in H; lia|]. split; [intro Z; apply Hin in Z; destruct Z as [Z|(Z & _)]; contradiction|].
        intros Z _. apply K3; auto.
Qed.
Lemma J_hist t0 h s : k_hist t0 h s -> kJ t0 h s.
Proof.
  induction 1.
  - constructor; cbn; auto; try contradiction; try discriminate; try (intro c; split; [contradiction|discriminate]); try apply init_kinv.
    intro c. split; auto. split; [contradiction|]. lia.
  - eapply J_step; eauto.
Qed.
