From Verif Require Import Base VariantModel VariantSpec TreeModel TreeSpec TreeProofs TreeProofs2
  RuntimeModel RuntimeSpec RuntimeProofs RuntimeProofs2 RuntimeProps2 RuntimeProps3 ChnModel ChnSpec ChnProofs ChnProofs2 ChnProofs3 ChnProofs4 ChnProofs5.

Lemma filter_filter {A} (f g : A -> bool) l : filter f (filter g l) = filter (fun x => g x && f x) l.
Proof. induction l as [|x l IH]; cbn; auto. destruct (g x); cbn; [destruct (f x); rewrite IH; reflexivity|auto]. Qed.
Lemma filter_ext_in' {A} (f g : A -> bool) l : (forall x, In x l -> f x = g x) -> filter f l = filter g l.
Proof. induction l as [|x l IH]; cbn; intro H; auto. rewrite (H x), IH; auto. Qed.

Record KJ (t0 : N) (h : list call) (s : kst) : Prop := mkKJ {
  kj_j : kJ t0 h s;
  kj_k : K h s;
  kj_all : k_all s = filter (fun c => alive t0 c h) (created h);
  kj_flush : forall c, c < k_next s -> option_map snd (flags s c) = Some (flush_of c h);
  kj_thr : k_live s = true -> forall t, exited t h = false -> (In t (k_thr s) <-> known t0 t h = true);
  kj_live : k_live s = true <-> existsb (fun k => match k with (_, KRelease, _) => true | (t, KThreadExit, _) => t =? t0 | _ => false end) h = false }.

(* flush flags *)
Lemma same_flush s s' c : same s s' -> option_map snd (flags s' c) = option_map snd (flags s c).
Proof. intro H. rewrite (sm_flags _ _ H). reflexivity. Qed.
Lemma step_flush t0 s t o s' x c : kinv t0 s -> (match o with KApi o => no_act o | _ => True end) -> k_step s t o = KOk s' x ->
  option_map snd (flags s' c) =
  match o with KCreate f _ _ _ _ _ _ => if c =? k_next s then Some f else option_map snd (flags s c) | _ => option_map snd (flags s c) end.
Proof.
  intros H Hn E.
  assert (Rel : forall s1, kinv t0 s1 -> k_release s1 t = KOk s' x -> option_map snd (flags s' c) = option_map snd (flags s1 c)).
  { intros s1 H1 E1. destruct (release_spec t0 s1 t H1) as (s2 & Er & A1 & A2 & _). rewrite Er in E1. injection E1 as <- <-. unfold flags. rewrite A2. reflexivity. }
  assert (Dact : forall s1 d s2 y, chn_activate s1 d = KOk s2 y -> option_map snd (flags s2 c) = option_map snd (flags s1 c)).
  { intros s1 d s2 y E1. unfold chn_activate in E1. destruct (k_body s1 d) as [b|] eqn:Eb; [|discriminate]. injection E1 as <- <-. unfold flags. cbn. unfold upd. destruct (N.eqb_spec c d); [subst; rewrite Eb|]; reflexivity. }
  assert (Ddea : forall s1 d s2 y, chn_deactivate s1 d = KOk s2 y -> option_map snd (flags s2 c) = option_map snd (flags s1 c)).
  { intros s1 d s2 y E1. unfold chn_deactivate in E1. destruct (k_body s1 d) as [b|] eqn:Eb; [|discriminate]. injection E1 as <- <-. unfold flags. cbn. unfold upd. destruct (N.eqb_spec c d); [subst; rewrite Eb|]; reflexivity. }
  assert (Ddel : forall s1 d s2 y, chn_delete s1 d = KOk s2 y -> option_map snd (flags s2 c) = option_map snd (flags s1 c)).
  { intros s1 d s2 y E1. unfold chn_delete in E1. destruct (k_body s1 d) as [b|] eqn:Eb; [|discriminate]. injection E1 as <- <-. reflexivity. }
  destruct (guarded o) eqn:Hg.
  - destruct o; try discriminate; cbn [k_step] in E.
    + injection E as <- <-. reflexivity.
    + destruct (k_live s); [|injection E as <- <-; reflexivity]. rewrite (Rel _ (ensure_inv t0 s t H) E). apply same_flush, ensure_same.
    + destruct (k_live s); [|injection E as <- <-; reflexivity]. unfold k_thread_exit in E. destruct (existsb _ _); [|injection E as <- <-; reflexivity].
      destruct (t =? k_main s); [apply Rel; auto|]. injection E as <- <-. reflexivity.
  - destruct (k_live s) eqn:HL; [|destruct o; try discriminate; cbn [k_step] in E; rewrite HL in E; discriminate].
    pose proof (live_step _ _ _ _ _ E Hg HL) as E1. clear E. pose proof (ensure_inv t0 s t H) as H1.
    rewrite <- (same_flush _ _ c (ensure_same s t)). rewrite <- (sm_next _ _ (ensure_same s t)).
    set (s1 := ensure s t) in *. clearbody s1. destruct (quiet_op o) eqn:Hq.
    + destruct (quiet_run t0 s1 t o s' x H1) as (S & _); auto. rewrite (same_flush _ _ c S). destruct o; try discriminate; reflexivity.
    + destruct o; try discriminate; cbn [k_run1] in E1; eauto.
      * unfold chn_create in E1. cbn zeta in E1.
        match type of E1 with (match chn_sets ?u _ _ _ with _ => _ end) = _ => set (s0 := u) in E1 end.
        destruct (chn_sets s0 t (k_next s1) _) as [s2 x2| |] eqn:E2; try discriminate. injection E1 as <- <-.
        apply sets_eff in E2. destruct E2 as (S & _). change (flags (klog s2 [KPostInit (k_next s1)]) c) with (flags s2 c). rewrite (same_flush _ _ c S).
        unfold s0, flags. cbn [k_body]. unfold upd. destruct (c =? k_next s1); reflexivity.
      * destruct (chn_find s1 i); eauto. injection E1 as <- <-. reflexivity.
      * destruct (chn_find s1 i); eauto. injection E1 as <- <-. reflexivity.
      * destruct (chn_find s1 i); eauto. injection E1 as <- <-. reflexivity.
Qed.

(* threads and the end of the library *)
Lemma same_thr_run t0 s t o s' x : kinv t0 s -> (match o with KApi o => no_act o | _ => True end) -> guarded o = false -> k_run1 s t o = KOk s' x ->
  k_thr s' = k_thr s /\ k_live s' = k_live s.
Proof.
  intros H Hn Hg E.
  assert (P : forall u c tr m, k_thr (put_chn u c tr m) = k_thr u /\ k_live (put_chn u c tr m) = k_live u) by (intros; unfold put_chn; destruct (k_body u c); auto).
  assert (F : forall u k c a v, k_thr (kfire u k t c a v) = k_thr u /\ k_live (kfire u k t c a v) = k_live u) by (intros; unfold kfire; destruct (k_body u c) as [b|]; auto; destruct (run_events a && b_active b); auto).
  assert (Set_ : forall u c a v u' y, chn_set u t c a v = KOk u' y -> k_thr u' = k_thr u /\ k_live u' = k_live u).
  { intros u c a v u' y E1. unfold chn_set in E1. destruct (k_body u c); [|discriminate]. unfold kcommit in E1. destruct (handle_set _ _ _ _ _); try discriminate. injection E1 as <- <-.
    destruct (P (kfire u PreSet t c a v) c tr m) as (-> & ->). apply F. }
  assert (Sets : forall l u c u' y, chn_sets u t c l = KOk u' y -> k_thr u' = k_thr u /\ k_live u' = k_live u).
  { induction l as [|[a v] l IH]; cbn; intros u c u' y E1; [injection E1 as <- <-; auto|]. destruct (chn_set u t c a v) as [u1 y1| |] eqn:E2; try discriminate.
    apply Set_ in E2. apply IH in E1. destruct E1 as (-> & ->). exact E2. }
  assert (Del : forall c, chn_delete s c = KOk s' x -> k_thr s' = k_thr s /\ k_live s' = k_live s) by (intro c; unfold chn_delete; destruct (k_body s c); [|discriminate]; intro Z; injection Z as <- <-; auto).
  assert (Act : forall c, chn_activate s c = KOk s' x -> k_thr s' = k_thr s /\ k_live s' = k_live s) by (intro c; unfold chn_activate; destruct (k_body s c); [|discriminate]; intro Z; injection Z as <- <-; auto).
  assert (Dea : forall c, chn_deactivate s c = KOk s' x -> k_thr s' = k_thr s /\ k_live s' = k_live s) by (intro c; unfold chn_deactivate; destruct (k_body s c); [|discriminate]; intro Z; injection Z as <- <-; auto).
  assert (Fl : forall c b, then_clear (chn_write s t c) b c = KOk s' x -> k_thr s' = k_thr s /\ k_live s' = k_live s).
  { intros c b. unfold then_clear, chn_write. destruct (k_body s c) eqn:Eb; [|discriminate]. destruct b; [unfold chn_clear; cbn; rewrite Eb|]; intro Z; injection Z as <- <-; auto. }
  destruct o; try discriminate; cbn [k_run1] in E; eauto.
  - unfold k_api in E. destruct (rt_step _ _ _); try discriminate. injection E as <- <-. auto.
  - unfold chn_create in E. cbn zeta in E. match type of E with (match chn_sets ?u _ _ _ with _ => _ end) = _ => set (s0 := u) in E end.
    destruct (chn_sets s0 t (k_next s) _) as [s2 x2| |] eqn:E2; try discriminate. injection E as <- <-. apply Sets in E2. exact E2.
  - unfold chn_begin in E. destruct (k_body s c); [|discriminate]. unfold kcommit in E. destruct (handle_begin _ _ _ _ _); try discriminate. injection E as <- <-.
    destruct (F (put_chn (kfire s PreBegin t c a v) c tr m) PostBegin c a v) as (-> & ->). destruct (P (kfire s PreBegin t c a v) c tr m) as (-> & ->). apply F.
  - unfold chn_end in E. destruct (k_body s c); [|discriminate]. cbn zeta in E. destruct (snd (load_current _ _ _ _)) as [[i v]|]; [|injection E as <- <-; auto].
    unfold kcommit in E. destruct (handle_end _ _ _ _ _ _); try discriminate. injection E as <- <-. destruct (P (kfire s PreEnd t c a v) c tr m) as (-> & ->). apply F.
  - unfold chn_get in E. destruct (k_body s c); [|discriminate]. injection E as <- <-. auto.
  - unfold chn_write in E. destruct (k_body s c); [|discriminate]. injection E as <- <-. auto.
  - injection E as <- <-. auto.
  - injection E as <- <-. auto.
  - injection E as <- <-. auto.
  - destruct (chn_find s i); eauto. injection E as <- <-. auto.
  - destruct (chn_find s i); eauto. injection E as <- <-. auto.
  - destruct (chn_find s i); eauto. injection E as <- <-. auto.
  - destruct (chn_find s i); injection E as <- <-; auto.
  - destruct (chn_find s 0); eauto. injection E as <- <-. auto.
  - destruct (chn_find s i); eauto. discriminate.
Qed.
Lemma ensure_thr s t u : In u (k_thr (ensure s t)) <-> In u (k_thr s) \/ u = t.
Proof.
  unfold ensure. destruct (existsb (N.eqb t) (k_thr s)) eqn:E.
  - split; auto. intros [H| ->]; auto. apply existsb_In in E. exact E.
  - cbn. rewrite in_app_iff. cbn. split; intros [H|H]; auto. destruct H as [->|[]]; auto. 
Qed.
Lemma ensure_live s t : k_live (ensure s t) = k_live s.
Proof. unfold ensure. destruct (existsb _ _); reflexivity. Qed.
Lemma known_snoc t0 t h k : known t0 t (h ++ [k]) = known t0 t h || ((fst (fst k) =? t) && uses (snd (fst k))).
Proof. unfold known. rewrite existsb_app. cbn. rewrite orb_false_r, orb_assoc. reflexivity. Qed.
Lemma exited_snoc t h k : exited t (h ++ [k]) = exited t h || match k with (t', KThreadExit, _) => t' =? t | _ => false end.
Proof. unfold exited. rewrite existsb_app. cbn. rewrite orb_false_r. reflexivity. Qed.
Definition endcall (t0 : N) (k : call) : bool := match k with (_, KRelease, _) => true | (t, KThreadExit, _) => t =? t0 | _ => false end.
Lemma step_thr t0 s t o s' x : kinv t0 s -> (match o with KApi o => no_act o | _ => True end) -> (guarded o = false -> k_live s = true) -> k_step s t o = KOk s' x ->
  (k_live s' = true <-> k_live s = true /\ endcall t0 (t, o, x) = false) /\
  (k_live s' = true -> forall u, In u (k_thr s') <-> (In u (k_thr s) \/ (uses o = true /\ u = t)) /\ (o = KThreadExit -> u <> t \/ ~ In t (k_thr s)) \/ (o = KThreadExit /\ u = t /\ In u (remove1 t (k_thr s)))).
Proof.
  intros H Hn Hok E. destruct (guarded o) eqn:Hg.
  - destruct o; try discriminate; cbn [k_step] in E; cbn [endcall uses].
    + injection E as <- <-. split; [tauto|]. intros _ u. split; [intro; left; split; auto; discriminate|]. intros [([Z|(Z & _)] & _)|(Z & _)]; auto; discriminate.
    + destruct (k_live s) eqn:HL.
      * destruct (release_spec t0 _ t (ensure_inv t0 s t H)) as (s2 & Er & A1 & A2 & A3 & A4 & A5 & A6 & _). rewrite Er in E. injection E as <- <-. rewrite A6. split; [|discriminate]. split; [discriminate|intros (_ & Z); discriminate].
      * injection E as <- <-. rewrite HL. split; [split; [discriminate|intros (Z & _); discriminate]|discriminate].
    + destruct (k_live s) eqn:HL.
      * unfold k_thread_exit in E. rewrite (ki_main _ _ H) in E. destruct (existsb (N.eqb t) (k_thr s)) eqn:Et.
        -- destruct (N.eqb_spec t t0).
           ++ destruct (release_spec t0 _ t H) as (s2 & Er & A1 & A2 & A3 & A4 & A5 & A6 & _). rewrite Er in E. injection E as <- <-. rewrite A6. split; [|discriminate]. split; [discriminate|intros (_ & Z); discriminate].
           ++ injection E as <- <-. cbn [klog with_thr k_live k_thr]. rewrite HL. split; [tauto|]. intros _ u. destruct (N.eq_dec u t).
              ** subst u. split; [intro Z; right; auto|]. intros [(_ & Z)|(_ & _ & Z)]; auto. destruct (Z eq_refl) as [Y|Y]; [contradiction|]. apply existsb_In in Et. contradiction.
              ** split; [intro Z; left; split; [left; eapply remove1_in; eauto|auto]|]. intros [([Z|(Z & _)] & _)|(_ & Z & _)]; [apply remove1_in2; auto|discriminate|contradiction].
        -- injection E as <- <-. rewrite HL. assert (Hne : t <> t0).
           { intros ->. pose proof (ki_thr _ _ H HL) as Z. apply existsb_In in Z. congruence. }
           split; [destruct (N.eqb_spec t t0); [contradiction|tauto]|]. intros _ u. assert (~ In t (k_thr s)) by (intro Z; apply existsb_In in Z; congruence).
           split; [intro; left; split; auto|]. intros [([Z|(Z & _)] & _)|(_ & Z1 & Z)]; auto; [discriminate|eapply remove1_in; eauto].
      * injection E as <- <-. rewrite HL. split; [split; [discriminate|intros (Z & _); discriminate]|discriminate].
  - specialize (Hok eq_refl). pose proof (live_step _ _ _ _ _ E Hg Hok) as E1. destruct (same_thr_run t0 _ t o s' x (ensure_inv t0 s t H) Hn Hg E1) as (A1 & A2).
    rewrite A2, ensure_live. assert (Eu : uses o = true) by (destruct o; try discriminate; reflexivity).
    assert (Ee : endcall t0 (t, o, x) = false) by (destruct o; try discriminate; reflexivity). rewrite Ee, Eu, A1. split; [tauto|]. intros _ u. rewrite ensure_thr.
    assert (o <> KThreadExit) by (intros ->; discriminate). split.
    + intros [Z|Z]; left; split; auto; intro; contradiction.
    + intros [([Z|(_ & Z)] & _)|(Z & _)]; auto; contradiction.
Qed.

Lemma alive_step t0 c h k : ~ In c (created1 k) -> alive t0 c (h ++ [k]) = if deletes t0 c k then false else alive t0 c h.
Proof. intro Hc. rewrite alive_snoc. destruct (existsb (N.eqb c) (created1 k)) eqn:E; auto. apply existsb_In in E. contradiction. Qed.

Lemma KJ_step t0 h s t o s' x : KJ t0 h s -> exited t h = false -> kop_ok s o -> kop_disc s o -> k_step s t o = KOk s' x -> not_full (r_tree (k_rt s')) ->
  KJ t0 (h ++ [(t, o, x)]) s' /\ chn_out h t o x.
Proof.
  intros [J KK HA HF HT HLv] Hex Hok Hd E Hnf. pose proof (j_inv _ _ _ J) as I.
  pose proof (step_eff t0 s t o s' x I Hok E) as F. pose proof (J_step _ _ _ _ _ _ _ J Hok Hd E) as J'.
  destruct (K_step t0 h s t o s' x I KK Hok E Hnf) as (KK' & Ho). split; auto.
  assert (Hna : match o with KApi o => no_act o | _ => True end) by (destruct Hok as (_ & _ & _ & Hok); destruct o; auto; apply Hok).
  destruct (step_thr t0 s t o s' x I Hna (proj1 Hok) E) as (T1 & T2).
  assert (Hend : existsb (fun k => match k with (_, KRelease, _) => true | (t, KThreadExit, _) => t =? t0 | _ => false end) (h ++ [(t, o, x)]) =
     existsb (fun k => match k with (_, KRelease, _) => true | (t, KThreadExit, _) => t =? t0 | _ => false end) h || endcall t0 (t, o, x)).
  { rewrite existsb_app. cbn [existsb]. rewrite orb_false_r. reflexivity. }
  constructor; auto.
  - rewrite (e_all _ _ _ _ F), HA. unfold created. rewrite flat_map_app, filter_app. cbn [flat_map]. rewrite app_nil_r. f_equal.
    + rewrite filter_filter. apply filter_ext_in'. intros c Hc. change (flat_map created1 h) with (created h) in Hc. rewrite (j_created _ _ _ J) in Hc.
      apply in_map_iff in Hc. destruct Hc as (i & <- & Hi). apply in_seq in Hi. rewrite alive_step.
      * destruct (deletes t0 (N.of_nat i) (t, o, x)); [rewrite andb_false_r|rewrite andb_true_r]; reflexivity.
      * intro Hc. pose proof (e_new _ _ _ _ F _ Hc). lia.
    + destruct (created_one (t, o, x)) as [Ec|(c & Ec)]; rewrite Ec; [reflexivity|]. cbn [filter]. rewrite alive_snoc, Ec. cbn [existsb]. rewrite N.eqb_refl. reflexivity.
  - intros c Hc. rewrite (step_flush t0 s t o s' x c I Hna E). unfold flush_of. rewrite fold_left_app. cbn [fold_left]. fold (flush_of c h).
    assert (Hlt : created1 (t, o, x) = [] -> c < k_next s). { intro Z. rewrite (e_next _ _ _ _ F), Z in Hc. cbn in Hc. lia. }
    destruct o; cbn [flush_call]; try (apply HF, Hlt; reflexivity).
    assert (Ex : x = KChn (Some (k_next s))).
    { pose proof (live_step _ _ _ _ _ E eq_refl (proj1 Hok eq_refl)) as E1. cbn [k_run1] in E1. unfold chn_create in E1. cbn zeta in E1. destruct (chn_sets _ _ _ _); try discriminate. injection E1 as _ <-.
      rewrite (sm_next _ _ (ensure_same s t)). reflexivity. }
    subst x. rewrite (N.eqb_sym (k_next s) c). destruct (N.eqb_spec c (k_next s)); [reflexivity|]. apply HF. rewrite (e_next _ _ _ _ F) in Hc. cbn in Hc. lia.
  - intros HL u Hu. rewrite exited_snoc in Hu. apply orb_false_iff in Hu. destruct Hu as (Hu1 & Hu2). apply T1 in HL as HL'. destruct HL' as (HL0 & _).
    rewrite (T2 HL u), known_snoc. cbn [fst snd]. specialize (HT HL0 u Hu1). rewrite orb_true_iff, andb_true_iff, N.eqb_eq, <- HT.
    assert (Ht : o = KThreadExit -> u <> t). { intros ->. apply N.eqb_neq in Hu2. auto. }
    split.
    + intros [([Z|(Z1 & Z2)] & _)|(Z1 & Z2 & _)]; auto. exfalso. apply (Ht Z1 Z2).
    + intros [Z|(Z1 & Z2)]; left; split; auto.
  - rewrite Hend, orb_false_iff, T1, HLv. tauto.
Qed.
Lemma KJ_hist t0 h s : k_hist t0 h s -> KJ t0 h s.
Proof.
  induction 1.
  - assert (Hi : inv tr) by (eapply init_inv; eauto).
    constructor; cbn; auto; try lia.
    + apply J_hist. econstructor; eauto.
    + apply K_init; auto.
    + intros _ t _. unfold known. cbn. rewrite orb_false_r, N.eqb_eq. split; [intros [<-|[]]; auto|auto].
    (* live *)
  - eapply KJ_step; eauto.
Qed.
