From Verif Require Import Base VariantModel VariantSpec TreeModel TreeSpec TreeProofs TreeProofs2
  RuntimeModel RuntimeSpec RuntimeProofs RuntimeProofs2 RuntimeProps2 RuntimeProps3 ChnModel ChnSpec.

(* ---- structural part ---- *)
Definition flags (s : kst) (c : N) : option (bool * bool) := option_map (fun b => (b_active b, b_flush b)) (k_body s c).
Record same (s s' : kst) : Prop := mksame {
  sm_next : k_next s' = k_next s; sm_all : k_all s' = k_all s; sm_thr : In (k_main s) (k_thr s) -> In (k_main s) (k_thr s');
  sm_main : k_main s' = k_main s; sm_live : k_live s' = k_live s; sm_act : r_act (k_rt s') = r_act (k_rt s);
  sm_flags : forall c, flags s' c = flags s c }.
Lemma same_refl s : same s s. Proof. constructor; auto. Qed.
Lemma same_trans a b c : same a b -> same b c -> same a c.
Proof. intros [A1 A2 A0 A3 A4 A5 A6] [B1 B2 B0 B3 B4 B5 B6]. constructor; try congruence. intro H. rewrite <- A3. apply B0. rewrite A3. auto. Qed.
Lemma same_klog s l : same s (klog s l). Proof. constructor; auto. Qed.
Lemma same_kfire s k t c a v : same s (kfire s k t c a v).
Proof. unfold kfire. destruct (k_body s c) as [b|]; [|apply same_refl]. destruct (run_events a && b_active b); [apply same_klog|apply same_refl]. Qed.
Lemma same_put s c tr m : same s (put_chn s c tr m).
Proof.
  unfold put_chn. destruct (k_body s c) as [b|] eqn:E; [|apply same_refl]. constructor; auto. intro d. unfold flags. cbn. unfold upd.
  destruct (N.eqb_spec d c); [subst; rewrite E; reflexivity|reflexivity].
Qed.
Lemma kfire_log s k t c a v : exists l, k_log (kfire s k t c a v) = k_log s ++ l /\ Forall (fun e => ordinary e /\ ev_channel e = c) l /\
  (forall f, flags s c = Some (false, f) -> l = []).
Proof.
  unfold kfire, flags. destruct (k_body s c) as [b|]; [|exists []; rewrite app_nil_r; auto].
  destruct (run_events a); cbn [andb].
  - destruct (b_active b) eqn:E.
    + eexists; split; [reflexivity|]. split; [repeat constructor|]. cbn. rewrite E. intros f H. discriminate.
    + exists []. rewrite app_nil_r. auto.
  - exists []. rewrite app_nil_r. auto.
Qed.
Lemma put_log s c tr m : k_log (put_chn s c tr m) = k_log s.
Proof. unfold put_chn. destruct (k_body s c); reflexivity. Qed.
Lemma kfire_rt s k t c a v : k_rt (kfire s k t c a v) = k_rt s.
Proof. unfold kfire. destruct (k_body s c) as [b|]; auto. destruct (_ && _); auto. Qed.
Lemma kfire_body s k t c a v : k_body (kfire s k t c a v) = k_body s.
Proof. unfold kfire. destruct (k_body s c) as [b|]; auto. destruct (_ && _); auto. Qed.

(* effects of a channel update: only the channel's context, the tree, and callbacks of the channel *)
Definition chn_eff (s s' : kst) (c : N) : Prop :=
  same s s' /\ exists l, k_log s' = k_log s ++ l /\ Forall (fun e => ordinary e /\ ev_channel e = c) l /\
  (forall f, flags s c = Some (false, f) -> l = []).
Lemma eff_refl s c : chn_eff s s c.
Proof. split; [apply same_refl|]. exists []. rewrite app_nil_r. auto. Qed.
Lemma eff_trans a b d c : chn_eff a b c -> chn_eff b d c -> chn_eff a d c.
Proof.
  intros (S1 & l1 & E1 & F1 & N1) (S2 & l2 & E2 & F2 & N2). split; [eapply same_trans; eauto|].
  exists (l1 ++ l2). rewrite E2, E1, app_assoc. split; auto. split; [apply Forall_app; auto|].
  intros f H. rewrite (N1 f H). apply (N2 f). rewrite (sm_flags _ _ S1). exact H.
Qed.
Lemma eff_kfire s k t c a v : chn_eff s (kfire s k t c a v) c.
Proof. split; [apply same_kfire|apply kfire_log]. Qed.
Lemma eff_put s c tr m : chn_eff s (put_chn s c tr m) c.
Proof. split; [apply same_put|]. exists []. rewrite put_log, app_nil_r. auto. Qed.

Lemma set_eff s t c a v s' x : chn_set s t c a v = KOk s' x -> chn_eff s s' c /\ x = KDone.
Proof.
  unfold chn_set. destruct (k_body s c) as [b|]; [|discriminate]. unfold kcommit. destruct (handle_set _ _ _ _ _); try discriminate.
  intro H. injection H as <- <-. split; auto. eapply eff_trans; [apply eff_kfire|apply eff_put].
Qed.
Lemma begin_eff s t c a v s' x : chn_begin s t c a v = KOk s' x -> chn_eff s s' c /\ x = KDone.
Proof.
  unfold chn_begin. destruct (k_body s c) as [b|]; [|discriminate]. unfold kcommit. destruct (handle_begin _ _ _ _ _); try discriminate.
  intro H. injection H as <- <-. split; auto. eapply eff_trans; [apply eff_kfire|]. eapply eff_trans; [apply eff_put|apply eff_kfire].
Qed.
Lemma end_eff s t c a s' x : chn_end s t c a = KOk s' x -> chn_eff s s' c.
Proof.
  unfold chn_end. destruct (k_body s c) as [b|]; [|discriminate]. cbn zeta.
  destruct (snd (load_current _ _ _ _)) as [[i v]|].
  - unfold kcommit. destruct (handle_end _ _ _ _ _ _); try discriminate.
    intro H. injection H as <- <-. eapply eff_trans; [apply eff_kfire|apply eff_put].
  - intro H. injection H as <- <-. split; [constructor; auto|]. exists []. cbn. rewrite app_nil_r. auto.
Qed.
Lemma sets_eff l : forall s t c s' x, chn_sets s t c l = KOk s' x -> chn_eff s s' c.
Proof.
  induction l as [|[a v] l IH]; cbn; intros s t c s' x H; [injection H as <- <-; apply eff_refl|].
  destruct (chn_set s t c a v) as [s1 x1| |] eqn:E; try discriminate. apply set_eff in E. destruct E as (E & _).
  eapply eff_trans; [exact E|eapply IH; eauto].
Qed.

(* the annotation interface *)
Lemma fire_chn s k t a v : r_act (fire s k t a v) = r_act s.
Proof. unfold fire. destruct (run_events a); reflexivity. Qed.
Lemma put_act' s t a tr m : r_act (put_bb s t a tr m) = r_act s.
Proof. unfold put_bb. destruct (scope_of a); reflexivity. Qed.
Lemma put_log' s t a tr m : r_log (put_bb s t a tr m) = r_log s.
Proof. unfold put_bb. destruct (scope_of a); reflexivity. Qed.
Lemma fire_log' s k t a v : exists l, r_log (fire s k t a v) = r_log s ++ l /\ Forall (fun e => In (ev_chn e) (r_act s)) l.
Proof.
  unfold fire. destruct (run_events a); [|exists []; rewrite app_nil_r; auto]. eexists; split; [reflexivity|].
  apply Forall_forall. intros e H. apply in_map_iff in H. destruct H as (c & <- & H). exact H.
Qed.
Definition api_eff (s s' : rt) : Prop :=
  r_act s' = r_act s /\ exists l, r_log s' = r_log s ++ l /\ Forall (fun e => In (ev_chn e) (r_act s)) l.
Lemma ae_refl s : api_eff s s. Proof. split; auto. exists []. rewrite app_nil_r. auto. Qed.
Lemma ae_trans a b c : api_eff a b -> api_eff b c -> api_eff a c.
Proof.
  intros (A1 & l1 & A2 & A3) (B1 & l2 & B2 & B3). split; [congruence|]. exists (l1 ++ l2). rewrite B2, A2, app_assoc. split; auto.
  apply Forall_app. split; auto. rewrite A1 in B3. exact B3.
Qed.
Lemma ae_fire s k t a v : api_eff s (fire s k t a v). Proof. split; [apply fire_chn|apply fire_log']. Qed.
Lemma ae_put s t a tr m : api_eff s (put_bb s t a tr m).
Proof. split; [apply put_act'|]. exists []. rewrite put_log', app_nil_r. auto. Qed.
Lemma ae_err s t : api_eff s (set_err s t). Proof. split; auto. exists []. cbn. rewrite app_nil_r. auto. Qed.
Lemma api_step s t o s' x : no_act o -> rt_step s t o = SOk s' x -> api_eff s s'.
Proof.
  assert (EC : forall s t a cur s' o', end_commit s t a cur = SOk s' o' -> api_eff s s').
  { intros s0 t0 a cur s1 o1. unfold end_commit. destruct (snd cur) as [[? v]|]; [|discriminate]. unfold commit.
    destruct (handle_end _ _ _ _ _ _) as [tr m|tr|] eqn:E; [|discriminate|discriminate]. intro H. injection H as <- <-.
    eapply ae_trans; [apply ae_fire|apply ae_put]. }
  intro Hn. destruct o; cbn [rt_step no_act] in *; try contradiction.
  - unfold rt_begin. destruct (r_err s t); [intro H; injection H as <- <-; apply ae_refl|].
    destruct (scope_of a) eqn:Es.
    3:{ intro H. injection H as <- <-. eapply ae_trans; apply ae_fire. }
    all: unfold commit; destruct (handle_begin _ _ _ _ _) as [tr m|tr|] eqn:E; [|discriminate|discriminate];
      intro H; injection H as <- <-; eapply ae_trans; [apply ae_fire|eapply ae_trans; [apply ae_put|apply ae_fire]].
  - unfold rt_end. destruct (r_err s t); [intro H; injection H as <- <-; apply ae_refl|].
    destruct (scope_of a); cbn zeta; try (destruct (snd (end_load s t a)) as [e|]; [apply EC|]); intro H; injection H as <- <-; first [apply ae_err|apply ae_refl].
  - unfold rt_end_check. destruct (r_err s t); [intro H; injection H as <- <-; apply ae_refl|].
    destruct (scope_of a); cbn zeta; try (destruct (snd (end_load s t a)) as [[e w]|]; [destruct (veqb v w); [apply EC|]|]); intro H; injection H as <- <-; first [apply ae_err|apply ae_refl].
  - unfold rt_set. destruct (r_err s t); [intro H; injection H as <- <-; apply ae_refl|].
    destruct (scope_of a) eqn:Es.
    3:{ intro H. injection H as <- <-. apply ae_fire. }
    all: unfold commit; destruct (handle_set _ _ _ _ _) as [tr m|tr|] eqn:E; [|discriminate|discriminate];
      intro H; injection H as <- <-; eapply ae_trans; [apply ae_fire|apply ae_put].
  - intro H; injection H as <- <-; apply ae_refl.
  - destruct (tstep (r_tree s) t o) as [[r tr]|] eqn:E; [|discriminate]. intro H; injection H as <- <-. split; auto. exists []. cbn. rewrite app_nil_r. auto.
Qed.

(* ---- contexts ---- *)
Record krel (s : kst) (a : ast) (cx : N -> actx) : Prop := mkkrel {
  kr_rt : rel (k_rt s) a;
  kr_log : a_log a = [];
  kr_bb : forall c b, k_body s c = Some b -> NoDup (keys (b_bb b)) /\ bbrel (r_tree (k_rt s)) (b_bb b) (cx c) }.

Definition a_drop (a : ast) : ast := mkast (a_thr a) (a_proc a) (a_err a) (a_act a) [].
Lemma rel_drop r a : rel r a -> rel (drop_log r) (a_drop a).
Proof. intros [H1 H2 H3 H4 H5 H6]. constructor; auto. Qed.
Lemma rel_tree r a tr : rel r a -> inv tr -> ext (r_tree r) tr -> rel (with_tree r tr) a.
Proof.
  intros [H1 H2 H3 H4 H5 H6] Hi He. constructor; cbn; auto.
  - intro t'. destruct (H2 t'). split; auto. eapply bbrel_ext; eauto.
  - destruct H3. split; auto. eapply bbrel_ext; eauto.
Qed.
Lemma krel_klog s a cx l : krel s a cx -> krel (klog s l) a cx.
Proof. intros [H1 H2 H3]. constructor; auto. Qed.
Lemma krel_kfire s a cx k t c x v : krel s a cx -> krel (kfire s k t c x v) a cx.
Proof.
  intro H. unfold kfire. destruct (k_body s c); auto. destruct (_ && _); auto. apply krel_klog; auto.
Qed.
Lemma krel_put s a cx c tr m x b : krel s a cx -> k_body s c = Some b -> inv tr -> ext (r_tree (k_rt s)) tr -> NoDup (keys m) -> bbrel tr m x ->
  krel (put_chn s c tr m) a (upd cx c x).
Proof.
  intros [H1 H2 H3] Eb Hi He Hn Hb. unfold put_chn. rewrite Eb. constructor; cbn; auto.
  - apply rel_tree; auto.
  - intros d b'. unfold upd. destruct (N.eqb_spec d c).
    + intro E. injection E as <-. cbn. auto.
    + intro E. destruct (H3 d b' E). split; auto. eapply bbrel_ext; eauto.
Qed.
(* the result of kcommit *)
Lemma krel_commit s a cx c b h k x s' o : krel s a cx -> k_body s c = Some b -> hok (r_tree (k_rt s)) h x ->
  kcommit s c h k = KOk s' o -> exists tr m, k (put_chn s c tr m) = KOk s' o /\
    (not_full tr -> krel (put_chn s c tr m) a (upd cx c x) /\ ext (r_tree (k_rt s)) tr).
Proof.
  intros H Eb Hh. unfold kcommit. destruct h as [tr m|tr|]; try discriminate. intro E. exists tr, m. split; auto.
  intro Hnf. cbn in Hh. destruct Hh as (Hi & He & Hn & Hb). split; auto. eapply krel_put; eauto.
Qed.
Lemma put_chn_tree s c tr m b : k_body s c = Some b -> r_tree (k_rt (put_chn s c tr m)) = tr.
Proof. intro E. unfold put_chn. rewrite E. reflexivity. Qed.

Lemma upd_ctx_id (cx : N -> actx) a s : krel s a cx -> forall cx', (forall c, cx' c = cx c) -> krel s a cx'.
Proof. intros [H1 H2 H3] cx' E. constructor; auto. intros c b Hb. rewrite E. auto. Qed.

Definition kstep_ok (s s' : kst) (a : ast) (cx cx' : N -> actx) (a' : ast) : Prop :=
  krel s' a' cx' /\ ext (r_tree (k_rt s)) (r_tree (k_rt s')).

Lemma set_ctx s a cx t c x v s' o : krel s a cx -> attr_ok (r_tree (k_rt s)) x -> chn_set s t c x v = KOk s' o -> not_full (r_tree (k_rt s')) ->
  krel s' a (upd cx c (c_set (cx c) x v)) /\ ext (r_tree (k_rt s)) (r_tree (k_rt s')).
Proof.
  intros H Hx. unfold chn_set. destruct (k_body s c) as [b|] eqn:Eb; [|discriminate]. intros E Hnf.
  destruct (kr_bb _ _ _ H c b Eb) as (Hn & Hb).
  pose proof (handle_set_ok _ t x v _ _ (rl_inv _ _ (kr_rt _ _ _ H)) Hn Hb Hx) as Hh.
  pose proof (krel_kfire s a cx PreSet t c x v H) as H1.
  assert (Eb1 : k_body (kfire s PreSet t c x v) c = Some b) by (rewrite kfire_body; auto).
  rewrite <- (kfire_rt s PreSet t c x v) in Hh at 1.
  destruct (krel_commit _ _ _ _ _ _ _ _ _ _ H1 Eb1 Hh E) as (tr & m & E2 & H2). injection E2 as <- <-.
  rewrite (put_chn_tree _ _ _ _ _ Eb1) in *. destruct (H2 Hnf) as (H3 & H4). rewrite kfire_rt in H4. auto.
Qed.
Lemma begin_ctx s a cx t c x v s' o : krel s a cx -> attr_ok (r_tree (k_rt s)) x -> chn_begin s t c x v = KOk s' o -> not_full (r_tree (k_rt s')) ->
  krel s' a (upd cx c (c_begin (cx c) x v)) /\ ext (r_tree (k_rt s)) (r_tree (k_rt s')).
Proof.
  intros H Hx. unfold chn_begin. destruct (k_body s c) as [b|] eqn:Eb; [|discriminate]. intros E Hnf.
  destruct (kr_bb _ _ _ H c b Eb) as (Hn & Hb).
  pose proof (handle_begin_ok _ t x v _ _ (rl_inv _ _ (kr_rt _ _ _ H)) Hn Hb Hx) as Hh.
  pose proof (krel_kfire s a cx PreBegin t c x v H) as H1.
  assert (Eb1 : k_body (kfire s PreBegin t c x v) c = Some b) by (rewrite kfire_body; auto).
  rewrite <- (kfire_rt s PreBegin t c x v) in Hh at 1.
  destruct (krel_commit _ _ _ _ _ _ _ _ _ _ H1 Eb1 Hh E) as (tr & m & E2 & H2). injection E2 as <- <-.
  rewrite kfire_rt, (put_chn_tree _ _ _ _ _ Eb1) in *. destruct (H2 Hnf) as (H3 & H4). split; auto.
  apply krel_kfire; auto.
Qed.
Lemma krel_err s a cx t : krel s a cx -> krel (with_rt s (set_err (k_rt s) t)) (a_fail a t) cx.
Proof. intros [H1 H2 H3]. constructor; auto. cbn. apply rel_err_set; auto. Qed.
Lemma end_ctx s a cx t c x s' o : krel s a cx -> attr_ok (r_tree (k_rt s)) x -> chn_end s t c x = KOk s' o -> not_full (r_tree (k_rt s')) ->
  match c_open (cx c) x with
  | Some v => o = KDone /\ krel s' a (upd cx c (c_end (cx c) x))
  | None => o = KErr /\ krel s' (a_fail a t) cx
  end /\ ext (r_tree (k_rt s)) (r_tree (k_rt s')).
Proof.
  intros H Hx. unfold chn_end. destruct (k_body s c) as [b|] eqn:Eb; [|discriminate]. cbn zeta. intros E Hnf.
  destruct (kr_bb _ _ _ H c b Eb) as (Hn & Hb). pose proof (rl_inv _ _ (kr_rt _ _ _ H)) as Hi.
  pose proof (load_spec _ x _ _ Hi Hb Hx) as HL. destruct (c_open (cx c) x) as [v|] eqn:Eo.
  - destruct HL as (i & w & j & EL & _). pose proof (handle_end_ok _ t x _ _ v Hi Hn Hb Hx Eo) as Hh.
    rewrite EL in Hh, E. cbn [snd] in E.
    pose proof (krel_kfire s a cx PreEnd t c x v H) as H1.
    assert (Eb1 : k_body (kfire s PreEnd t c x v) c = Some b) by (rewrite kfire_body; auto).
    rewrite <- (kfire_rt s PreEnd t c x v) in Hh at 1.
    destruct (krel_commit _ _ _ _ _ _ _ _ _ _ H1 Eb1 Hh E) as (tr & m & E2 & H2). injection E2 as <- <-.
    rewrite (put_chn_tree _ _ _ _ _ Eb1) in *. destruct (H2 Hnf) as (H3 & H4). rewrite kfire_rt in H4. auto.
  - rewrite HL in E. injection E as <- <-. split; [split; auto; apply krel_err; auto|apply ext_refl].
Qed.
Lemma handle_mono (s : kst) (c : N) b h k s' o : k_body s c = Some b -> kcommit s c h k = KOk s' o ->
  exists tr m, h = HOk tr m /\ k (put_chn s c tr m) = KOk s' o.
Proof. unfold kcommit. destruct h; try discriminate. eauto. Qed.
Lemma set_mono s t c x v s' o : chn_set s t c x v = KOk s' o -> mono (r_tree (k_rt s)) (r_tree (k_rt s')).
Proof.
  unfold chn_set. destruct (k_body s c) as [b|] eqn:Eb; [|discriminate]. intro E.
  assert (Eb1 : k_body (kfire s PreSet t c x v) c = Some b) by (rewrite kfire_body; auto).
  destruct (handle_mono _ _ _ _ _ _ _ Eb1 E) as (tr & m & Eh & E2). injection E2 as <- <-. rewrite (put_chn_tree _ _ _ _ _ Eb1).
  eapply handle_mono_set; eauto.
Qed.
Lemma sets_mono l : forall s t c s' o, chn_sets s t c l = KOk s' o -> mono (r_tree (k_rt s)) (r_tree (k_rt s')).
Proof.
  induction l as [|[x v] l IH]; cbn; intros s t c s' o E; [injection E as <- <-; apply mono_refl|].
  destruct (chn_set s t c x v) as [s1 x1| |] eqn:E1; try discriminate. eapply mono_trans; [eapply set_mono; eauto|eauto].
Qed.
Lemma sets_ctx l : forall s a cx t c s' o, krel s a cx -> Forall (fun p => attr_ok (r_tree (k_rt s)) (fst p)) l ->
  chn_sets s t c l = KOk s' o -> not_full (r_tree (k_rt s')) ->
  krel s' a (upd cx c (fold_left (fun x p => c_set x (fst p) (snd p)) l (cx c))) /\ ext (r_tree (k_rt s)) (r_tree (k_rt s')).
Proof.
  induction l as [|[x v] l IH]; cbn [chn_sets fold_left fst snd]; intros s a cx t c s' o H Hf E Hnf.
  - injection E as <- <-. split; [|apply ext_refl]. eapply upd_ctx_id; eauto. intro d. unfold upd. destruct (N.eqb_spec d c); subst; auto.
  - destruct (chn_set s t c x v) as [s1 x1| |] eqn:E1; try discriminate. inversion Hf as [|? ? Hx Hf']; subst. cbn in Hx.
    assert (Hnf1 : not_full (r_tree (k_rt s1))) by (eapply mono_nf; eauto using sets_mono).
    destruct (set_ctx _ _ _ _ _ _ _ _ _ H Hx E1 Hnf1) as (H1 & He1).
    assert (Hf1 : Forall (fun p => attr_ok (r_tree (k_rt s1)) (fst p)) l).
    { eapply Forall_impl; [|exact Hf']. intros p Hp. eapply attr_ok_ext; eauto. }
    destruct (IH _ _ _ _ _ _ _ H1 Hf1 E Hnf) as (H2 & He2). split; [|eapply ext_trans; eauto].
    eapply upd_ctx_id; eauto. intro d. unfold upd. rewrite N.eqb_refl. destruct (N.eqb_spec d c); auto.
Qed.
