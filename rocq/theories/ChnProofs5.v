From Verif Require Import Base VariantModel VariantSpec TreeModel TreeSpec TreeProofs TreeProofs2
  RuntimeModel RuntimeSpec RuntimeProofs RuntimeProofs2 RuntimeProps2 RuntimeProps3 ChnModel ChnSpec ChnProofs ChnProofs2 ChnProofs3 ChnProofs4.

Definition a_with (a : ast) (act : list N) : ast := mkast (a_thr a) (a_proc a) (a_err a) act [].
Lemma a_with2 a l l' : a_with (a_with a l) l' = a_with a l'. Proof. reflexivity. Qed.
Lemma fire_with a l k t x v : a_with (a_fire a k t x v) l = a_with a l.
Proof. unfold a_fire. destruct (run_events x); reflexivity. Qed.
Lemma put_with a l t x c : a_with (a_put a t x c) l = a_put (a_with a l) t x c.
Proof. unfold a_put. destruct (scope_of x); reflexivity. Qed.
Lemma ctx_with a l t x : a_ctx (a_with a l) t x = a_ctx a t x.
Proof. unfold a_ctx. destruct (scope_of x); reflexivity. Qed.
Lemma ctx_fire a k t x v : a_ctx (a_fire a k t x v) t x = a_ctx a t x.
Proof. unfold a_fire. destruct (run_events x); reflexivity. Qed.
Lemma close_with a l t x ok : a_with (fst (a_close (a_with a l) t x ok)) l = a_with (fst (a_close a t x ok)) l /\
  snd (a_close (a_with a l) t x ok) = snd (a_close a t x ok).
Proof.
  unfold a_close. cbn [a_with a_err]. destruct (a_err a t); [auto|]. destruct (is_other x); [auto|]. rewrite ctx_with.
  destruct (c_open (a_ctx a t x) x) as [w|]; [|auto]. destruct (ok w); [|auto]. cbn [fst snd].
  rewrite !put_with, !fire_with, !ctx_fire, ctx_with, a_with2. auto.
Qed.
Lemma step_with a l t o : no_act o -> a_with (fst (a_step (a_with a l) t o)) l = a_with (fst (a_step a t o)) l /\
  snd (a_step (a_with a l) t o) = snd (a_step a t o).
Proof.
  intro Hn. destruct o; cbn in Hn; try contradiction; cbn [a_step].
  - cbn [a_with a_err]. destruct (a_err a t); [auto|]. cbn [fst snd].
    rewrite !fire_with, !put_with, !fire_with, !ctx_fire, ctx_with, a_with2. auto.
  - apply close_with.
  - apply close_with.
  - cbn [a_with a_err]. destruct (a_err a t); [auto|]. cbn [fst snd].
    rewrite !put_with, !fire_with, !ctx_fire, ctx_with, a_with2. auto.
  - cbn [fst snd]. rewrite ctx_with. auto.
  - auto.
Qed.

Lemma krel_frame s s' a l cx : krel s (a_with a l) cx ->
  r_tree (k_rt s') = r_tree (k_rt s) -> r_tbb (k_rt s') = r_tbb (k_rt s) -> r_pbb (k_rt s') = r_pbb (k_rt s) ->
  r_err (k_rt s') = r_err (k_rt s) -> r_log (k_rt s') = r_log (k_rt s) ->
  (forall c b', k_body s' c = Some b' -> exists b, k_body s c = Some b /\ b_bb b' = b_bb b) ->
  krel s' (a_with a (r_act (k_rt s'))) cx.
Proof.
  intros [[H1 H2 H3 H4 H5 H6] K2 K3] E1 E2 E3 E4 E5 E6. constructor; [constructor| |].
  - rewrite E1; auto.
  - intro t. rewrite E1, E2. apply H2.
  - rewrite E1, E3. apply H3.
  - intro t. rewrite E4. apply H4.
  - reflexivity.
  - rewrite E5. rewrite H6. reflexivity.
  - reflexivity.
  - intros c b' Hb. destruct (E6 c b' Hb) as (b & Eb & Ebb). rewrite E1, Ebb. apply K3; auto.
Qed.
Lemma krel_ensure s a cx t : krel s a cx -> krel (ensure s t) a cx.
Proof. intros [H1 H2 H3]. unfold ensure. destruct (existsb _ _); constructor; auto. Qed.

Definition chn_out (h : list call) (t : N) (o : kop) (x : kout) : Prop :=
  match o with
  | KGet c a => x = KVal (c_get (ctx_of c h) a)
  | KEnd c a => x = match c_open (ctx_of c h) a with Some _ => KDone | None => KErr end
  | KApi o => x = conv (snd (a_step (ann_of h) t o))
  | _ => True
  end.
Lemma ctx_snoc c h k : ctx_of c (h ++ [k]) = ctx_call c k (ctx_of c h).
Proof. unfold ctx_of. rewrite fold_left_app. reflexivity. Qed.
Lemma ann_snoc h k : ann_of (h ++ [k]) = ann_call k (ann_of h).
Proof. unfold ann_of. rewrite fold_left_app. reflexivity. Qed.

Definition K (h : list call) (s : kst) : Prop := krel s (a_with (ann_of h) (r_act (k_rt s))) (fun c => ctx_of c h).

(* calls that change neither context nor annotation state *)
Lemma K_frame h s s' k : K h s ->
  r_tree (k_rt s') = r_tree (k_rt s) -> r_tbb (k_rt s') = r_tbb (k_rt s) -> r_pbb (k_rt s') = r_pbb (k_rt s) ->
  r_err (k_rt s') = r_err (k_rt s) -> r_log (k_rt s') = r_log (k_rt s) ->
  (forall c b', k_body s' c = Some b' -> exists b, k_body s c = Some b /\ b_bb b' = b_bb b) ->
  (forall c, ctx_call c k (ctx_of c h) = ctx_of c h) -> ann_call k (ann_of h) = ann_of h -> K (h ++ [k]) s'.
Proof.
  intros H E1 E2 E3 E4 E5 E6 E7 E8. unfold K. rewrite ann_snoc, E8. eapply upd_ctx_id.
  - eapply krel_frame; eauto.
  - intro c. cbn beta. rewrite ctx_snoc. apply E7.
Qed.
Lemma K_frame1 h s s' k : K h s -> k_rt s' = k_rt s -> k_body s' = k_body s ->
  (forall c, ctx_call c k (ctx_of c h) = ctx_of c h) -> ann_call k (ann_of h) = ann_of h -> K (h ++ [k]) s'.
Proof. intros H E1 E2 E3 E4. eapply K_frame; eauto; rewrite ?E1, ?E2; auto. intros c b' Hb. eauto. Qed.
Lemma K_ensure h s t : K h s -> K h (ensure s t).
Proof. unfold K. intro H. rewrite ensure_rt. apply krel_ensure. exact H. Qed.

Lemma release_K t0 h s t k s' x : kinv t0 s -> K h s -> k_release s t = KOk s' x ->
  (forall c, ctx_call c k (ctx_of c h) = ctx_of c h) -> ann_call k (ann_of h) = ann_of h -> K (h ++ [k]) s'.
Proof.
  intros I H E E1 E2. destruct (release_spec t0 s t I) as (s1 & Er & A1 & A2 & A3 & A4 & A5 & A6 & A7 & A8 & A9 & A10 & A11 & A12).
  rewrite Er in E. injection E as <- <-. eapply K_frame; eauto. rewrite A2. eauto.
Qed.
Lemma chn_step_K h s t o s' x c a cx' k : K h s -> krel s' (a_with a (r_act (k_rt s))) (upd (fun c => ctx_of c h) c cx') -> r_act (k_rt s') = r_act (k_rt s) ->
  ann_call k (ann_of h) = a -> (forall d, ctx_call d k (ctx_of d h) = if d =? c then cx' else ctx_of d h) -> k = (t, o, x) -> K (h ++ [k]) s'.
Proof.
  intros H Hk Ea E1 E2 _. unfold K. rewrite ann_snoc, E1, Ea. eapply upd_ctx_id; [exact Hk|]. intro d. cbn beta. rewrite ctx_snoc, E2. unfold upd. reflexivity.
Qed.

Lemma K_step t0 h s t o s' x : kinv t0 s -> K h s -> kop_ok s o -> k_step s t o = KOk s' x -> not_full (r_tree (k_rt s')) ->
  K (h ++ [(t, o, x)]) s' /\ chn_out h t o x.
Proof.
  intros I H (Hok1 & Hok2 & Hok3 & Hok4) E Hnf.
  destruct (guarded o) eqn:Hg.
  - destruct o; try discriminate; cbn [k_step] in E; (split; [|exact Logic.I]).
    + injection E as <- <-. eapply K_frame1; eauto.
    + destruct (k_live s).
      * eapply release_K; [| |exact E| |]; eauto using ensure_inv, K_ensure.
      * injection E as <- <-. eapply K_frame1; eauto.
    + destruct (k_live s).
      * unfold k_thread_exit in E. destruct (existsb _ _); [|injection E as <- <-; eapply K_frame1; eauto].
        destruct (t =? k_main s); [eapply release_K; [| |exact E| |]; eauto|]. injection E as <- <-. eapply K_frame1; eauto.
      * injection E as <- <-. eapply K_frame1; eauto.
  - specialize (Hok1 eq_refl). pose proof (live_step _ _ _ _ _ E Hg Hok1) as E1. clear E Hok1.
    pose proof (ensure_inv t0 s t I) as I1. pose proof (K_ensure h s t H) as H1.
    assert (Hok2' : Forall (attr_ok (r_tree (k_rt (ensure s t)))) (attrs_of o)) by (rewrite ensure_rt; auto).
    assert (Hok4' : match o with KApi o => rop_ok (k_rt (ensure s t)) o /\ no_act o | _ => True end) by (rewrite ensure_rt; destruct o; auto).
    set (s1 := ensure s t) in *. clearbody s1. clear H I Hok2 Hok3 Hok4.
    destruct o; try discriminate; cbn [k_run1] in E1; cbn [chn_out]; cbn [attrs_of] in Hok2'.
    + (* annotations *)
      unfold k_api in E1. destruct (rt_step (k_rt s1) t o) as [r y| |] eqn:Er; try discriminate. injection E1 as <- <-. destruct Hok4' as (Ho & Hn).
      destruct H1 as [R1 R2 R3]. pose proof (step_sim _ _ t o R1 Ho) as Hs. rewrite Er in Hs. cbn [sim] in Hs. destruct Hs as (_ & Hs).
      destruct (Hs Hnf) as (Ex & Hr & He). destruct (step_with (ann_of h) (r_act (k_rt s1)) t o Hn) as (W1 & W2). split; [|rewrite Ex, W2; reflexivity].
      destruct (api_step _ _ _ _ _ Hn Er) as (Ea & _).
      unfold K. cbn [klog with_rt drop_log k_rt r_act]. rewrite ann_snoc. cbn [ann_call]. rewrite Ea, <- W1. constructor; cbn [klog with_rt k_rt k_body].
      * assert (Eaa : a_act (fst (a_step (a_with (ann_of h) (r_act (k_rt s1))) t o)) = r_act (k_rt s1)) by (rewrite <- (rl_act _ _ Hr); auto).
        apply rel_drop in Hr. unfold a_drop in Hr. rewrite Eaa in Hr. exact Hr.
      * reflexivity.
      * intros c b Hb. destruct (R3 c b Hb) as (B1 & B2). split; auto. rewrite ctx_snoc. cbn [ctx_call]. eapply bbrel_ext; eauto.
    + (* create *)
      split; [|exact Logic.I]. unfold chn_create in E1. cbn zeta in E1.
      match type of E1 with (match chn_sets ?u _ _ _ with _ => _ end) = _ => set (s0 := u) in E1 end.
      destruct (chn_sets s0 t (k_next s1) _) as [s2 x2| |] eqn:E2; try discriminate. injection E1 as <- <-.
      assert (R0 : krel s0 (a_with (ann_of h) (r_act (k_rt s1))) (upd (fun c => ctx_of c h) (k_next s1) ctx_empty)).
      { destruct H1 as [R1 R2 R3]. constructor; auto. intros c b. unfold s0. cbn [k_body k_rt]. unfold upd. destruct (N.eqb_spec c (k_next s1)).
        - intro Eb. injection Eb as <-. cbn. split; [constructor|apply bb_empty].
        - apply R3. }
      assert (Hf : Forall (fun p => attr_ok (r_tree (k_rt s0)) (fst p)) [(an, vn); (asec, vsec); (ansec, vnsec)]).
      { inversion Hok2' as [|? ? P1 Q1]; inversion Q1 as [|? ? P2 Q2]; inversion Q2 as [|? ? P3 Q3]; constructor; [exact P1|constructor; [exact P2|constructor; [exact P3|constructor]]]. }
      destruct (sets_ctx _ _ _ _ _ _ _ _ R0 Hf E2 Hnf) as (R4 & _).
      pose proof (sets_eff _ _ _ _ _ _ E2) as (S & _).
      cbn [fold_left fst snd] in R4. unfold K. cbn [klog k_rt]. rewrite ann_snoc. cbn [ann_call]. rewrite (sm_act _ _ S). change (r_act (k_rt s0)) with (r_act (k_rt s1)).
      apply krel_klog. eapply upd_ctx_id; [exact R4|]. intro d. cbn beta. rewrite ctx_snoc. cbn [ctx_call]. unfold upd. rewrite N.eqb_refl, (N.eqb_sym (k_next s1) d).
      destruct (d =? k_next s1); reflexivity.
    + (* delete *)
      split; [|exact Logic.I]. unfold chn_delete in E1. destruct (k_body s1 c) eqn:Eb; [|discriminate]. injection E1 as <- <-. eapply K_frame; eauto.
    + (* activate *)
      split; [|exact Logic.I]. unfold chn_activate in E1. destruct (k_body s1 c) as [b|] eqn:Eb; [|discriminate]. injection E1 as <- <-. eapply K_frame; eauto.
      cbn. intros d b'. unfold upd. destruct (N.eqb_spec d c); [|eauto]. subst. intro Z. injection Z as <-. eauto.
    + (* deactivate *)
      split; [|exact Logic.I]. unfold chn_deactivate in E1. destruct (k_body s1 c) as [b|] eqn:Eb; [|discriminate]. injection E1 as <- <-. eapply K_frame; eauto.
      cbn. intros d b'. unfold upd. destruct (N.eqb_spec d c); [|eauto]. subst. intro Z. injection Z as <-. eauto.
    + (* begin *)
      split; [|exact Logic.I]. pose proof (begin_eff _ _ _ _ _ _ _ E1) as ((S & _) & _). inversion Hok2' as [|? ? Hx _]; subst.
      destruct (begin_ctx _ _ _ _ _ _ _ _ _ H1 Hx E1 Hnf) as (R & _). eapply chn_step_K; [exact H1|exact R|apply S|reflexivity| |reflexivity].
      intro d. cbn. rewrite (N.eqb_sym c d). destruct (N.eqb_spec d c); [subst|]; reflexivity.
    + (* end *)
      pose proof (end_eff _ _ _ _ _ _ E1) as (S & _). inversion Hok2' as [|? ? Hx _]; subst.
      destruct (end_ctx _ _ _ _ _ _ _ _ H1 Hx E1 Hnf) as (R & _). destruct (c_open (ctx_of c h) a) as [w|] eqn:Eo; destruct R as (-> & R); (split; [|reflexivity]).
      * eapply chn_step_K; [exact H1|exact R|apply S|reflexivity| |reflexivity].
        intro d. cbn. rewrite (N.eqb_sym c d). destruct (N.eqb_spec d c); [subst; rewrite Eo|]; reflexivity.
      * eapply chn_step_K with (c := c) (cx' := ctx_of c h); [exact H1| |apply S|reflexivity| |reflexivity].
        -- eapply upd_ctx_id; [exact R|]. intro d. unfold upd. destruct (N.eqb_spec d c); subst; reflexivity.
        -- intro d. cbn. rewrite (N.eqb_sym c d). destruct (N.eqb_spec d c); [subst; rewrite Eo|]; reflexivity.
    + (* set *)
      split; [|exact Logic.I]. pose proof (set_eff _ _ _ _ _ _ _ E1) as ((S & _) & _). inversion Hok2' as [|? ? Hx _]; subst.
      destruct (set_ctx _ _ _ _ _ _ _ _ _ H1 Hx E1 Hnf) as (R & _). eapply chn_step_K; [exact H1|exact R|apply S|reflexivity| |reflexivity].
      intro d. cbn. rewrite (N.eqb_sym c d). destruct (N.eqb_spec d c); [subst|]; reflexivity.
    + (* get *)
      unfold chn_get in E1. destruct (k_body s1 c) as [b|] eqn:Eb; [|discriminate]. injection E1 as <- <-. split; [eapply K_frame1; eauto|].
      f_equal. inversion Hok2' as [|? ? Hx _]; subst. destruct H1 as [R1 R2 R3]. destruct (R3 c b Eb) as (Hn & Hb).
      pose proof (attr_ok_ne _ _ (rl_inv _ _ R1) Hx) as Hne. pose proof Hx as (H12 & Hnode). unfold bb_key, c_get. destruct (asvalue a).
      * destruct (br_imm _ _ _ Hb (at_id a) H12) as (Ei & _). rewrite Ei. destruct (c_imm (ctx_of c h) (at_id a)); cbn; auto. rewrite N.eqb_refl. reflexivity.
      * apply (ref_get (r_tree (k_rt s1))); auto; [apply R1|apply br_lst; auto].
    + split; [|exact Logic.I]. apply write_ok in E1. destruct E1 as (_ & A1 & A2 & _). eapply K_frame1; eauto.
    + split; [|exact Logic.I]. injection E1 as <- <-. eapply K_frame1; eauto.
    + split; [|exact Logic.I]. injection E1 as <- <-. eapply K_frame1; eauto.
    + split; [|exact Logic.I]. injection E1 as <- <-. eapply K_frame1; eauto.
    + split; [|exact Logic.I]. destruct (chn_find s1 i) as [c|]; [|injection E1 as <- <-; eapply K_frame1; eauto].
      unfold chn_delete in E1. destruct (k_body s1 c) eqn:Eb; [|discriminate]. injection E1 as <- <-. eapply K_frame; eauto.
    + split; [|exact Logic.I]. destruct (chn_find s1 i) as [c|]; [|injection E1 as <- <-; eapply K_frame1; eauto].
      unfold chn_activate in E1. destruct (k_body s1 c) as [b|] eqn:Eb; [|discriminate]. injection E1 as <- <-. eapply K_frame; eauto.
      cbn. intros d b'. unfold upd. destruct (N.eqb_spec d c); [|eauto]. subst. intro Z. injection Z as <-. eauto.
    + split; [|exact Logic.I]. destruct (chn_find s1 i) as [c|]; [|injection E1 as <- <-; eapply K_frame1; eauto].
      unfold chn_deactivate in E1. destruct (k_body s1 c) as [b|] eqn:Eb; [|discriminate]. injection E1 as <- <-. eapply K_frame; eauto.
      cbn. intros d b'. unfold upd. destruct (N.eqb_spec d c); [|eauto]. subst. intro Z. injection Z as <-. eauto.
    + split; [|exact Logic.I]. destruct (chn_find s1 i) as [c|]; injection E1 as <- <-; eapply K_frame1; eauto.
    + split; [|exact Logic.I]. destruct (chn_find s1 0) as [c|]; [|injection E1 as <- <-; eapply K_frame1; eauto].
      apply flush_ok in E1. destruct E1 as (_ & A1 & A2 & _). eapply K_frame1; eauto.
    + split; [|exact Logic.I]. destruct (chn_find s1 i) as [c|]; [|discriminate].
      apply flush_ok in E1. destruct E1 as (_ & A1 & A2 & _). eapply K_frame1; eauto.
Qed.
Lemma K_init tr t0 : inv tr -> K [] (k_init tr t0).
Proof. intro H. constructor; [apply rel_init; auto|reflexivity|discriminate]. Qed.
