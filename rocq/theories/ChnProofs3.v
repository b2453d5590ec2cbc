From Verif Require Import Base VariantModel VariantSpec TreeModel TreeSpec TreeProofs TreeProofs2
  RuntimeModel RuntimeSpec RuntimeProofs RuntimeProofs2 RuntimeProps2 RuntimeProps3 ChnModel ChnSpec ChnProofs ChnProofs2.

Lemma write_ok s t c s' x : chn_write s t c = KOk s' x -> same s s' /\ k_rt s' = k_rt s /\ k_body s' = k_body s /\ x = KDone /\ exists w, k_log s' = k_log s ++ [KWrite c t w].
Proof.
  unfold chn_write. destruct (k_body s c); [|discriminate]. intro H. injection H as <- <-. split; [apply same_klog|]. split; [reflexivity|]. split; [reflexivity|]. split; [reflexivity|]. eexists; reflexivity.
Qed.
Lemma clear_ok s c s' x : chn_clear s c = KOk s' x -> same s s' /\ k_rt s' = k_rt s /\ k_body s' = k_body s /\ x = KDone /\ k_log s' = k_log s ++ [KClear c].
Proof.
  unfold chn_clear. destruct (k_body s c); [|discriminate]. intro H. injection H as <- <-. split; [apply same_klog|]. repeat split.
Qed.
Lemma flush_ok s t c b s' x : then_clear (chn_write s t c) b c = KOk s' x -> same s s' /\ k_rt s' = k_rt s /\ k_body s' = k_body s /\ x = KDone /\
  exists l, k_log s' = k_log s ++ l /\ Forall (fun e => ordinary e /\ ev_channel e = c) l.
Proof.
  unfold then_clear. destruct (chn_write s t c) as [s1 x1| |] eqn:E; try discriminate. apply write_ok in E. destruct E as (A1 & A2 & A3 & A4 & w & A5).
  destruct b.
  - intro E. apply clear_ok in E. destruct E as (B1 & B2 & B3 & B4 & B5). split; [eapply same_trans; eauto|]. split; [congruence|]. split; [congruence|]. split; [auto|].
    exists ([KWrite c t w] ++ [KClear c]). rewrite B5, A5, app_assoc. split; auto. repeat constructor.
  - intro E. injection E as <- <-. split; auto. split; auto. split; auto. split; auto. exists [KWrite c t w]. split; auto. repeat constructor.
Qed.
Lemma api_ok s t o s' x : no_act o -> r_log (k_rt s) = [] -> k_api s t o = KOk s' x ->
  same s s' /\ r_log (k_rt s') = [] /\ k_body s' = k_body s /\ exists l, k_log s' = k_log s ++ l /\ Forall (fun e => ordinary e /\ In (ev_channel e) (r_act (k_rt s))) l.
Proof.
  intros Hn Hl. unfold k_api. destruct (rt_step (k_rt s) t o) as [r y| |] eqn:E; try discriminate. intro H. injection H as <- <-.
  destruct (api_step _ _ _ _ _ Hn E) as (A1 & l & A2 & A3). split; [constructor; auto|]. split; auto. split; auto. exists (map KAnn (r_log r)). split; auto.
  rewrite A2, Hl. cbn. apply Forall_map. eapply Forall_impl; [|exact A3]. intros e He. split; [exact Logic.I|exact He].
Qed.

(* operations that do not create, delete, activate or deactivate *)
Definition quiet_op (o : kop) : bool :=
  match o with
  | KCreate _ _ _ _ _ _ _ | KDelete _ | KActivate _ | KDeactivate _ | KRelease | KThreadExit | KcDelete _ | KcActivate _ | KcDeactivate _ => false
  | _ => true
  end.
Lemma quiet_created t o x : quiet_op o = true -> created1 (t, o, x) = [].
Proof. destruct o; try discriminate; reflexivity. Qed.
Lemma quiet_change t0 t o x c : quiet_op o = true -> change t0 c (t, o, x) = None.
Proof. destruct o; try discriminate; reflexivity. Qed.
(* channels that an operation's callbacks may go to *)
Definition touches (s : kst) (o : kop) (c : N) : Prop :=
  handle_of o = Some c \/ In c (k_all s) \/ In c (r_act (k_rt s)).
Lemma quiet_run t0 s t o s' x : kinv t0 s -> (match o with KApi o => no_act o | _ => True end) -> quiet_op o = true -> k_run1 s t o = KOk s' x ->
  same s s' /\ r_log (k_rt s') = [] /\ exists l, k_log s' = k_log s ++ l /\ Forall (fun e => ordinary e /\ touches s o (ev_channel e)) l.
Proof.
  intros H Ho Hq E. pose proof (ki_rlog _ _ H) as Hl. destruct o; try discriminate; cbn [k_run1] in E.
  - destruct (api_ok _ _ _ _ _ Ho Hl E) as (A1 & A2 & A3 & l & A4 & A5). split; auto. split; auto. exists l. split; auto.
    eapply Forall_impl; [|exact A5]. intros e (B1 & B2). split; auto. right. right. auto.
  - injection E as <- <-. split; [apply same_refl|]. split; auto. exists []. rewrite app_nil_r. auto.
  - pose proof (begin_rlog _ _ _ _ _ _ _ E) as R. apply begin_eff in E. destruct E as ((A1 & l & A2 & A3 & _) & _). split; auto. split; [congruence|].
    exists l. split; auto. eapply Forall_impl; [|exact A3]. intros e (B1 & B2). split; auto. left. cbn. congruence.
  - pose proof (end_rlog _ _ _ _ _ _ E) as R. apply end_eff in E. destruct E as (A1 & l & A2 & A3 & _). split; auto. split; [congruence|].
    exists l. split; auto. eapply Forall_impl; [|exact A3]. intros e (B1 & B2). split; auto. left. cbn. congruence.
  - pose proof (set_rlog _ _ _ _ _ _ _ E) as R. apply set_eff in E. destruct E as ((A1 & l & A2 & A3 & _) & _). split; auto. split; [congruence|].
    exists l. split; auto. eapply Forall_impl; [|exact A3]. intros e (B1 & B2). split; auto. left. cbn. congruence.
  - unfold chn_get in E. destruct (k_body s c); [|discriminate]. injection E as <- <-. split; [apply same_refl|]. split; auto. exists []. rewrite app_nil_r. auto.
  - apply write_ok in E. destruct E as (A1 & A2 & A3 & A4 & w & A5). split; auto. split; [congruence|]. eexists. split; [exact A5|].
    constructor; [split; [exact Logic.I|left; reflexivity]|constructor].
  - injection E as <- <-. split; [apply same_refl|]. split; auto. exists []. rewrite app_nil_r. auto.
  - injection E as <- <-. split; [apply same_refl|]. split; auto. exists []. rewrite app_nil_r. auto.
  - injection E as <- <-. split; [apply same_klog|]. split; auto. eexists. split; [reflexivity|]. apply Forall_map. apply Forall_forall. intros c Hc. apply filter_In in Hc.
    split; [exact Logic.I|]. right. left. apply Hc.
  - destruct (chn_find s i) as [c|]; injection E as <- <-; (split; [apply same_refl|]; split; auto; exists []; rewrite app_nil_r; auto).
  - destruct (chn_find s 0) as [c|] eqn:Ef.
    + apply flush_ok in E. destruct E as (A1 & A2 & A3 & A4 & l & A5 & A6). split; auto. split; [congruence|]. exists l. split; auto.
      eapply Forall_impl; [|exact A6]. intros e (B1 & B2). split; auto. right. left. apply find_some in Ef. destruct Ef as (-> & Ef). rewrite B2. auto.
    + injection E as <- <-. split; [apply same_refl|]. split; auto. exists []. rewrite app_nil_r. auto.
  - destruct (chn_find s i) as [c|] eqn:Ef; [|discriminate].
    apply flush_ok in E. destruct E as (A1 & A2 & A3 & A4 & l & A5 & A6). split; auto. split; [congruence|]. exists l. split; auto.
    eapply Forall_impl; [|exact A6]. intros e (B1 & B2). split; auto. right. left. apply find_some in Ef. destruct Ef as (-> & Ef). rewrite B2. auto.
Qed.

(* a live step is registration followed by the call *)
Lemma live_step s t o s' x : k_step s t o = KOk s' x -> guarded o = false -> k_live s = true -> k_run1 (ensure s t) t o = KOk s' x.
Proof. intros E Hg HL. destruct o; cbn in Hg; try discriminate; cbn [k_step] in E; rewrite HL in E; exact E. Qed.

Lemma dead_eff t0 s t o : kinv t0 s -> k_live s = false -> created1 (t, o, KDone) = [] ->
  (forall c, change t0 c (t, o, KDone) = None \/ change t0 c (t, o, KDone) = Some false) -> eff t0 s s (t, o, KDone).
Proof.
  intros H HL Hc Hch. pose proof (ki_dead _ _ H HL) as Ha. constructor; auto; try (apply H); rewrite ?Hc, ?Ha.
  - cbn. lia.
  - intros ? [].
  - reflexivity.
  - intros c Hi. destruct (Hch c) as [->| ->]; [reflexivity|]. split; [intro Z; destruct (Hi Z)|discriminate].
  - intros c [].
Qed.
Lemma not_thr_exit t0 c t x : t <> t0 -> change t0 c (t, KThreadExit, x) = None.
Proof. intro Hn. unfold change, deletes. destruct (N.eqb_spec t t0); [contradiction|reflexivity]. Qed.
Lemma remove1_other c l d : d <> c -> In d l -> In d (remove1 c l).
Proof. apply remove1_in2. Qed.

Lemma step_eff t0 s t o s' x : kinv t0 s -> kop_ok s o -> k_step s t o = KOk s' x -> eff t0 s s' (t, o, x).
Proof.
  intros H (Hok1 & _ & _ & Hok4) E.
  destruct (guarded o) eqn:Hg.
  - destruct o; try discriminate; cbn [k_step] in E.
    + injection E as <- <-. apply quiet_eff; auto; [apply same_refl|apply H].
    + destruct (k_live s) eqn:HL.
      * apply (eff_pre _ _ (ensure s t)); [apply ensure_same|]. eapply release_eff; eauto using ensure_inv.
      * injection E as <- <-. apply dead_eff; auto.
    + destruct (k_live s) eqn:HL.
      * unfold k_thread_exit in E. destruct (existsb (N.eqb t) (k_thr s)) eqn:Et.
        -- rewrite (ki_main _ _ H) in E. destruct (N.eqb_spec t t0).
           ++ subst t. eapply release_eff; eauto. intro d. cbn. apply N.eqb_refl.
           ++ injection E as <- <-. apply quiet_eff; auto; [intro c; apply not_thr_exit; auto| |apply H].
              constructor; auto. cbn. intro Hi. rewrite (ki_main _ _ H) in *. apply remove1_other; auto.
        -- injection E as <- <-. assert (Hn : t <> t0).
           { intros ->. pose proof (ki_thr _ _ H HL) as Hi. apply existsb_In in Hi. congruence. }
           apply quiet_eff; auto; [intro c; apply not_thr_exit; auto|apply same_refl|apply H].
      * injection E as <- <-. apply dead_eff; auto. intro c. unfold change. destruct (deletes t0 c _); auto.
  - specialize (Hok1 eq_refl). pose proof (live_step _ _ _ _ _ E Hg Hok1) as E1. clear E.
    pose proof (ensure_inv t0 s t H) as H1. apply (eff_pre _ _ (ensure s t)); [apply ensure_same|].
    assert (HL : k_live (ensure s t) = true) by (rewrite (sm_live _ _ (ensure_same s t)); auto).
    set (s1 := ensure s t) in *. clearbody s1.
    destruct (quiet_op o) eqn:Hq.
    + destruct (quiet_run t0 s1 t o s' x H1) as (S & R & _); auto.
      { destruct o; auto. apply Hok4. }
      apply quiet_eff; auto using quiet_created, quiet_change.
    + destruct o; try discriminate; cbn [k_run1] in E1.
      * assert (Ex : x = KChn (Some (k_next s1))).
        { clear -E1. unfold chn_create in E1. cbn zeta in E1. destruct (chn_sets _ _ _ _); try discriminate. injection E1 as _ <-. reflexivity. }
        eapply create_eff; eauto; subst x; reflexivity.
      * eapply delete_eff; eauto. intros d Hd. unfold change. cbn. destruct (N.eqb_spec c d); congruence.
      * eapply activate_eff; eauto.
      * eapply deactivate_eff; eauto.
      * destruct (chn_find s1 i) as [c|] eqn:Ef.
        -- apply find_some in Ef. destruct Ef as (-> & Ef). assert (Ex : x = KDone).
           { clear -E1. unfold chn_delete in E1. destruct (k_body s1 i); [|discriminate]. injection E1 as _ <-. reflexivity. }
           subst x. eapply delete_eff; eauto. intros d Hd. unfold change. cbn. destruct (N.eqb_spec i d); congruence.
        -- injection E1 as <- <-. apply quiet_eff; auto; [apply same_refl|apply H1].
      * destruct (chn_find s1 i) as [c|] eqn:Ef.
        -- apply find_some in Ef. destruct Ef as (-> & Ef). assert (Ex : x = KDone).
           { clear -E1. unfold chn_activate in E1. destruct (k_body s1 i); [|discriminate]. injection E1 as _ <-. reflexivity. }
           subst x. eapply activate_eff; eauto.
        -- injection E1 as <- <-. apply quiet_eff; auto; [apply same_refl|apply H1].
      * destruct (chn_find s1 i) as [c|] eqn:Ef.
        -- apply find_some in Ef. destruct Ef as (-> & Ef). assert (Ex : x = KDone).
           { clear -E1. unfold chn_deactivate in E1. destruct (k_body s1 i); [|discriminate]. injection E1 as _ <-. reflexivity. }
           subst x. eapply deactivate_eff; eauto.
        -- injection E1 as <- <-. apply quiet_eff; auto; [apply same_refl|apply H1].
Qed.
