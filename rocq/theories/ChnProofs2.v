From Verif Require Import Base VariantModel VariantSpec TreeModel TreeSpec TreeProofs TreeProofs2
  RuntimeModel RuntimeSpec RuntimeProofs RuntimeProofs2 RuntimeProps2 RuntimeProps3 ChnModel ChnSpec ChnProofs.

Record kinv (t0 : N) (s : kst) : Prop := mkkinv {
  ki_nodup : NoDup (k_all s);
  ki_lt : forall c, In c (k_all s) -> c < k_next s;
  ki_body : forall c, flags s c <> None <-> c < k_next s;
  ki_actnd : NoDup (r_act (k_rt s));
  ki_actlt : forall c, In c (r_act (k_rt s)) -> c < k_next s;
  ki_rlog : r_log (k_rt s) = [];
  ki_main : k_main s = t0;
  ki_dead : k_live s = false -> k_all s = [];
  ki_thr : k_live s = true -> In t0 (k_thr s) }.
Lemma kinv_same t0 s s' : kinv t0 s -> same s s' -> r_log (k_rt s') = [] -> kinv t0 s'.
Proof.
  intros [A1 A2 A3 A4 A5 A6 A7 A8 A9] [B1 B2 B0 B3 B4 B5 B6] Hl. constructor.
  - rewrite B2; auto.
  - intros c H. rewrite B1. rewrite B2 in H. auto.
  - intro c. rewrite B6, B1. apply A3.
  - rewrite B5; auto.
  - intros c H. rewrite B1. rewrite B5 in H. auto.
  - auto.
  - congruence.
  - rewrite B4, B2; auto.
  - rewrite B4. intro H. rewrite A7 in B0. auto.
Qed.
Lemma flags_body s c f : flags s c = Some f -> exists b, k_body s c = Some b /\ (b_active b, b_flush b) = f.
Proof. unfold flags. destruct (k_body s c) as [b|]; [|discriminate]. intro H. injection H as <-. eauto. Qed.
Lemma body_flags s c b : k_body s c = Some b -> flags s c = Some (b_active b, b_flush b).
Proof. unfold flags. intros ->. reflexivity. Qed.
Lemma inv_body t0 s c : kinv t0 s -> c < k_next s -> exists b, k_body s c = Some b.
Proof.
  intros H Hc. apply (ki_body _ _ H) in Hc. destruct (flags s c) as [f|] eqn:E; [|congruence]. apply flags_body in E. destruct E as (b & E & _). eauto.
Qed.

(* remove1 on duplicate-free lists *)
Lemma remove1_without c l : NoDup l -> remove1 c l = without c l.
Proof.
  induction l as [|x l IH]; cbn; auto. intro H. inversion H; subst. destruct (N.eqb_spec x c); cbn.
  - subst. clear IH H. induction l as [|y l IH]; auto. cbn. destruct (N.eqb_spec y c); [subst; exfalso; apply H2; left; auto|]. cbn. rewrite <- IH; auto; [intro Z; apply H2; right; auto|inversion H3; auto].
  - rewrite IH; auto.
Qed.
Lemma without_in c l d : In d (without c l) <-> In d l /\ d <> c.
Proof. unfold without. rewrite filter_In, negb_true_iff, N.eqb_neq. reflexivity. Qed.
Lemma remove1_iff c l d : NoDup l -> (In d (remove1 c l) <-> In d l /\ d <> c).
Proof. intro H. rewrite remove1_without; auto. apply without_in. Qed.
Lemma find_eqb i l : find (N.eqb i) l = if existsb (N.eqb i) l then Some i else None.
Proof. induction l as [|x l IH]; cbn; auto. destruct (N.eqb_spec i x); cbn; [subst; auto|auto]. Qed.
Lemma existsb_In i l : existsb (N.eqb i) l = true <-> In i l.
Proof.
  rewrite existsb_exists. split; [intros (x & H & E); apply N.eqb_eq in E; subst; auto|]. intro H. exists i. rewrite N.eqb_refl. auto.
Qed.
Lemma find_some s i c : chn_find s i = Some c -> c = i /\ In i (k_all s).
Proof.
  unfold chn_find. rewrite find_eqb. destruct (existsb (N.eqb i) (k_all s)) eqn:E; [|discriminate]. intro H. injection H as <-. split; auto. apply existsb_In; auto.
Qed.
Lemma find_none s i : chn_find s i = None -> ~ In i (k_all s).
Proof. unfold chn_find. rewrite find_eqb. destruct (existsb (N.eqb i) (k_all s)) eqn:E; [discriminate|]. intros _ H. apply existsb_In in H. congruence. Qed.

(* ensure *)
Lemma ensure_same s t : same s (ensure s t).
Proof. unfold ensure. destruct (existsb _ _); [apply same_refl|]. constructor; auto. intro H. cbn. apply in_app_iff. auto. Qed.
Lemma ensure_rt s t : k_rt (ensure s t) = k_rt s.
Proof. unfold ensure. destruct (existsb _ _); reflexivity. Qed.
Lemma ensure_body s t : k_body (ensure s t) = k_body s.
Proof. unfold ensure. destruct (existsb _ _); reflexivity. Qed.
Lemma ensure_all s t : k_all (ensure s t) = k_all s.
Proof. apply ensure_same. Qed.
Lemma ensure_log s t : exists l, k_log (ensure s t) = k_log s ++ l /\ Forall (fun e => ordinary e /\ In (ev_channel e) (k_all s)) l.
Proof.
  unfold ensure. destruct (existsb _ _); [exists []; rewrite app_nil_r; auto|]. eexists; split; [reflexivity|].
  apply Forall_forall. intros e H. apply in_map_iff in H. destruct H as (c & <- & H). cbn. auto.
Qed.
Lemma ensure_inv t0 s t : kinv t0 s -> kinv t0 (ensure s t).
Proof. intro H. eapply kinv_same; eauto using ensure_same. rewrite ensure_rt. apply H. Qed.
Lemma krel_ensure s a cx t : krel s a cx -> krel (ensure s t) a cx.
Proof. intros [H1 H2 H3]. constructor; rewrite ?ensure_rt, ?ensure_body; auto. Qed.

(* finalization *)
Lemma fin_spec n : forall s t, n = length (k_all s) -> NoDup (k_all s) -> (forall c, In c (k_all s) -> k_body s c <> None) ->
  exists s', fin_loop n s t = KOk s' KDone /\ k_all s' = [] /\ k_body s' = k_body s /\ k_next s' = k_next s /\
    k_thr s' = k_thr s /\ k_main s' = k_main s /\ k_live s' = k_live s /\
    k_rt s' = mkrt (r_tree (k_rt s)) (r_tbb (k_rt s)) (r_pbb (k_rt s)) (r_err (k_rt s)) (fold_left (fun l c => remove1 c l) (k_all s) (r_act (k_rt s))) (r_log (k_rt s)) /\
    k_log s' = k_log s ++ flat_map (fin_events s t) (k_all s).
Proof.
  induction n as [|n IH]; intros s t En Hnd Hb.
  - destruct (k_all s) eqn:Ea; [|discriminate]. exists s. cbn. rewrite app_nil_r. repeat (split; auto). destruct (k_rt s); reflexivity.
  - destruct (k_all s) as [|c r] eqn:Ea; [discriminate|]. cbn [fin_loop]. rewrite Ea.
    destruct (k_body s c) as [b|] eqn:Eb; [|exfalso; apply (Hb c); [left; auto|auto]].
    set (s1 := if b_flush b then match chn_write s t c with KOk s1 _ => s1 | _ => s end else s).
    assert (E1 : (if b_flush b then chn_write s t c else KOk s KDone) = KOk s1 KDone).
    { unfold s1. destruct (b_flush b); auto. unfold chn_write. rewrite Eb. reflexivity. }
    rewrite E1. assert (Es1 : k_all s1 = c :: r /\ k_body s1 = k_body s /\ k_next s1 = k_next s /\ k_thr s1 = k_thr s /\ k_main s1 = k_main s /\
      k_live s1 = k_live s /\ k_rt s1 = k_rt s /\ k_log s1 ++ [KPreFinish c; KFinish c] = k_log s ++ fin_events s t c).
    { unfold s1, fin_events. rewrite Eb. destruct (b_flush b); cbn.
      - unfold chn_write. rewrite Eb. cbn. rewrite <- !app_assoc. cbn. auto 10.
      - auto 10. }
    clearbody s1. destruct Es1 as (X1 & X2 & X3 & X4 & X5 & X6 & X7 & X8).
    unfold chn_delete. rewrite X2, Eb. cbn zeta. rewrite ?X1. cbn [with_all k_all with_rt klog].
    match goal with |- context [fin_loop n ?u t] => destruct (IH u t) as (s' & Y0 & Y1 & Y2 & Y3 & Y4 & Y5 & Y6 & Y7 & Y8) end.
    + cbn. rewrite X1. cbn. rewrite N.eqb_refl. cbn in En. lia.
    + cbn. rewrite X1. cbn. rewrite N.eqb_refl. inversion Hnd; auto.
    + cbn. rewrite X1, X2. cbn. rewrite N.eqb_refl. intros d Hd. apply Hb. right; auto.
    + exists s'. split; auto. split; auto. cbn in *. split; [congruence|]. split; [congruence|]. split; [congruence|]. split; [congruence|]. split; [congruence|].
      split.
      * rewrite Y7. rewrite X1, X7. cbn. rewrite N.eqb_refl. reflexivity.
      * rewrite Y8, X1. cbn. rewrite N.eqb_refl. rewrite app_assoc.
        assert (EF : forall d, fin_events {| k_rt := rt_deactivate (k_rt s1) c; k_next := k_next s1; k_all := r; k_body := k_body s1; k_thr := k_thr s1;
             k_main := k_main s1; k_live := k_live s1; k_log := (k_log s1 ++ [KPreFinish c]) ++ [KFinish c] |} t d = fin_events s t d).
        { intro d. unfold fin_events. cbn. rewrite X2, X7. reflexivity. }
        rewrite (flat_map_ext _ _ EF). rewrite <- X8. rewrite <- !app_assoc. reflexivity.
Qed.
Lemma fold_remove1 l : forall act d, NoDup act -> (In d (fold_left (fun l c => remove1 c l) l act) <-> In d act /\ ~ In d l) /\ NoDup (fold_left (fun l c => remove1 c l) l act).
Proof.
  induction l as [|c l IH]; cbn; intros act d H; [tauto|]. destruct (IH (remove1 c act) d (remove1_nodup _ _ H)) as (A & B). split; auto.
  rewrite A, remove1_iff by auto. intuition.
Qed.
Lemma release_spec t0 s t : kinv t0 s -> exists s', k_release s t = KOk s' KDone /\ k_all s' = [] /\ k_body s' = k_body s /\ k_next s' = k_next s /\
    k_thr s' = k_thr s /\ k_main s' = k_main s /\ k_live s' = false /\
    r_tree (k_rt s') = r_tree (k_rt s) /\ r_tbb (k_rt s') = r_tbb (k_rt s) /\ r_pbb (k_rt s') = r_pbb (k_rt s) /\ r_err (k_rt s') = r_err (k_rt s) /\ r_log (k_rt s') = r_log (k_rt s) /\
    NoDup (r_act (k_rt s')) /\ (forall d, In d (r_act (k_rt s')) <-> In d (r_act (k_rt s)) /\ ~ In d (k_all s)) /\
    k_log s' = k_log s ++ flat_map (fin_events s t) (k_all s).
Proof.
  intro H. assert (Hb : forall c, In c (k_all s) -> k_body s c <> None).
  { intros c Hc. destruct (inv_body _ _ c H (ki_lt _ _ H c Hc)) as (b & E). congruence. }
  destruct (fin_spec _ s t eq_refl (ki_nodup _ _ H) Hb) as (s' & E & A1 & A2 & A3 & A4 & A5 & A6 & A7 & A8).
  unfold k_release. rewrite E. eexists; split; [reflexivity|]. cbn. rewrite A7. cbn.
  repeat (split; [assumption || reflexivity|]).
  split; [apply (fold_remove1 (k_all s) (r_act (k_rt s)) 0 (ki_actnd _ _ H))|]. split; [|auto].
  intro d. apply (fold_remove1 (k_all s) (r_act (k_rt s)) d (ki_actnd _ _ H)).
Qed.

(* change of the activity of channel c by a call *)
Definition change (t0 c : N) (k : call) : option bool :=
  if deletes t0 c k then Some false else
  match k with
  | (_, KActivate d, _) => if d =? c then Some true else None
  | (_, KcActivate d, KDone) => if d =? c then Some true else None
  | (_, KDeactivate d, _) => if d =? c then Some false else None
  | (_, KcDeactivate d, KDone) => if d =? c then Some false else None
  | _ => None
  end.
Lemma active_snoc t0 c h k : active t0 c (h ++ [k]) = match change t0 c k with Some b => b | None => active t0 c h end.
Proof.
  unfold active. rewrite rev_app_distr. cbn [rev app active_rev]. unfold change. destruct (deletes t0 c k); auto.
  destruct k as [[t o] x]. destruct o; auto; try (destruct (c0 =? c); reflexivity); destruct x; auto; destruct (i =? c); reflexivity.
Qed.
Lemma alive_snoc t0 c h k : alive t0 c (h ++ [k]) = if existsb (N.eqb c) (created1 k) then true else if deletes t0 c k then false else alive t0 c h.
Proof. unfold alive. rewrite rev_app_distr. reflexivity. Qed.

(* the effect of a call on the channel structure *)
Record eff (t0 : N) (s s' : kst) (k : call) : Prop := mkeff {
  e_next : k_next s' = k_next s + N.of_nat (length (created1 k));
  e_new : forall c, In c (created1 k) -> c = k_next s;
  e_all : k_all s' = filter (fun c => negb (deletes t0 c k)) (k_all s) ++ created1 k;
  e_act : forall c, (In c (r_act (k_rt s)) -> In c (k_all s)) ->
     (In c (r_act (k_rt s')) <-> match change t0 c k with Some b => b = true | None => In c (r_act (k_rt s)) end);
  e_actnd : NoDup (r_act (k_rt s'));
  e_flags : forall c, In c (k_all s') -> option_map fst (flags s' c) =
     if existsb (N.eqb c) (created1 k) then Some false else match change t0 c k with Some b => Some b | None => option_map fst (flags s c) end;
  e_fin : forall c, flags s' c <> None <-> c < k_next s';
  e_rlog : r_log (k_rt s') = [];
  e_main : k_main s' = k_main s;
  e_dead : k_live s' = false -> k_all s' = [];
  e_thr : k_live s' = true -> In t0 (k_thr s') }.
Lemma eff_inv t0 s s' k : kinv t0 s -> eff t0 s s' k -> (forall c, In c (r_act (k_rt s)) -> In c (k_all s)) ->
  (forall c, change t0 c k = Some true -> In c (k_all s')) -> kinv t0 s' /\ (forall c, In c (r_act (k_rt s')) -> In c (k_all s')).
Proof.
  intros H E Hs Hc.
  assert (Hlt : forall c, In c (k_all s') -> c < k_next s').
  { intros c Hi. rewrite (e_all _ _ _ _ E), in_app_iff, filter_In in Hi. rewrite (e_next _ _ _ _ E). destruct Hi as [(Hi & _)|Hi].
    - pose proof (ki_lt _ _ H c Hi). lia.
    - rewrite (e_new _ _ _ _ E c Hi). destruct (created1 k); [contradiction|cbn [length]; lia]. }
  assert (Hsub : forall c, In c (r_act (k_rt s')) -> In c (k_all s')).
  { intros c Hi. apply (e_act _ _ _ _ E c (Hs c)) in Hi. destruct (change t0 c k) as [b|] eqn:Eb; [subst; auto|].
    rewrite (e_all _ _ _ _ E), in_app_iff, filter_In. left. split; auto. unfold change in Eb. destruct (deletes t0 c k); [discriminate|auto]. }
  split; auto. constructor; auto; try apply E.
  - rewrite (e_all _ _ _ _ E).
    assert (Hn : NoDup (filter (fun c => negb (deletes t0 c k)) (k_all s))) by (apply NoDup_filter; apply H).
    assert (Hd : created1 k = [] \/ exists c, created1 k = [c]).
    { destruct k as [[t o] x]. destruct o; auto. destruct x; auto. destruct c; auto. right. cbn. eauto. }
    destruct Hd as [Hd|(c & Hd)]; rewrite Hd; [rewrite app_nil_r; auto|]. apply nodup_snoc; auto. intro Hi. apply filter_In in Hi.
    pose proof (ki_lt _ _ H c (proj1 Hi)). pose proof (e_new _ _ _ _ E c). rewrite Hd in H1. rewrite (H1 (or_introl eq_refl)) in H0. lia.
  - rewrite (e_main _ _ _ _ E). apply H.
Qed.

Local Arguments deletes : simpl never.
Local Arguments change : simpl never.
Lemma quiet_eff t0 s s' k : kinv t0 s -> created1 k = [] -> (forall c, change t0 c k = None) -> same s s' -> r_log (k_rt s') = [] -> eff t0 s s' k.
Proof.
  intros H Hc Hq S Hl. pose proof (kinv_same _ _ _ H S Hl) as H'.
  assert (Hd : forall c, deletes t0 c k = false) by (intro c; specialize (Hq c); unfold change in Hq; destruct (deletes t0 c k); congruence).
  constructor; try (apply H'); auto.
  - rewrite Hc, (sm_next _ _ S). cbn. lia.
  - rewrite Hc. intros c [].
  - rewrite Hc, app_nil_r, (sm_all _ _ S). symmetry. clear -Hd. induction (k_all s) as [|c l IH]; cbn; auto. rewrite Hd. cbn. congruence.
  - intros c _. rewrite Hq, (sm_act _ _ S). reflexivity.
  - intros c _. rewrite Hc, Hq, (sm_flags _ _ S). reflexivity.
  - apply S.
Qed.
(* r_log is empty throughout *)
Lemma put_rlog s c tr m : r_log (k_rt (put_chn s c tr m)) = r_log (k_rt s).
Proof. unfold put_chn. destruct (k_body s c); reflexivity. Qed.
Lemma set_rlog s t c a v s' x : chn_set s t c a v = KOk s' x -> r_log (k_rt s') = r_log (k_rt s).
Proof.
  unfold chn_set. destruct (k_body s c) as [b|]; [|discriminate]. unfold kcommit. destruct (handle_set _ _ _ _ _); try discriminate.
  intro H. injection H as <- <-. rewrite put_rlog, kfire_rt. reflexivity.
Qed.
Lemma sets_rlog l : forall s t c s' x, chn_sets s t c l = KOk s' x -> r_log (k_rt s') = r_log (k_rt s).
Proof.
  induction l as [|[a v] l IH]; cbn; intros s t c s' x H; [injection H as <- <-; auto|].
  destruct (chn_set s t c a v) as [s1 x1| |] eqn:E; try discriminate. rewrite (IH _ _ _ _ _ H). eapply set_rlog; eauto.
Qed.
Lemma begin_rlog s t c a v s' x : chn_begin s t c a v = KOk s' x -> r_log (k_rt s') = r_log (k_rt s).
Proof.
  unfold chn_begin. destruct (k_body s c) as [b|]; [|discriminate]. unfold kcommit. destruct (handle_begin _ _ _ _ _); try discriminate.
  intro H. injection H as <- <-. rewrite kfire_rt, put_rlog, kfire_rt. reflexivity.
Qed.
Lemma end_rlog s t c a s' x : chn_end s t c a = KOk s' x -> r_log (k_rt s') = r_log (k_rt s).
Proof.
  unfold chn_end. destruct (k_body s c) as [b|]; [|discriminate]. cbn zeta. destruct (snd (load_current _ _ _ _)) as [[i v]|].
  - unfold kcommit. destruct (handle_end _ _ _ _ _ _); try discriminate. intro H. injection H as <- <-. rewrite put_rlog, kfire_rt. reflexivity.
  - intro H. injection H as <- <-. reflexivity.
Qed.
(* pre-composition with the registration of the thread *)
Lemma eff_pre t0 s s1 s' k : same s s1 -> eff t0 s1 s' k -> eff t0 s s' k.
Proof.
  intros [A1 A2 A0 A3 A4 A5 A6] [B1 B2 B3 B4 B5 B6 B7 B8 B9 B10 B11]. constructor; auto; try congruence.
  - intros c Hc. rewrite <- A1. auto.
  - intros c Hc. rewrite <- A5 in Hc |- *. rewrite <- A2 in Hc. auto.
  - intros c Hc. rewrite B6; auto. rewrite A6. reflexivity.
Qed.
Lemma delete_eff t0 s t o c x s' : kinv t0 s -> chn_delete s c = KOk s' x -> created1 (t, o, x) = [] ->
  (forall d, deletes t0 d (t, o, x) = (c =? d)) -> (forall d, d <> c -> change t0 d (t, o, x) = None) -> eff t0 s s' (t, o, x).
Proof.
  intros H E Hc Hd Hq. unfold chn_delete in E. destruct (k_body s c) as [b|] eqn:Eb; [|discriminate]. cbn zeta in E. injection E as <- <-.
  assert (Hch : forall d, change t0 d (t, o, KDone) = if c =? d then Some false else None).
  { intro d. destruct (N.eqb_spec c d); [|apply Hq; auto]. unfold change. rewrite Hd. subst. rewrite N.eqb_refl. reflexivity. }
  constructor; try (rewrite Hc); cbn.
  - lia. - intros ? [].
  - rewrite app_nil_r, remove1_without by apply H. unfold without. apply filter_ext. intro d. rewrite Hd, N.eqb_sym. reflexivity.
  - intros d _. rewrite Hch, remove1_iff by apply H. destruct (N.eqb_spec c d).
    + subst. split; [tauto|discriminate]. + split; [tauto|]. intro. split; auto.
  - apply remove1_nodup. apply H.
  - intros d Hi. rewrite Hch. rewrite remove1_iff in Hi by apply H. destruct (N.eqb_spec c d); [subst; tauto|]. unfold flags. reflexivity.
  - intro d. apply (ki_body _ _ H).
  - apply H. - reflexivity.
  - intro L. rewrite (ki_dead _ _ H L). reflexivity.
  - apply H.
Qed.
Lemma activate_eff t0 s t o c x s' : kinv t0 s -> chn_activate s c = KOk s' x -> created1 (t, o, x) = [] ->
  (forall d, deletes t0 d (t, o, x) = false) -> (forall d, change t0 d (t, o, x) = if c =? d then Some true else None) -> eff t0 s s' (t, o, x).
Proof.
  intros H E Hc Hd Hch. unfold chn_activate in E. destruct (k_body s c) as [b|] eqn:Eb; [|discriminate]. cbn zeta in E. injection E as <- <-.
  constructor; try (rewrite Hc); cbn.
  - lia. - intros ? [].
  - rewrite app_nil_r. symmetry. clear -Hd. induction (k_all s) as [|y l IH]; cbn; auto. rewrite Hd. cbn. congruence.
  - intros d _. rewrite Hch. destruct (existsb (N.eqb c) (r_act (k_rt s))) eqn:Ex.
    + destruct (N.eqb_spec c d); [|tauto]. subst. apply existsb_In in Ex. tauto.
    + rewrite in_app_iff. cbn. destruct (N.eqb_spec c d); [subst; tauto|]. intuition.
  - destruct (existsb (N.eqb c) (r_act (k_rt s))) eqn:Ex; [apply H|]. apply nodup_snoc; [apply H|]. intro Hi. apply existsb_In in Hi. congruence.
  - intros d Hi. rewrite Hch. unfold flags. cbn. unfold upd. rewrite (N.eqb_sym c d). destruct (d =? c); reflexivity.
  - intro d. unfold flags. cbn. unfold upd. destruct (N.eqb_spec d c).
    + subst. cbn. split; [intros _|discriminate]. apply (ki_body _ _ H). unfold flags. rewrite Eb. discriminate.
    + apply (ki_body _ _ H).
  - apply H. - reflexivity. - apply H. - apply H.
Qed.
Lemma deactivate_eff t0 s t o c x s' : kinv t0 s -> chn_deactivate s c = KOk s' x -> created1 (t, o, x) = [] ->
  (forall d, deletes t0 d (t, o, x) = false) -> (forall d, change t0 d (t, o, x) = if c =? d then Some false else None) -> eff t0 s s' (t, o, x).
Proof.
  intros H E Hc Hd Hch. unfold chn_deactivate in E. destruct (k_body s c) as [b|] eqn:Eb; [|discriminate]. cbn zeta in E. injection E as <- <-.
  constructor; try (rewrite Hc); cbn.
  - lia. - intros ? [].
  - rewrite app_nil_r. symmetry. clear -Hd. induction (k_all s) as [|y l IH]; cbn; auto. rewrite Hd. cbn. congruence.
  - intros d _. rewrite Hch, remove1_iff by apply H. destruct (N.eqb_spec c d).
    + subst. split; [tauto|discriminate]. + split; [tauto|]. intro. split; auto.
  - apply remove1_nodup. apply H.
  - intros d Hi. rewrite Hch. unfold flags. cbn. unfold upd. rewrite (N.eqb_sym c d). destruct (d =? c); reflexivity.
  - intro d. unfold flags. cbn. unfold upd. destruct (N.eqb_spec d c).
    + subst. cbn. split; [intros _|discriminate]. apply (ki_body _ _ H). unfold flags. rewrite Eb. discriminate.
    + apply (ki_body _ _ H).
  - apply H. - reflexivity. - apply H. - apply H.
Qed.
Lemma release_eff t0 s t t' o x s' : kinv t0 s -> k_release s t = KOk s' x -> created1 (t', o, x) = [] ->
  (forall d, deletes t0 d (t', o, x) = true) -> eff t0 s s' (t', o, x).
Proof.
  intros H E Hc Hd. destruct (release_spec t0 s t H) as (s1 & E1 & A1 & A2 & A3 & A4 & A5 & A6 & A7 & A8 & A9 & A10 & A11 & A12 & A13 & A14).
  rewrite E1 in E. injection E as <- <-.
  assert (Hch : forall d, change t0 d (t', o, KDone) = Some false) by (intro d; unfold change; rewrite Hd; auto).
  constructor; try (rewrite Hc); auto.
  - rewrite A3. cbn. lia. - intros ? [].
  - rewrite A1, app_nil_r. clear -Hd. induction (k_all s) as [|y l IH]; cbn; auto. rewrite Hd. cbn. auto.
  - intros d Hi. rewrite Hch, A13. split; [tauto|discriminate].
  - intros d Hi. rewrite A1 in Hi. destruct Hi.
  - intro d. unfold flags. rewrite A2, A3. apply (ki_body _ _ H).
  - rewrite A11. apply H.
  - congruence.
Qed.
Lemma create_eff t0 s t f l x s' k : kinv t0 s -> chn_create s t f l = KOk s' x -> created1 k = [k_next s] -> x = KChn (Some (k_next s)) ->
  (forall d, change t0 d k = None) -> k_live s = true -> eff t0 s s' k.
Proof.
  intros H E Hc _ Hch HL. unfold chn_create in E. cbn zeta in E.
  match type of E with (match chn_sets ?u _ _ _ with _ => _ end) = _ => set (s0 := u) in E end.
  destruct (chn_sets s0 t (k_next s) l) as [s1 x1| |] eqn:E1; try discriminate. injection E as <- <-.
  pose proof (sets_rlog _ _ _ _ _ _ E1) as Hr. apply sets_eff in E1. destruct E1 as (S & _).
  assert (Hd : forall c, deletes t0 c k = false) by (intro c; specialize (Hch c); unfold change in Hch; destruct (deletes t0 c k); congruence).
  destruct S as [B1 B2 B0 B3 B4 B5 B6]. constructor; try (rewrite Hc); cbn [klog k_next k_all k_rt k_main k_live k_thr length].
  - rewrite B1. cbn. lia.
  - intros c [<-|[]]. reflexivity.
  - rewrite B2. cbn. f_equal. symmetry. clear -Hd. induction (k_all s) as [|y r IH]; cbn; auto. rewrite Hd. cbn. congruence.
  - intros d _. rewrite Hch, B5. reflexivity.
  - rewrite B5. apply H.
  - intros d Hi. change (flags (klog s1 [KPostInit (k_next s)]) d) with (flags s1 d). rewrite B6, Hch. unfold flags. cbn. unfold upd.
    destruct (d =? k_next s); reflexivity.
  - intro d. change (flags (klog s1 [KPostInit (k_next s)]) d) with (flags s1 d). rewrite B6, B1. unfold flags. cbn. unfold upd.
    destruct (N.eqb_spec d (k_next s)).
    + subst. cbn. split; [lia|discriminate].
    + change (option_map (fun b => (b_active b, b_flush b)) (k_body s d)) with (flags s d). rewrite (ki_body _ _ H d). lia.
  - rewrite Hr. apply H.
  - rewrite B3. reflexivity.
  - rewrite B4. cbn. congruence.
  - rewrite B4. cbn. intros _. assert (Hm : k_main s0 = t0) by apply H. rewrite Hm in B0. apply B0. cbn. apply (ki_thr _ _ H HL).
Qed.
