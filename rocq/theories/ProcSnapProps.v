(* C23: the cached process context in a snapshot is never stale *)
From Verif Require Import Base ProcSnapModel.
Local Open Scope Z_scope.

Definition writing {A} (p : pc A) : Prop := match p with WHeld | WDirty | WCounted => True | _ => False end.
Definition holding {A} (p : pc A) : Prop := match p with WHeld | WDirty | WCounted | RHeld _ => True | _ => False end.
(* updates counted but not completed *)
Definition extra {A} (s : sys A) : Z :=
  match s_lock s with Some t => match th_pc (s_thr s t) with WCounted => 1 | _ => 0 end | None => 0 end.

(* thread-local invariant: n completed updates *)
Definition cache_ok {A} (h : list A) (x : thr A) : Prop :=
  th_count x = -1 \/ exists k, nth_error h k = Some (th_cache x) /\ th_count x <= Z.of_nat k.
Definition pc_ok {A} (s : sys A) (x : thr A) : Prop :=
  (th_start x < length (s_hist s))%nat /\
  match th_pc x with
  | RLoaded c | RWait c | RHeld c => Z.of_nat (th_start x) <= c /\ 0 <= c <= Z.of_nat (length (s_hist s)) - 1 + extra s
  | RDone => exists k, nth_error (s_hist s) k = Some (th_cache x) /\ (th_start x <= k)%nat
  | _ => True
  end.
Record pinv {A} (s : sys A) : Prop := {
  pi_ne : (0 < length (s_hist s))%nat;
  pi_hold : forall t, holding (th_pc (s_thr s t)) <-> s_lock s = Some t;
  pi_cnt : s_cnt s = Z.of_nat (length (s_hist s)) - 1 + extra s;
  pi_tab : (forall t, s_lock s = Some t -> th_pc (s_thr s t) = WHeld \/ exists c, th_pc (s_thr s t) = RHeld c) -> nth_error (s_hist s) (length (s_hist s) - 1) = Some (s_tab s);
  pi_cache : forall t, cache_ok (s_hist s) (s_thr s t);
  pi_pc : forall t, pc_ok s (s_thr s t)
}.

Lemma wrap_small z : -2147483648 <= z < 2147483648 -> wrap32 z = z.
Proof. intro H. unfold wrap32. rewrite Z.mod_small; lia. Qed.
Lemma set_thr_same {A} (f : N -> thr A) t x : set_thr f t x t = x.
Proof. unfold set_thr. rewrite N.eqb_refl. reflexivity. Qed.
Lemma set_thr_other {A} (f : N -> thr A) t x j : j <> t -> set_thr f t x j = f j.
Proof. intro H. unfold set_thr. apply N.eqb_neq in H. rewrite H. reflexivity. Qed.
Lemma nth_error_snoc {A} (l : list A) x k y : nth_error l k = Some y -> nth_error (l ++ [x]) k = Some y.
Proof. intro H. rewrite nth_error_app1; auto. apply nth_error_Some. congruence. Qed.
Lemma cache_snoc {A} (h : list A) y x : cache_ok h x -> cache_ok (h ++ [y]) x.
Proof. intros [H|(k & H1 & H2)]; [left; auto|right; exists k; split; auto using nth_error_snoc]. Qed.
Lemma extra_bound {A} (s : sys A) : 0 <= extra s <= 1.
Proof. unfold extra. destruct (s_lock s) as [t|]; [|lia]. destruct (th_pc _); lia. Qed.

(* a thread's own local view after a step that keeps everything else *)
Lemma pc_ok_mono {A} (s s' : sys A) x : (length (s_hist s) <= length (s_hist s'))%nat ->
  (forall k y, nth_error (s_hist s) k = Some y -> nth_error (s_hist s') k = Some y) ->
  Z.of_nat (length (s_hist s)) + extra s <= Z.of_nat (length (s_hist s')) + extra s' -> pc_ok s x -> pc_ok s' x.
Proof.
  intros Hl Hn He (H1 & H2). split; [lia|]. destruct (th_pc x); auto; try (destruct H2; split; lia).
  destruct H2 as (k & A1 & A2). exists k. auto.
Qed.


Lemma extra_not_mine {A} l tab cnt h (f : N -> thr A) t x : (l = Some t -> th_pc x <> WCounted /\ th_pc (f t) <> WCounted) ->
  extra (mksys l tab cnt h (set_thr f t x)) = extra (mksys l tab cnt h f).
Proof.
  intro H. unfold extra; cbn. destruct l as [u|]; auto. destruct (N.eq_dec u t).
  - subst. rewrite set_thr_same. destruct (H eq_refl) as (H1 & H2). destruct (th_pc x); try congruence; destruct (th_pc (f t)); congruence.
  - rewrite set_thr_other by auto. reflexivity.
Qed.
Lemma extra_eta {A} (s : sys A) tab cnt h : extra (mksys (s_lock s) tab cnt h (s_thr s)) = extra s.
Proof. reflexivity. Qed.
Lemma holding_at {A} (x : thr A) p : holding (th_pc (at_pc x p)) <-> holding p.
Proof. reflexivity. Qed.

(* moves of a thread that neither take nor release the lock nor touch the shared state *)
Lemma pinv_local {A} (s : sys A) t x : pinv s -> ~ holding (th_pc (s_thr s t)) -> ~ holding (th_pc x) ->
  cache_ok (s_hist s) x -> pc_ok s x -> pinv (mksys (s_lock s) (s_tab s) (s_cnt s) (s_hist s) (set_thr (s_thr s) t x)).
Proof.
  intros [I1 I2 I3 I4 I5 I6] Hn Hx Hc Hp.
  assert (Hl : s_lock s <> Some t) by (intro Z; apply Hn, I2; auto).
  assert (Ex : extra (mksys (s_lock s) (s_tab s) (s_cnt s) (s_hist s) (set_thr (s_thr s) t x)) = extra s).
  { rewrite extra_not_mine by (intro; contradiction). apply extra_eta. }
  constructor; cbn [s_lock s_tab s_cnt s_hist s_thr]; auto.
  - intro j. destruct (N.eq_dec j t); [subst; rewrite set_thr_same; split; [contradiction|congruence]|rewrite set_thr_other by auto; apply I2].
  - rewrite Ex. auto.
  - intro H. apply I4. intros j Hj. specialize (H j Hj). rewrite set_thr_other in H by congruence. auto.
  - intro j. destruct (N.eq_dec j t); [subst; rewrite set_thr_same; auto|rewrite set_thr_other by auto; auto].
  - intro j. apply (pc_ok_mono s); cbn [s_lock s_tab s_cnt s_hist s_thr]; auto; [rewrite Ex; lia|].
    destruct (N.eq_dec j t); [subst; rewrite set_thr_same; auto|rewrite set_thr_other by auto; auto].
Qed.

Lemma pstep_inv {A} (s s' : sys A) : pinv s -> pstep s s' -> Z.of_nat (length (s_hist s')) < 2147483648 -> pinv s'.
Proof.
  intros HI H. pose proof HI as [I1 I2 I3 I4 I5 I6]. destruct H as [s t H1 H2|s t H1|s t x H1|s t H1|s t x H1|s t H1|s t H1|s t H1|s t c H1|s t c H1 H2|s t c H1|s t H1]; cbn [s_hist]; intro Hb.
  - (* wlock *)
    assert (Ex : extra (mksys (Some t) (s_tab s) (s_cnt s) (s_hist s) (set_thr (s_thr s) t (at_pc (s_thr s t) WHeld))) = 0) by (unfold extra; cbn; rewrite set_thr_same; reflexivity).
    assert (Ex0 : extra s = 0) by (unfold extra; rewrite H2; reflexivity).
    constructor; cbn [s_lock s_tab s_cnt s_hist s_thr]; auto.
    + intro j. destruct (N.eq_dec j t); [subst; rewrite set_thr_same; cbn; tauto|]. rewrite set_thr_other by auto. rewrite I2, H2. split; congruence.
    + rewrite Ex. lia.
    + intros _. apply I4. rewrite H2. discriminate.
    + intro j. destruct (N.eq_dec j t); [subst; rewrite set_thr_same; apply (I5 t)|rewrite set_thr_other by auto; auto].
    + intro j. apply (pc_ok_mono s); cbn [s_lock s_tab s_cnt s_hist s_thr]; auto; [rewrite Ex, Ex0; lia|]. destruct (N.eq_dec j t); [subst; rewrite set_thr_same|rewrite set_thr_other by auto; auto].
      split; [apply (I6 t)|exact I].
  - (* wnop *)
    assert (Hl : s_lock s = Some t) by (apply I2; rewrite H1; exact I).
    assert (Ex0 : extra s = 0) by (unfold extra; rewrite Hl, H1; reflexivity).
    constructor; cbn [s_lock s_tab s_cnt s_hist s_thr]; auto.
    + intro j. destruct (N.eq_dec j t); [subst; rewrite set_thr_same; cbn; split; [tauto|discriminate]|]. rewrite set_thr_other by auto. rewrite I2, Hl. split; congruence.
    + unfold extra; cbn. lia.
    + intros _. apply I4. intros j Hj. left. congruence.
    + intro j. destruct (N.eq_dec j t); [subst; rewrite set_thr_same; apply (I5 t)|rewrite set_thr_other by auto; auto].
    + intro j. apply (pc_ok_mono s); cbn [s_lock s_tab s_cnt s_hist s_thr]; auto; [rewrite Ex0; unfold extra; cbn; lia|]. destruct (N.eq_dec j t); [subst; rewrite set_thr_same|rewrite set_thr_other by auto; auto].
      split; [apply (I6 t)|exact I].
  - (* write *)
    assert (Hl : s_lock s = Some t) by (apply I2; destruct H1 as [-> | ->]; exact I).
    assert (Ex0 : extra s = 0) by (unfold extra; rewrite Hl; destruct H1 as [-> | ->]; reflexivity).
    assert (Ex : extra (mksys (s_lock s) x (s_cnt s) (s_hist s) (set_thr (s_thr s) t (at_pc (s_thr s t) WDirty))) = 0) by (unfold extra; cbn; rewrite Hl, set_thr_same; reflexivity).
    constructor; cbn [s_lock s_tab s_cnt s_hist s_thr]; auto.
    + intro j. destruct (N.eq_dec j t); [subst; rewrite set_thr_same; cbn; tauto|]. rewrite set_thr_other by auto. apply I2.
    + rewrite Ex. lia.
    + intro H. destruct (H t Hl) as [Z|(c & Z)]; rewrite set_thr_same in Z; discriminate.
    + intro j. destruct (N.eq_dec j t); [subst; rewrite set_thr_same; apply (I5 t)|rewrite set_thr_other by auto; auto].
    + intro j. apply (pc_ok_mono s); cbn [s_lock s_tab s_cnt s_hist s_thr]; auto; [rewrite Ex, Ex0; lia|]. destruct (N.eq_dec j t); [subst; rewrite set_thr_same|rewrite set_thr_other by auto; auto].
      split; [apply (I6 t)|exact I].
  - (* count *)
    assert (Hl : s_lock s = Some t) by (apply I2; rewrite H1; exact I).
    assert (Ex0 : extra s = 0) by (unfold extra; rewrite Hl, H1; reflexivity).
    assert (Ex : extra (mksys (s_lock s) (s_tab s) (wrap32 (s_cnt s + 1)) (s_hist s) (set_thr (s_thr s) t (at_pc (s_thr s t) WCounted))) = 1) by (unfold extra; cbn; rewrite Hl, set_thr_same; reflexivity).
    constructor; cbn [s_lock s_tab s_cnt s_hist s_thr]; auto.
    + intro j. destruct (N.eq_dec j t); [subst; rewrite set_thr_same; cbn; tauto|]. rewrite set_thr_other by auto. apply I2.
    + rewrite Ex, wrap_small; lia.
    + intro H. destruct (H t Hl) as [Z|(c & Z)]; rewrite set_thr_same in Z; discriminate.
    + intro j. destruct (N.eq_dec j t); [subst; rewrite set_thr_same; apply (I5 t)|rewrite set_thr_other by auto; auto].
    + intro j. apply (pc_ok_mono s); cbn [s_lock s_tab s_cnt s_hist s_thr]; auto; [rewrite Ex, Ex0; lia|]. destruct (N.eq_dec j t); [subst; rewrite set_thr_same|rewrite set_thr_other by auto; auto].
      split; [apply (I6 t)|exact I].
  - (* more writes *)
    assert (Hl : s_lock s = Some t) by (apply I2; rewrite H1; exact I).
    constructor; cbn [s_lock s_tab s_cnt s_hist s_thr]; auto.
    + intro H. destruct (H t Hl) as [Z|(c & Z)]; congruence.
  - (* unlock *)
    assert (Hl : s_lock s = Some t) by (apply I2; rewrite H1; exact I).
    assert (Ex0 : extra s = 1) by (unfold extra; rewrite Hl, H1; reflexivity).
    constructor; cbn [s_lock s_tab s_cnt s_hist s_thr]; auto; rewrite ?app_length; cbn [length].
    + lia.
    + intro j. destruct (N.eq_dec j t); [subst; rewrite set_thr_same; cbn; split; [tauto|discriminate]|]. rewrite set_thr_other by auto. rewrite I2, Hl. split; congruence.
    + unfold extra; cbn. lia.
    + intros _. replace (length (s_hist s) + 1 - 1)%nat with (length (s_hist s)) by lia. rewrite nth_error_app2, Nat.sub_diag; auto.
    + intro j. apply cache_snoc. destruct (N.eq_dec j t); [subst; rewrite set_thr_same; apply (I5 t)|rewrite set_thr_other by auto; auto].
    + intro j. apply (pc_ok_mono s); cbn [s_lock s_tab s_cnt s_hist s_thr]; auto using nth_error_snoc; rewrite ?app_length; cbn [length]; [lia|rewrite Ex0; unfold extra; cbn; lia|].
      destruct (N.eq_dec j t); [subst; rewrite set_thr_same|rewrite set_thr_other by auto; auto].
      split; [apply (I6 t)|exact I].
  - (* call *)
    apply pinv_local; auto; try (rewrite H1; tauto); cbn; try tauto. + apply (I5 t). + split; cbn; [lia|exact I].
  - (* load *)
    apply pinv_local; auto; try (rewrite H1; tauto); cbn; try tauto. + apply (I5 t).
    + destruct (I6 t) as (J1 & J2). pose proof (extra_bound s). split; cbn; [auto|]. lia.
  - (* test *)
    destruct (I6 t) as (J1 & J2). rewrite H1 in J2.
    apply pinv_local; auto; try (rewrite H1; tauto); cbn; try tauto.
    + destruct (th_count (s_thr s t) <? c); cbn; tauto.
    + apply (I5 t).
    + split; cbn; [auto|]. destruct (Z.ltb_spec (th_count (s_thr s t)) c); [auto|].
      destruct (I5 t) as [Z|(k & K1 & K2)]; [lia|]. exists k. split; auto. lia.
  - (* reader locks *)
    assert (Ex : extra (mksys (Some t) (s_tab s) (s_cnt s) (s_hist s) (set_thr (s_thr s) t (at_pc (s_thr s t) (RHeld c)))) = 0) by (unfold extra; cbn; rewrite set_thr_same; reflexivity).
    assert (Ex0 : extra s = 0) by (unfold extra; rewrite H2; reflexivity).
    constructor; cbn [s_lock s_tab s_cnt s_hist s_thr]; auto.
    + intro j. destruct (N.eq_dec j t); [subst; rewrite set_thr_same; cbn; tauto|]. rewrite set_thr_other by auto. rewrite I2, H2. split; congruence.
    + rewrite Ex. lia.
    + intros _. apply I4. rewrite H2. discriminate.
    + intro j. destruct (N.eq_dec j t); [subst; rewrite set_thr_same; apply (I5 t)|rewrite set_thr_other by auto; auto].
    + intro j. apply (pc_ok_mono s); cbn [s_lock s_tab s_cnt s_hist s_thr]; auto; [rewrite Ex, Ex0; lia|]. destruct (N.eq_dec j t); [subst; rewrite set_thr_same|rewrite set_thr_other by auto; auto].
      destruct (I6 t) as (J1 & J2). rewrite H1 in J2. split; cbn; auto.
  - (* snapshot *)
    assert (Hl : s_lock s = Some t) by (apply I2; rewrite H1; exact I).
    assert (Ex0 : extra s = 0) by (unfold extra; rewrite Hl, H1; reflexivity).
    destruct (I6 t) as (J1 & J2). rewrite H1, Ex0 in J2.
    assert (Tab : nth_error (s_hist s) (length (s_hist s) - 1) = Some (s_tab s)). { apply I4. intros j Hj. right. exists c. congruence. }
    constructor; cbn [s_lock s_tab s_cnt s_hist s_thr]; auto.
    + intro j. destruct (N.eq_dec j t); [subst; rewrite set_thr_same; cbn; split; [tauto|discriminate]|]. rewrite set_thr_other by auto. rewrite I2, Hl. split; congruence.
    + unfold extra; cbn. lia.
    + intro j. destruct (N.eq_dec j t); [subst; rewrite set_thr_same|rewrite set_thr_other by auto; auto].
      right. exists (length (s_hist s) - 1)%nat. cbn. split; auto. lia.
    + intro j. apply (pc_ok_mono s); cbn [s_lock s_tab s_cnt s_hist s_thr]; auto; [rewrite Ex0; unfold extra; cbn; lia|]. destruct (N.eq_dec j t); [subst; rewrite set_thr_same|rewrite set_thr_other by auto; auto].
      split; cbn; [auto|]. exists (length (s_hist s) - 1)%nat. split; auto. lia.
  - (* return *)
    apply pinv_local; auto; try (rewrite H1; tauto); cbn; try tauto. + apply (I5 t). + split; [apply (I6 t)|exact I].
Qed.

Lemma pstep_len {A} (s s' : sys A) : pstep s s' -> (length (s_hist s) <= length (s_hist s'))%nat.
Proof. destruct 1; cbn; auto. rewrite app_length. lia. Qed.
Lemma psteps_inv {A} (e : A) s s0 : psteps s0 s -> s0 = psys_init e -> Z.of_nat (length (s_hist s)) < 2147483648 -> pinv s.
Proof.
  induction 1 as [s|s1 s2 s3 H IH Hs]; intros -> Hb.
  - constructor; cbn [s_lock s_tab s_cnt s_hist s_thr]; auto.
    + intro t. cbn. split; [tauto|discriminate].
    + intro t. left; reflexivity.
    + intro t. split; cbn; [lia|exact I].
  - eapply pstep_inv; eauto. apply IH; auto. pose proof (pstep_len _ _ Hs). lia.
Qed.

(* C23: when a snapshot call of thread t is about to use its cached copy of the process context,
   the copy is the content after k completed updates, where k is at least the number of
   updates that were complete when the call started; for every interleaving of any number of
   threads, provided there were less than 2^31 - 1 updates. *)
Theorem C23_snapshot_not_stale : forall A (e : A) s t, psteps (psys_init e) s -> Z.of_nat (length (s_hist s)) < 2147483648 ->
  th_pc (s_thr s t) = RDone ->
  exists k, nth_error (s_hist s) k = Some (th_cache (s_thr s t)) /\ (th_start (s_thr s t) <= k)%nat.
Proof.
  intros A e s t H Hb Hpc. destruct (psteps_inv e s _ H eq_refl Hb) as [_ _ _ _ _ I6]. destruct (I6 t) as (_ & J). rewrite Hpc in J. exact J.
Qed.
Print Assumptions C23_snapshot_not_stale.

(* a thread never reads the table while another one writes it *)
Theorem C23_no_torn_snapshot : forall A (e : A) s t c t', psteps (psys_init e) s -> Z.of_nat (length (s_hist s)) < 2147483648 ->
  th_pc (s_thr s t) = RHeld c -> writing (th_pc (s_thr s t')) -> False.
Proof.
  intros A e s t c t' H Hb Hpc Hw. destruct (psteps_inv e s _ H eq_refl Hb) as [_ I2 _ _ _ _].
  assert (H1 : s_lock s = Some t) by (apply I2; rewrite Hpc; exact I).
  assert (H2 : s_lock s = Some t') by (apply I2; destruct (th_pc (s_thr s t')); cbn in *; auto).
  assert (t = t') by congruence. subst t'. rewrite Hpc in Hw. exact Hw.
Qed.
Print Assumptions C23_no_torn_snapshot.

(* Finding: the counter is an int.  Once it has passed 2^31 - 1 it is negative, and a thread
   that has taken a snapshot before never refreshes its copy again: here the call returns the
   old content although the update was complete before it started. *)
Lemma psteps_trans {A} (a b c : sys A) : psteps a b -> psteps b c -> psteps a c.
Proof. intros H1 H2. revert a H1. induction H2 as [s|s1 s2 s3 H IH Hs]; intros a H1; [exact H1|]. eapply ps_step; [apply IH; exact H1|exact Hs]. Qed.
Definition quiet (s : sys nat) (n : nat) : Prop :=
  s_lock s = None /\ s_hist s = seq 0 (S n) /\ s_cnt s = wrap32 (Z.of_nat n) /\ s_tab s = n /\
  th_pc (s_thr s 0%N) = Idle /\ th_pc (s_thr s 1%N) = Idle.
Lemma wrap_succ z : wrap32 (wrap32 z + 1) = wrap32 (z + 1).
Proof.
  unfold wrap32. f_equal. replace ((z + 2147483648) mod 4294967296 - 2147483648 + 1 + 2147483648) with ((z + 2147483648) mod 4294967296 + 1) by lia.
  rewrite Zplus_mod_idemp_l. f_equal. lia.
Qed.
Lemma one_update (s : sys nat) n : quiet s n -> exists s', psteps s s' /\ quiet s' (S n) /\ s_thr s' 0%N = s_thr s 0%N.
Proof.
  intros (H1 & H2 & H3 & H4 & H5 & H6).
  eexists. split; [|split].
  - eapply ps_step; [eapply ps_step; [eapply ps_step; [eapply ps_step; [apply ps_refl|]|]|]|].
    + apply (st_wlock _ 1%N); auto.
    + apply (st_wfirst _ 1%N (S n)). left. cbn [s_thr]. rewrite set_thr_same. reflexivity.
    + apply (st_wcount _ 1%N). cbn [s_thr]. rewrite set_thr_same. reflexivity.
    + apply (st_wunlock _ 1%N). cbn [s_thr]. rewrite set_thr_same. reflexivity.
  - unfold quiet. cbn [s_lock s_hist s_cnt s_tab s_thr]. rewrite set_thr_same. rewrite !set_thr_other by discriminate.
    split; [reflexivity|]. split; [rewrite H2, (seq_S (S n) 0); reflexivity|]. split; [rewrite H3, wrap_succ; f_equal; lia|]. auto.
  - cbn [s_thr]. rewrite !set_thr_other by discriminate. reflexivity.
Qed.
Lemma many_updates n : exists s, psteps (psys_init 0%nat) s /\ quiet s n.
Proof.
  induction n as [|n (s & H1 & H2)]; [exists (psys_init 0%nat); split; [constructor|repeat split]|].
  destruct (one_update s n H2) as (s' & H3 & H4 & _). exists s'. split; auto. eapply psteps_trans; eauto.
Qed.
Lemma one_snapshot (s : sys nat) n : quiet s n -> th_count (s_thr s 0%N) < s_cnt s -> 
  exists s', psteps s s' /\ quiet s' n /\ th_cache (s_thr s' 0%N) = n /\ th_count (s_thr s' 0%N) = wrap32 (Z.of_nat n).
Proof.
  intros (H1 & H2 & H3 & H4 & H5 & H6) Hlt.
  eexists. split; [|split; [|split]].
  - eapply ps_step; [eapply ps_step; [eapply ps_step; [eapply ps_step; [eapply ps_step; [eapply ps_step; [apply ps_refl|]|]|]|]|]|].
    + apply (st_call _ 0%N); auto.
    + apply (st_load _ 0%N). cbn [s_thr]. rewrite set_thr_same. reflexivity.
    + eapply (st_test _ 0%N). cbn [s_thr]. rewrite set_thr_same. reflexivity.
    + eapply (st_rlock _ 0%N); [|exact H1]. cbn [s_thr s_cnt]. rewrite !set_thr_same. cbn [at_pc th_pc th_count].
      apply Z.ltb_lt in Hlt. rewrite Hlt. reflexivity.
    + eapply (st_rsnap _ 0%N). cbn [s_thr]. rewrite set_thr_same. reflexivity.
    + eapply (st_return _ 0%N). cbn [s_thr]. rewrite set_thr_same. reflexivity.
  - unfold quiet. cbn [s_lock s_hist s_cnt s_tab s_thr]. rewrite !set_thr_same. rewrite !(fun f x => set_thr_other f 0%N x 1%N) by discriminate. auto 10.
  - cbn [s_thr]. rewrite !set_thr_same. exact H4.
  - cbn [s_thr s_cnt]. rewrite !set_thr_same. exact H3.
Qed.
(* every content of this run is used once: content n after n updates *)
Theorem C23_counter_wrap_refuted : exists s, psteps (psys_init 0%nat) s /\ th_pc (s_thr s 0%N) = RDone /\
  forall k, nth_error (s_hist s) k = Some (th_cache (s_thr s 0%N)) -> (k < th_start (s_thr s 0%N))%nat.
Proof.
  destruct (Z_of_nat_complete 2147483646) as (n & Hn); [lia|]. symmetry in Hn. destruct (many_updates n) as (s0 & P0 & Q0).
  destruct (one_update s0 n Q0) as (s1 & P1 & Q1 & E1).
  assert (T0 : th_count (s_thr s1 0%N) < s_cnt s1).
  { destruct Q1 as (_ & Qh & Qc & _). rewrite Qc, wrap_small by lia.
    assert (Inv0 : pinv s0). { destruct Q0 as (_ & Qh0 & _). eapply (psteps_inv 0%nat s0); [eauto|reflexivity|rewrite Qh0, seq_length; lia]. }
    rewrite E1. destruct (pi_cache _ Inv0 0%N) as [Z|(k & K1 & K2)]; [lia|].
    assert ((k < length (s_hist s0))%nat) by (apply nth_error_Some; congruence). destruct Q0 as (_ & Qh0 & _). rewrite Qh0, seq_length in H. lia. }
  destruct (one_snapshot s1 (S n) Q1 T0) as (s2 & P2 & Q2 & C2 & D2).
  destruct (one_update s2 (S n) Q2) as (s3 & P3 & Q3 & E3).
  pose proof Q3 as (R1 & R2 & R3 & R4 & R5 & R6).
  assert (Cn : s_cnt s3 = -2147483648). { rewrite R3. replace (Z.of_nat (S (S n))) with 2147483648 by lia. reflexivity. }
  assert (D3 : th_count (s_thr s3 0%N) = 2147483647). { rewrite E3, D2. replace (Z.of_nat (S n)) with 2147483647 by lia. reflexivity. }
  assert (C3 : th_cache (s_thr s3 0%N) = S n) by (rewrite E3; exact C2).
  eexists. split; [|split].
  - eapply psteps_trans; [eapply psteps_trans; [eapply psteps_trans; [eapply psteps_trans; [exact P0|exact P1]|exact P2]|exact P3]|].
    eapply ps_step; [eapply ps_step; [eapply ps_step; [apply ps_refl|]|]|].
    + apply (st_call _ 0%N); auto.
    + apply (st_load _ 0%N). cbn [s_thr]. rewrite set_thr_same. reflexivity.
    + eapply (st_test _ 0%N). cbn [s_thr]. rewrite set_thr_same. reflexivity.
  - cbn [s_thr s_cnt]. rewrite !set_thr_same. cbn [at_pc th_pc th_count]. rewrite D3, Cn. reflexivity.
  - cbn [s_thr s_cnt s_hist]. rewrite !set_thr_same. cbn [at_pc th_cache th_start]. rewrite R2, C3. intros k Hk.
    assert (k < S (S (S n)))%nat. { apply (nth_error_Some (seq 0 (S (S (S n)))) k) in Hk || idtac. rewrite <- (seq_length (S (S (S n))) 0). apply nth_error_Some. congruence. }
    rewrite (nth_error_nth' _ 0%nat) in Hk by (rewrite seq_length; auto). rewrite seq_nth in Hk by auto. injection Hk as Hk. rewrite seq_length. lia.
Qed.
Print Assumptions C23_counter_wrap_refuted.

(* non-vacuity: a run in which a thread updates the context to 7 and then a reader finishes with it *)
Example C23_ex : exists s, psteps (psys_init 0%nat) s /\ th_pc (s_thr s 0%N) = RDone /\ th_cache (s_thr s 0%N) = 7%nat /\ s_hist s = [0; 7]%nat /\ th_start (s_thr s 0%N) = 1%nat.
Proof.
  pose (a0 := psys_init 0%nat).
  pose (a1 := mksys (Some 1%N) (s_tab a0) (s_cnt a0) (s_hist a0) (set_thr (s_thr a0) 1%N (at_pc (s_thr a0 1%N) WHeld))).
  pose (a2 := mksys (s_lock a1) 7%nat (s_cnt a1) (s_hist a1) (set_thr (s_thr a1) 1%N (at_pc (s_thr a1 1%N) WDirty))).
  pose (a3 := mksys (s_lock a2) (s_tab a2) (wrap32 (s_cnt a2 + 1)) (s_hist a2) (set_thr (s_thr a2) 1%N (at_pc (s_thr a2 1%N) WCounted))).
  pose (a4 := mksys None (s_tab a3) (s_cnt a3) (s_hist a3 ++ [s_tab a3]) (set_thr (s_thr a3) 1%N (at_pc (s_thr a3 1%N) Idle))).
  pose (a5 := mksys (s_lock a4) (s_tab a4) (s_cnt a4) (s_hist a4)
       (set_thr (s_thr a4) 0%N (mkthr RCalled (th_cache (s_thr a4 0%N)) (th_count (s_thr a4 0%N)) (length (s_hist a4) - 1)))).
  pose (a6 := mksys (s_lock a5) (s_tab a5) (s_cnt a5) (s_hist a5) (set_thr (s_thr a5) 0%N (at_pc (s_thr a5 0%N) (RLoaded (s_cnt a5))))).
  pose (a7 := mksys (s_lock a6) (s_tab a6) (s_cnt a6) (s_hist a6)
       (set_thr (s_thr a6) 0%N (at_pc (s_thr a6 0%N) (if th_count (s_thr a6 0%N) <? 1 then RWait 1 else RDone)))).
  pose (a8 := mksys (Some 0%N) (s_tab a7) (s_cnt a7) (s_hist a7) (set_thr (s_thr a7) 0%N (at_pc (s_thr a7 0%N) (RHeld 1)))).
  pose (a9 := mksys None (s_tab a8) (s_cnt a8) (s_hist a8) (set_thr (s_thr a8) 0%N (mkthr RDone (s_tab a8) 1 (th_start (s_thr a8 0%N))))).
  assert (H1 : pstep a0 a1) by (apply (st_wlock a0 1%N); reflexivity).
  assert (H2 : pstep a1 a2) by (apply (st_wfirst a1 1%N 7%nat); left; reflexivity).
  assert (H3 : pstep a2 a3) by (apply (st_wcount a2 1%N); reflexivity).
  assert (H4 : pstep a3 a4) by (apply (st_wunlock a3 1%N); reflexivity).
  assert (H5 : pstep a4 a5) by (apply (st_call a4 0%N); reflexivity).
  assert (H6 : pstep a5 a6) by (apply (st_load a5 0%N); reflexivity).
  assert (H7 : pstep a6 a7) by (apply (st_test a6 0%N 1); vm_compute; reflexivity).
  assert (H8 : pstep a7 a8) by (apply (st_rlock a7 0%N 1); vm_compute; reflexivity).
  assert (H9 : pstep a8 a9) by (apply (st_rsnap a8 0%N 1); vm_compute; reflexivity).
  exists a9. split; [|vm_compute; repeat split; reflexivity].
  exact (ps_step _ _ _ (ps_step _ _ _ (ps_step _ _ _ (ps_step _ _ _ (ps_step _ _ _ (ps_step _ _ _ (ps_step _ _ _ (ps_step _ _ _ (ps_step _ _ _ (ps_refl _) H1) H2) H3) H4) H5) H6) H7) H8) H9).
Qed.
