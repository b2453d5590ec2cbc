(* C63: channel lifecycle; C64: channel contexts *)
From Coq Require FinFun.
From Verif Require Import Base VariantModel VariantSpec TreeModel TreeSpec TreeProofs TreeProofs2
  RuntimeModel RuntimeSpec RuntimeProofs RuntimeProofs2 RuntimeProps2 RuntimeProps3 ChnModel ChnSpec ChnProofs ChnProofs2 ChnProofs3 ChnProofs4 ChnProofs5 ChnProofs6.

Lemma active_alive t0 h s c : KJ t0 h s -> active t0 c h = true -> alive t0 c h = true.
Proof. intros H Ha. apply (j_all _ _ _ (kj_j _ _ _ H)), (j_sub _ _ _ (kj_j _ _ _ H)), (j_act _ _ _ (kj_j _ _ _ H)). exact Ha. Qed.
Lemma flag_active t0 h s c b : KJ t0 h s -> alive t0 c h = true -> k_body s c = Some b -> b_active b = active t0 c h.
Proof.
  intros H Ha Eb. apply (j_all _ _ _ (kj_j _ _ _ H)) in Ha. pose proof (j_flag _ _ _ (kj_j _ _ _ H) c Ha) as E. unfold flags in E. rewrite Eb in E. cbn in E. congruence.
Qed.
Lemma has_body t0 h s c : KJ t0 h s -> alive t0 c h = true -> exists b, k_body s c = Some b.
Proof.
  intros H Ha. apply (j_all _ _ _ (kj_j _ _ _ H)) in Ha. apply (inv_body t0); [apply H|]. apply (ki_lt t0 s); [apply H|auto].
Qed.
Lemma hello_log t0 h s t o : KJ t0 h s -> k_live s = true -> exited t h = false -> uses o = true -> k_log (ensure s t) = k_log s ++ hello t0 h t o.
Proof.
  intros H HL Hx Hu. unfold ensure, hello. rewrite Hu. pose proof (kj_thr _ _ _ H HL t Hx) as Ht.
  destruct (existsb (N.eqb t) (k_thr s)) eqn:E; destruct (known t0 t h) eqn:Ek; cbn [andb negb].
  - rewrite app_nil_r; auto.
  - apply existsb_In in E. apply Ht in E. discriminate.
  - assert (Z : In t (k_thr s)) by (apply Ht; auto). apply existsb_In in Z. congruence.
  - cbn. rewrite (kj_all _ _ _ H). reflexivity.
Qed.
Lemma find_alive t0 h s t i : KJ t0 h s -> chn_find (ensure s t) i = if alive t0 i h then Some i else None.
Proof.
  intro H. unfold chn_find. rewrite ensure_all. pose proof (j_all _ _ _ (kj_j _ _ _ H) i) as Ha. destruct (find (N.eqb i) (k_all s)) as [d|] eqn:E.
  - apply List.find_some in E. destruct E as (E1 & E2). apply N.eqb_eq in E2. subst d. apply Ha in E1. rewrite E1. reflexivity.
  - destruct (alive t0 i h); auto. exfalso. assert (Z : In i (k_all s)) by (apply Ha; auto). apply (List.find_none _ _ E) in Z. rewrite N.eqb_refl in Z. discriminate.
Qed.
Lemma ok_live s o : kop_ok s o -> guarded o = false -> k_live s = true.
Proof. intros (H & _) Hg. auto. Qed.
Lemma ok_noact s o : kop_ok s o -> match o with KApi o => no_act o | _ => True end.
Proof. intros (_ & _ & _ & H). destruct o; auto. apply H. Qed.

(* C63, 1: channel ids are never reused, and get_all_channels returns exactly the existing
   channels, in creation order.  The exact answers of the query functions. *)
Theorem C63_ids : forall t0 h s, k_hist t0 h s -> created h = map N.of_nat (seq 0 (length (created h))) /\ NoDup (created h).
Proof.
  intros t0 h s H. apply KJ_hist in H. pose proof (j_created _ _ _ (kj_j _ _ _ H)) as E. assert (El : length (created h) = N.to_nat (k_next s)) by (rewrite E, map_length, seq_length; reflexivity).
  rewrite El. split; auto. rewrite E. apply Coq.Logic.FinFun.Injective_map_NoDup; [intros a b; apply Nat2N.inj|apply seq_NoDup].
Qed.
Theorem C63_queries : forall t0 h s t o s' x, k_hist t0 h s -> kop_ok s o -> k_step s t o = KOk s' x ->
  match o with
  | KCreate _ _ _ _ _ _ _ => x = KChn (Some (N.of_nat (length (created h))))
  | KFind i => x = KChn (if alive t0 i h then Some i else None)
  | KAll => x = KChns (filter (fun c => alive t0 c h) (created h))
  | KIsActive c => alive t0 c h = true -> x = KBool (active t0 c h)
  | KcIsActive i => x = KBool (active t0 i h)
  | _ => True
  end.
Proof.
  intros t0 h s t o s' x H Hok E. apply KJ_hist in H. destruct o; try exact Logic.I.
  - pose proof (live_step _ _ _ _ _ E eq_refl (ok_live _ _ Hok eq_refl)) as E1. cbn [k_run1] in E1. unfold chn_create in E1. cbn zeta in E1.
    destruct (chn_sets _ _ _ _); try discriminate. injection E1 as _ <-. rewrite (sm_next _ _ (ensure_same s t)).
    rewrite (j_created _ _ _ (kj_j _ _ _ H)), map_length, seq_length, N2Nat.id. reflexivity.
  - intro Ha. cbn in E. unfold chn_is_active in E. injection E as <- <-. destruct (has_body _ _ _ _ H Ha) as (b & Eb). rewrite Eb. rewrite (flag_active _ _ _ _ _ H Ha Eb). reflexivity.
  - pose proof (live_step _ _ _ _ _ E eq_refl (ok_live _ _ Hok eq_refl)) as E1. cbn [k_run1] in E1. injection E1 as <- <-. rewrite (find_alive t0 h s); auto.
  - pose proof (live_step _ _ _ _ _ E eq_refl (ok_live _ _ Hok eq_refl)) as E1. cbn [k_run1] in E1. injection E1 as <- <-. rewrite ensure_all, (kj_all _ _ _ H). reflexivity.
  - pose proof (live_step _ _ _ _ _ E eq_refl (ok_live _ _ Hok eq_refl)) as E1. cbn [k_run1] in E1. rewrite (find_alive t0 h s _ _ H) in E1. destruct (alive t0 i h) eqn:Ea.
    + unfold chn_is_active in E1. rewrite ensure_body in E1. injection E1 as <- <-. destruct (has_body _ _ _ _ H Ea) as (b & Eb). rewrite Eb. rewrite (flag_active _ _ _ _ _ H Ea Eb). reflexivity.
    + injection E1 as <- <-. f_equal. symmetry. destruct (active t0 i h) eqn:Ec; auto. rewrite (active_alive _ _ _ _ H Ec) in Ea. discriminate.
Qed.
(* the C functions on ids of channels that do not exist change nothing but the calling thread's
   registration, and report it: deleted channels do not come back *)
Theorem C63_unknown_id : forall t0 h s t o s' x, k_hist t0 h s -> kop_ok s o -> k_step s t o = KOk s' x ->
  match o with
  | KcDelete i | KcActivate i | KcDeactivate i => (x = KDone <-> alive t0 i h = true) /\ (alive t0 i h = false -> x = KErr /\ s' = ensure s t)
  | _ => True
  end.
Proof.
  intros t0 h s t o s' x H Hok E. apply KJ_hist in H.
  destruct o; try exact Logic.I; pose proof (live_step _ _ _ _ _ E eq_refl (ok_live _ _ Hok eq_refl)) as E1; cbn [k_run1] in E1; rewrite (find_alive t0 h s _ _ H) in E1;
    destruct (alive t0 i h) eqn:Ea.
  - assert (x = KDone) by (unfold chn_delete in E1; destruct (k_body _ _); [injection E1 as _ <-; reflexivity|discriminate]). split; [tauto|discriminate].
  - injection E1 as <- <-. split; [split; discriminate|auto].
  - assert (x = KDone) by (unfold chn_activate in E1; destruct (k_body _ _); [injection E1 as _ <-; reflexivity|discriminate]). split; [tauto|discriminate].
  - injection E1 as <- <-. split; [split; discriminate|auto].
  - assert (x = KDone) by (unfold chn_deactivate in E1; destruct (k_body _ _); [injection E1 as _ <-; reflexivity|discriminate]). split; [tauto|discriminate].
  - injection E1 as <- <-. split; [split; discriminate|auto].
Qed.

(* C63, 2: the callbacks a channel receives over its life: post_init first, then ordinary ones,
   finally pre_finish and finish, once, when the channel is deleted or the library finalized -
   and nothing afterwards *)
Theorem C63_life : forall t0 h s c, k_hist t0 h s ->
  (~ In c (created h) -> events_of c (k_log s) = []) /\
  (alive t0 c h = true -> exists m, events_of c (k_log s) = KPostInit c :: m /\ Forall ordinary m) /\
  (In c (created h) -> alive t0 c h = false -> exists m, events_of c (k_log s) = KPostInit c :: m ++ [KPreFinish c; KFinish c] /\ Forall ordinary m).
Proof.
  intros t0 h s c H. apply KJ_hist in H. pose proof (kj_j _ _ _ H) as J. destruct (j_life _ _ _ J c) as (L1 & L2 & L3).
  assert (Hc : In c (created h) <-> c < k_next s).
  { rewrite (j_created _ _ _ J), in_map_iff. split.
    - intros (i & <- & Hi). apply in_seq in Hi. lia.
    - intro Hlt. exists (N.to_nat c). split; [apply N2Nat.id|]. apply in_seq. lia. }
  split; [intro Hn; apply L1; rewrite Hc in Hn; lia|]. split; [intro Ha; apply L2, (j_all _ _ _ J); auto|].
  intros Hi Ha. apply L3; [apply Hc; auto|]. intro Z. apply (j_all _ _ _ J) in Z. congruence.
Qed.
Theorem C63_finished : forall t0 h1 h2 s1 s2 c, k_hist t0 h1 s1 -> k_hist t0 (h1 ++ h2) s2 -> In c (created h1) -> alive t0 c h1 = false ->
  alive t0 c (h1 ++ h2) = false.
Proof.
  intros t0 h1 h2 s1 s2 c H1 H2 Hc Ha. apply KJ_hist in H2. pose proof (j_created _ _ _ (kj_j _ _ _ H2)) as E.
  assert (Hn : NoDup (created (h1 ++ h2))) by (rewrite E; apply Coq.Logic.FinFun.Injective_map_NoDup; [intros a b; apply Nat2N.inj|apply seq_NoDup]). clear H2 E s2 H1 s1.
  induction h2 as [|k h2 IH] using rev_ind; [rewrite app_nil_r; auto|]. rewrite app_assoc in *. unfold created in Hn. rewrite flat_map_app in Hn. cbn in Hn. rewrite app_nil_r in Hn.
  assert (Hk : ~ In c (created1 k)).
  { intro Hk. destruct (created_one k) as [Ek|(d & Ek)]; rewrite Ek in *; [destruct Hk|]. destruct Hk as [->|[]]. apply NoDup_remove in Hn. destruct Hn as (_ & Hn).
    rewrite app_nil_r in Hn. apply Hn. rewrite flat_map_app. apply in_or_app. left. exact Hc. }
  rewrite alive_step by auto. destruct (deletes t0 c k); auto. apply IH. clear -Hn. revert Hn. generalize (created1 k). intro l. unfold created. generalize (flat_map created1 (h1 ++ h2)).
  induction l0 as [|x l0 IH]; cbn; [constructor|]. intro H. inversion H; subst. constructor; auto. intro Z. apply H2, in_or_app. auto.
Qed.
(* Finalization (Caliper::release, or the initial thread's exit): every existing channel, in
   creation order, writes its output if it was created with flush_on_exit, and is closed *)
Theorem C63_finalize : forall t0 h s t o s' x, k_hist t0 h s -> exited t h = false -> kop_ok s o -> k_live s = true ->
  o = KRelease \/ (o = KThreadExit /\ t = t0) -> k_step s t o = KOk s' x ->
  exists segs, k_log s' = k_log s ++ hello t0 h t o ++ concat segs /\ Forall2 (closing t0 h t) (filter (fun c => alive t0 c h) (created h)) segs.
Proof.
  intros t0 h s t o s' x H Hx Hok HL Ho E. apply KJ_hist in H. pose proof (j_inv _ _ _ (kj_j _ _ _ H)) as I.
  assert (G : forall s1, kinv t0 s1 -> k_all s1 = k_all s -> k_body s1 = k_body s -> k_log s1 = k_log s ++ hello t0 h t o -> k_release s1 t = KOk s' x ->
     exists segs, k_log s' = k_log s ++ hello t0 h t o ++ concat segs /\ Forall2 (closing t0 h t) (filter (fun c => alive t0 c h) (created h)) segs).
  { intros s1 I1 E1 E2 E3 Er. destruct (release_spec t0 s1 t I1) as (s2 & Er2 & A1 & A2 & A3 & A4 & A5 & A6 & A7 & A8 & A9 & A10 & A11 & A12 & A13 & A14). rewrite Er2 in Er. injection Er as <- <-.
    exists (map (fin_events s1 t) (k_all s1)). rewrite A14, E3, <- app_assoc, flat_map_concat_map. split; auto. rewrite <- (kj_all _ _ _ H), <- E1.
    assert (Hlt : forall c, In c (k_all s1) -> c < k_next s) by (intros c Hc; rewrite E1 in Hc; apply (ki_lt _ _ I c Hc)).
    revert Hlt. generalize (k_all s1). induction l as [|c l IH]; cbn; intro Hlt; [constructor|]. constructor; [|apply IH; auto].
    unfold closing, fin_events. rewrite E2. pose proof (kj_flush _ _ _ H c (Hlt c (or_introl eq_refl))) as Hf. unfold flags in Hf. destruct (k_body s c) as [b|]; [|discriminate]. cbn in Hf. injection Hf as Hf. rewrite Hf.
    eexists. reflexivity. }
  destruct Ho as [->|(-> & ->)]; cbn [k_step] in E; rewrite HL in E.
  - eapply G; [| | | |exact E]; eauto using ensure_inv, ensure_all, ensure_body, hello_log.
  - unfold k_thread_exit in E. pose proof (ki_thr _ _ I HL) as Ht. apply existsb_In in Ht. rewrite Ht, (ki_main _ _ I), N.eqb_refl in E.
    apply (G s); auto. cbn. rewrite app_nil_r. reflexivity.
Qed.

(* C63, 3: notifications of threads.  A thread's first call notifies every existing channel,
   before anything else; no other call does.  A thread's exit notifies every existing channel. *)
Lemma run_no_new t0 s t o s' x : kinv t0 s -> (match o with KApi o => no_act o | _ => True end) -> guarded o = false -> k_run1 s t o = KOk s' x ->
  exists l, k_log s' = k_log s ++ l /\ Forall (fun e => is_new_thread e = false) l.
Proof.
  intros I Hn Hg E.
  assert (Z : forall u, k_log u = k_log s -> exists l, k_log u = k_log s ++ l /\ Forall (fun e => is_new_thread e = false) l) by (intros u Eu; exists []; rewrite app_nil_r; auto).
  assert (O : forall u e, k_log u = k_log s ++ [e] -> is_new_thread e = false -> exists l, k_log u = k_log s ++ l /\ Forall (fun e => is_new_thread e = false) l) by (intros u e Eu He; exists [e]; auto).
  assert (F : forall u k c a v, exists l, k_log (kfire u k t c a v) = k_log u ++ l /\ Forall (fun e => is_new_thread e = false) l).
  { intros. unfold kfire. destruct (k_body u c) as [b|]; [|exists []; rewrite app_nil_r; auto]. destruct (run_events a && b_active b); [|exists []; rewrite app_nil_r; auto]. eexists [_]. split; [reflexivity|auto]. }
  assert (Set_ : forall u c a v u' y, chn_set u t c a v = KOk u' y -> exists l, k_log u' = k_log u ++ l /\ Forall (fun e => is_new_thread e = false) l).
  { intros u c a v u' y E1. unfold chn_set in E1. destruct (k_body u c); [|discriminate]. unfold kcommit in E1. destruct (handle_set _ _ _ _ _); try discriminate. injection E1 as <- <-. rewrite put_log. apply F. }
  assert (Sets : forall l u c u' y, chn_sets u t c l = KOk u' y -> exists l, k_log u' = k_log u ++ l /\ Forall (fun e => is_new_thread e = false) l).
  { induction l as [|[a v] l IH]; cbn; intros u c u' y E1; [injection E1 as <- <-; exists []; rewrite app_nil_r; auto|]. destruct (chn_set u t c a v) as [u1 y1| |] eqn:E2; try discriminate.
    apply Set_ in E2. apply IH in E1. destruct E1 as (l1 & -> & F1). destruct E2 as (l2 & -> & F2). exists (l2 ++ l1). rewrite app_assoc. split; auto. apply Forall_app; auto. }
  assert (Del : forall c, chn_delete s c = KOk s' x -> exists l, k_log s' = k_log s ++ l /\ Forall (fun e => is_new_thread e = false) l).
  { intro c. unfold chn_delete. destruct (k_body s c); [|discriminate]. intro Y; injection Y as <- <-. exists ([KPreFinish c] ++ [KFinish c]). cbn. rewrite <- app_assoc. auto. }
  assert (Act : forall c, chn_activate s c = KOk s' x -> k_log s' = k_log s) by (intro c; unfold chn_activate; destruct (k_body s c); [|discriminate]; intro Y; injection Y as <- <-; auto).
  assert (Dea : forall c, chn_deactivate s c = KOk s' x -> k_log s' = k_log s) by (intro c; unfold chn_deactivate; destruct (k_body s c); [|discriminate]; intro Y; injection Y as <- <-; auto).
  assert (Fl : forall c b, then_clear (chn_write s t c) b c = KOk s' x -> exists l, k_log s' = k_log s ++ l /\ Forall (fun e => is_new_thread e = false) l).
  { intros c b. unfold then_clear, chn_write. destruct (k_body s c) eqn:Eb; [|discriminate]. destruct b; [unfold chn_clear; cbn; rewrite Eb|]; intro Y; injection Y as <- <-; cbn; rewrite <- ?app_assoc; eexists; split; try reflexivity; repeat constructor. }
  destruct o; try discriminate; cbn [k_run1] in E; eauto.
  - unfold k_api in E. destruct (rt_step _ _ _); try discriminate. injection E as <- <-. cbn. eexists; split; [reflexivity|]. apply Forall_map. apply Forall_forall. auto.
  - unfold chn_create in E. cbn zeta in E. match type of E with (match chn_sets ?u _ _ _ with _ => _ end) = _ => set (s0 := u) in E end.
    destruct (chn_sets s0 t (k_next s) _) as [s2 x2| |] eqn:E2; try discriminate. injection E as <- <-. apply Sets in E2. destruct E2 as (l & E2 & F2). cbn. rewrite E2. change (k_log s0) with (k_log s). rewrite <- app_assoc.
    eexists; split; [reflexivity|]. apply Forall_app; auto.
  - unfold chn_begin in E. destruct (k_body s c); [|discriminate]. unfold kcommit in E. destruct (handle_begin _ _ _ _ _); try discriminate. injection E as <- <-.
    destruct (F (put_chn (kfire s PreBegin t c a v) c tr m) PostBegin c a v) as (l1 & -> & F1). rewrite put_log. destruct (F s PreBegin c a v) as (l2 & -> & F2). rewrite <- app_assoc. eexists; split; [reflexivity|]. apply Forall_app; auto.
  - unfold chn_end in E. destruct (k_body s c); [|discriminate]. cbn zeta in E. destruct (snd (load_current _ _ _ _)) as [[i v]|]; [|injection E as <- <-; apply Z; reflexivity].
    unfold kcommit in E. destruct (handle_end _ _ _ _ _ _); try discriminate. injection E as <- <-. rewrite put_log. apply F.
  - unfold chn_get in E. destruct (k_body s c); [|discriminate]. injection E as <- <-. apply Z; reflexivity.
  - unfold chn_write in E. destruct (k_body s c); [|discriminate]. injection E as <- <-. eapply O; reflexivity.
  - injection E as <- <-. apply Z; reflexivity.
  - injection E as <- <-. apply Z; reflexivity.
  - injection E as <- <-. unfold k_push. cbn. eexists; split; [reflexivity|]. apply Forall_map. apply Forall_forall. auto.
  - destruct (chn_find s i); eauto. injection E as <- <-. apply Z; reflexivity.
  - destruct (chn_find s i); eauto. injection E as <- <-. apply Z; reflexivity.
  - destruct (chn_find s i); eauto. injection E as <- <-. apply Z; reflexivity.
  - destruct (chn_find s i); injection E as <- <-; apply Z; reflexivity.
  - destruct (chn_find s 0); eauto. injection E as <- <-. apply Z; reflexivity.
  - destruct (chn_find s i); eauto. discriminate.
Qed.
Theorem C63_threads : forall t0 h s t o s' x, k_hist t0 h s -> exited t h = false -> kop_ok s o -> k_step s t o = KOk s' x ->
  (k_live s = true -> exists l, k_log s' = k_log s ++ hello t0 h t o ++ l /\ Forall (fun e => is_new_thread e = false) l) /\
  (k_live s = false -> k_log s' = k_log s).
Proof.
  intros t0 h s t o s' x H Hx Hok E. pose proof H as H'. apply KJ_hist in H. pose proof (j_inv _ _ _ (kj_j _ _ _ H)) as I. split; intro HL.
  - destruct (guarded o) eqn:Hg.
    + destruct o; try discriminate.
      * cbn in E. unfold chn_is_active in E. injection E as <- <-. exists []. cbn. rewrite app_nil_r. auto.
      * destruct (C63_finalize _ _ _ _ _ _ _ H' Hx Hok HL (or_introl eq_refl) E) as (segs & E1 & F). exists (concat segs). split; auto.
        clear -F. induction F as [|c l cs ls (info & ->) F IH]; cbn; [constructor|]. apply Forall_app. split; auto. apply Forall_app. split; [destruct (flush_of c h)|]; repeat constructor.
      * destruct (N.eq_dec t t0).
        -- destruct (C63_finalize _ _ _ _ _ _ _ H' Hx Hok HL (or_intror (conj eq_refl e)) E) as (segs & E1 & F). exists (concat segs). split; auto.
           clear -F. induction F as [|c l cs ls (info & ->) F IH]; cbn; [constructor|]. apply Forall_app. split; auto. apply Forall_app. split; [destruct (flush_of c h)|]; repeat constructor.
        -- cbn [k_step] in E. rewrite HL in E. unfold k_thread_exit in E. rewrite (ki_main _ _ I) in E. destruct (existsb _ _).
           ++ destruct (N.eqb_spec t t0); [contradiction|]. injection E as <- <-. cbn. eexists; split; [reflexivity|]. apply Forall_map, Forall_forall. auto.
           ++ injection E as <- <-. exists []. cbn. rewrite app_nil_r. auto.
    + pose proof (live_step _ _ _ _ _ E Hg HL) as E1. destruct (run_no_new t0 _ t o s' x (ensure_inv t0 s t I) (ok_noact _ _ Hok) Hg E1) as (l & El & F).
      exists l. split; auto. rewrite El, app_assoc. f_equal. apply hello_log; auto. destruct o; try discriminate; reflexivity.
  - destruct o; cbn [k_step] in E; rewrite ?HL in E; try discriminate; try (injection E as <- <-; reflexivity).
Qed.
Theorem C63_thread_exit : forall t0 h s t s' x, k_hist t0 h s -> exited t h = false -> k_live s = true -> t <> t0 -> k_step s t KThreadExit = KOk s' x ->
  k_log s' = k_log s ++ (if known t0 t h then map (fun c => KRelThread c t) (filter (fun c => alive t0 c h) (created h)) else []).
Proof.
  intros t0 h s t s' x H Hx HL Hn E. apply KJ_hist in H. pose proof (j_inv _ _ _ (kj_j _ _ _ H)) as I. cbn [k_step] in E. rewrite HL in E. unfold k_thread_exit in E. rewrite (ki_main _ _ I) in E.
  pose proof (kj_thr _ _ _ H HL t Hx) as Ht. destruct (N.eqb_spec t t0); [contradiction|]. destruct (existsb (N.eqb t) (k_thr s)) eqn:Et.
  - apply existsb_In in Et. apply Ht in Et. rewrite Et. injection E as <- <-. cbn. rewrite (kj_all _ _ _ H). reflexivity.
  - destruct (known t0 t h); [assert (Z : In t (k_thr s)) by (apply Ht; auto); apply existsb_In in Z; congruence|]. injection E as <- <-. rewrite app_nil_r. reflexivity.
Qed.

(* C63, 4: annotation callbacks and pushed snapshots go to exactly the active channels *)
Theorem C63_dispatch : forall t0 h s t o s' x, k_hist t0 h s -> exited t h = false -> kop_ok s (KApi o) -> k_step s t (KApi o) = KOk s' x -> not_full (r_tree (k_rt s')) ->
  exists act, NoDup act /\ (forall c, In c act <-> active t0 c h = true) /\
    let a := ann_of h in
    k_log s' = k_log s ++ hello t0 h t (KApi o) ++ map KAnn (a_log (fst (a_step (mkast (a_thr a) (a_proc a) (a_err a) act []) t o))).
Proof.
  intros t0 h s t o s' x H Hx Hok E Hnf. apply KJ_hist in H. pose proof (kj_j _ _ _ H) as J. pose proof (j_inv _ _ _ J) as I.
  exists (r_act (k_rt s)). split; [apply I|]. split; [apply (j_act _ _ _ J)|]. cbn zeta.
  pose proof (live_step _ _ _ _ _ E eq_refl (ok_live _ _ Hok eq_refl)) as E1. cbn [k_run1] in E1. unfold k_api in E1. rewrite ensure_rt in E1.
  destruct (rt_step (k_rt s) t o) as [r y| |] eqn:Er; try discriminate. injection E1 as <- <-.
  pose proof (kj_k _ _ _ H) as [R1 _ _]. destruct Hok as (HL & _ & _ & Ho & _). pose proof (step_sim _ _ t o R1 Ho) as Hs. rewrite Er in Hs. cbn [sim] in Hs. destruct Hs as (_ & Hs). destruct (Hs Hnf) as (_ & Hr & _).
  cbn [klog with_rt k_log]. rewrite (hello_log t0 h s t (KApi o) H (HL eq_refl) Hx eq_refl), <- app_assoc. f_equal. f_equal. f_equal. exact (rl_log _ _ Hr).
Qed.
Theorem C63_push : forall t0 h s t trig s' x, k_hist t0 h s -> exited t h = false -> kop_ok s (KPush trig) -> k_step s t (KPush trig) = KOk s' x ->
  k_log s' = k_log s ++ hello t0 h t (KPush trig) ++ map (fun c => KSnap c t trig) (filter (fun c => active t0 c h) (created h)).
Proof.
  intros t0 h s t trig s' x H Hx Hok E. apply KJ_hist in H. pose proof (live_step _ _ _ _ _ E eq_refl (ok_live _ _ Hok eq_refl)) as E1. cbn [k_run1] in E1. injection E1 as <- <-.
  unfold k_push. cbn [klog k_log]. rewrite (hello_log t0 h s t (KPush trig) H (ok_live _ _ Hok eq_refl) Hx eq_refl), <- app_assoc. f_equal. f_equal. f_equal.
  rewrite ensure_all, ensure_body, (kj_all _ _ _ H), filter_filter. apply filter_ext_in'. intros c _. destruct (alive t0 c h) eqn:Ea; cbn [andb].
  - destruct (has_body _ _ _ _ H Ea) as (b & Eb). rewrite Eb. eapply flag_active; eauto.
  - destruct (active t0 c h) eqn:Ec; auto. rewrite (active_alive _ _ _ _ H Ec) in Ea. discriminate.
Qed.
(* cali_flush / cali_channel_flush / flush_and_write act on one channel *)
Theorem C63_flush : forall t0 h s t o s' x, k_hist t0 h s -> exited t h = false -> kop_ok s o -> k_step s t o = KOk s' x ->
  match o with
  | KFlushWrite c => exists info, k_log s' = k_log s ++ hello t0 h t o ++ [KWrite c t info]
  | KcFlush clear => if alive t0 0 h then exists info, k_log s' = k_log s ++ hello t0 h t o ++ KWrite 0 t info :: (if clear then [KClear 0] else [])
                     else k_log s' = k_log s ++ hello t0 h t o
  | KcChannelFlush i clear => exists info, k_log s' = k_log s ++ hello t0 h t o ++ KWrite i t info :: (if clear then [KClear i] else [])
  | _ => True
  end.
Proof.
  intros t0 h s t o s' x H Hx Hok E. apply KJ_hist in H.
  assert (G : forall c b, then_clear (chn_write (ensure s t) t c) b c = KOk s' x -> exists info, k_log s' = k_log (ensure s t) ++ KWrite c t info :: (if b then [KClear c] else [])).
  { intros c b. unfold then_clear, chn_write. destruct (k_body (ensure s t) c) eqn:Eb; [|discriminate]. destruct b; [unfold chn_clear; cbn [klog k_body]; rewrite Eb|]; intro Y; injection Y as <- <-; cbn [klog k_log]; rewrite <- ?app_assoc; eexists; reflexivity. }
  destruct o; try exact Logic.I; pose proof (ok_live _ _ Hok eq_refl) as HL; pose proof (live_step _ _ _ _ _ E eq_refl HL) as E1; cbn [k_run1] in E1.
  - apply write_ok in E1. destruct E1 as (_ & _ & _ & _ & w & E1). exists w. rewrite E1, (hello_log t0 h s t (KFlushWrite c) H HL Hx eq_refl), <- app_assoc. reflexivity.
  - rewrite (find_alive t0 h s _ _ H) in E1. destruct (alive t0 0 h).
    + destruct (G _ _ E1) as (w & Ew). exists w. rewrite Ew, (hello_log t0 h s t (KcFlush clear) H HL Hx eq_refl), <- app_assoc. reflexivity.
    + injection E1 as <- <-. apply hello_log; auto.
  - rewrite (find_alive t0 h s _ _ H) in E1. destruct (alive t0 i h); [|discriminate]. destruct (G _ _ E1) as (w & Ew). exists w. rewrite Ew, (hello_log t0 h s t (KcChannelFlush i clear) H HL Hx eq_refl), <- app_assoc. reflexivity.
Qed.
Print Assumptions C63_ids. Print Assumptions C63_queries. Print Assumptions C63_unknown_id. Print Assumptions C63_life. Print Assumptions C63_finished.
Print Assumptions C63_finalize. Print Assumptions C63_threads. Print Assumptions C63_thread_exit. Print Assumptions C63_dispatch. Print Assumptions C63_push. Print Assumptions C63_flush.
