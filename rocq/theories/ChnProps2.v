(* C64: channel contexts; examples and limits of C63 / C64 *)
From Verif Require Import Base VariantModel VariantSpec TreeModel TreeSpec TreeProofs TreeProofs2
  RuntimeModel RuntimeSpec RuntimeProofs RuntimeProofs2 RuntimeProps2 RuntimeProps3 RuntimeProps4 ChnModel ChnSpec ChnProofs ChnProofs2 ChnProofs3 ChnProofs4 ChnProofs5 ChnProofs6 ChnProps.

Lemma bbrel_shows tr m c : inv tr -> bbrel tr m c -> shows tr m c.
Proof.
  intros Hi Hb. split; [|split].
  - apply ref_view; [apply Hi|apply Hb].
  - apply ref_view; [apply Hi|apply Hb].
  - intros k Hk. destruct (br_imm _ _ _ Hb k Hk) as (E & _). rewrite E. destruct (c_imm c k); reflexivity.
Qed.
(* 1: a channel's context is what the begin / set / end calls on this channel made of it, and a
   thread's and the process' context is what the annotation calls made of it *)
Theorem C64_context : forall t0 h s c b, k_hist t0 h s -> k_body s c = Some b -> shows (r_tree (k_rt s)) (b_bb b) (ctx_of c h).
Proof.
  intros t0 h s c b H Eb. apply KJ_hist in H. destruct (kj_k _ _ _ H) as [R1 R2 R3]. destruct (R3 c b Eb) as (_ & Hb). apply bbrel_shows; auto. apply (rl_inv _ _ R1).
Qed.
Theorem C64_thread_context : forall t0 h s t, k_hist t0 h s ->
  shows (r_tree (k_rt s)) (r_tbb (k_rt s) t) (a_thr (ann_of h) t) /\ shows (r_tree (k_rt s)) (r_pbb (k_rt s)) (a_proc (ann_of h)).
Proof. intros t0 h s t H. apply KJ_hist in H. destruct (kj_k _ _ _ H) as [R1 R2 R3]. exact (rel_shows _ _ t R1). Qed.
(* 2: results of the calls *)
Theorem C64_results : forall t0 h s t o s' x, k_hist t0 h s -> exited t h = false -> kop_ok s o -> kop_disc s o -> k_step s t o = KOk s' x -> not_full (r_tree (k_rt s')) ->
  match o with
  | KGet c a => x = KVal (c_get (ctx_of c h) a)
  | KEnd c a => x = match c_open (ctx_of c h) a with Some _ => KDone | None => KErr end
  | KApi o => x = conv (snd (a_step (ann_of h) t o))
  | _ => True
  end.
Proof. intros t0 h s t o s' x H Hx Hok Hd E Hnf. apply KJ_hist in H. destruct (KJ_step _ _ _ _ _ _ _ H Hx Hok Hd E Hnf) as (_ & Ho). exact Ho. Qed.
(* 3: calls on other channels, threads and the process do not matter *)
Theorem C64_own_calls : forall c h, ctx_of c h = ctx_of c (filter (concerns c) h).
Proof.
  intros c h. unfold ctx_of. generalize ctx_empty. induction h as [|k h IH]; intro x; [reflexivity|]. cbn [fold_left filter]. destruct (concerns c k) eqn:E; [apply IH|].
  rewrite <- IH. f_equal. destruct k as [[t o] y]. destruct o; cbn in E |- *; auto; try (rewrite E; reflexivity). destruct y; auto. destruct c0; auto. rewrite E. reflexivity.
Qed.
Theorem C64_annotations : forall h, (forall t c a, ~ In (t, KEnd c a, KErr) h) -> ann_of h = fst (a_run ast_init (api_calls h)).
Proof.
  intros h. unfold ann_of. generalize ast_init. induction h as [|k h IH]; intros a Hn; [reflexivity|]. cbn [fold_left]. rewrite IH by (intros t c x Z; eapply Hn; right; eauto).
  unfold api_calls. cbn [flat_map]. destruct k as [[t o] y]. destruct o; cbn [app ann_call]; auto.
  - cbn [a_run]. destruct (a_step a t o) as [a1 y1]. cbn [fst]. destruct (a_run a1 _) as [a2 ys]. reflexivity.
  - destruct y; auto. exfalso. eapply Hn. left. reflexivity.
Qed.
(* 4: the callbacks of a begin / set / end on a channel go to this channel, if it is active *)
Theorem C64_callbacks : forall t0 h s t o s' x c, k_hist t0 h s -> exited t h = false -> kop_ok s o -> kop_disc s o -> k_step s t o = KOk s' x -> not_full (r_tree (k_rt s')) ->
  match o with KBegin d _ _ | KSet d _ _ | KEnd d _ => d = c | _ => False end ->
  k_log s' = k_log s ++ hello t0 h t o ++ chn_callbacks (active t0 c h) c t (ctx_of c h) o.
Proof.
  intros t0 h s t o s' x c H Hx Hok Hd E Hnf Hc. apply KJ_hist in H.
  assert (Hg : guarded o = false) by (destruct o; try contradiction; reflexivity).
  assert (Hu : uses o = true) by (destruct o; try contradiction; reflexivity).
  pose proof (ok_live _ _ Hok Hg) as HL. pose proof (live_step _ _ _ _ _ E Hg HL) as E1.
  assert (Ha : alive t0 c h = true). { apply (j_all _ _ _ (kj_j _ _ _ H)). destruct o; try contradiction; subst; apply Hd; reflexivity. }
  destruct (has_body _ _ _ _ H Ha) as (b & Eb). pose proof (flag_active _ _ _ _ _ H Ha Eb) as Ef.
  pose proof (kj_k _ _ _ H) as KK. destruct KK as [R1 R2 R3]. destruct (R3 c b Eb) as (Hn & Hb). pose proof (rl_inv _ _ R1) as Hi.
  assert (See : forall a, attr_ok (r_tree (k_rt s)) a -> ent_view (r_tree (k_rt s)) (bget (b_bb b) (bb_key a)) = c_see (ctx_of c h) a) by (intros; apply br_see; auto).
  rewrite app_assoc, <- (hello_log t0 h s t o H HL Hx Hu).
  assert (Fire : forall k a v, attr_ok (r_tree (k_rt s)) a -> k_log (kfire (ensure s t) k t c a v) = k_log (ensure s t) ++ (if run_events a && active t0 c h then [KAnn (mkev k c t (at_id a) v (c_see (ctx_of c h) a))] else [])).
  { intros k a v Hat. unfold kfire. rewrite ensure_body, ensure_rt, Eb, Ef, (See a Hat). destruct (run_events a && active t0 c h); [reflexivity|rewrite app_nil_r; reflexivity]. }
  assert (Hat : Forall (attr_ok (r_tree (k_rt s))) (attrs_of o)) by apply Hok.
  destruct o; try contradiction; cbn [attrs_of] in Hat; inversion Hat as [|? ? Ha1 _]; subst; cbn [k_run1] in E1; cbn [chn_callbacks].
  - (* begin *)
    unfold chn_begin in E1. rewrite ensure_body, Eb in E1. unfold kcommit in E1. rewrite ensure_rt in E1.
    pose proof (handle_begin_ok _ t a v _ _ Hi Hn Hb Ha1) as Hh. destruct (handle_begin (r_tree (k_rt s)) t a v (b_bb b)) as [tr m| |]; try discriminate. injection E1 as <- <-.
    cbn in Hh. destruct Hh as (Hi2 & He2 & Hn2 & Hb2).
    set (s1 := kfire (ensure s t) PreBegin t c a v) in *.
    assert (Eb1 : k_body s1 c = Some b) by (unfold s1; rewrite kfire_body, ensure_body; auto).
    rewrite kfire_rt, (put_chn_tree s1 c tr m b Eb1) in Hnf. specialize (Hb2 Hnf).
    unfold kfire at 1. unfold put_chn. rewrite Eb1. cbn [with_body k_body with_rt]. unfold upd at 1. rewrite N.eqb_refl. cbn [b_active b_bb k_rt with_tree r_tree with_body with_rt].
    rewrite Ef, (br_see tr m (c_begin (ctx_of c h) a v) a Hi2 Hb2 (attr_ok_ext _ _ _ He2 Ha1)).
    pose proof (Fire PreBegin a v Ha1) as EF. fold s1 in EF. destruct (run_events a && active t0 c h); cbn [klog k_log with_body with_rt]; rewrite EF; [rewrite <- app_assoc; reflexivity|reflexivity].
  - (* end *)
    unfold chn_end in E1. rewrite ensure_body, Eb in E1. cbn zeta in E1. rewrite ensure_rt in E1.
    pose proof (load_spec _ a _ _ Hi Hb Ha1) as Ho. destruct (c_open (ctx_of c h) a) as [v|].
    + destruct Ho as (i & w & j & EL & _). rewrite EL in E1. cbn [snd] in E1. unfold kcommit in E1. destruct (handle_end _ _ _ _ _ _); try discriminate. injection E1 as <- <-. rewrite put_log. apply Fire; auto.
    + rewrite Ho in E1. injection E1 as <- <-. cbn [with_rt k_log]. rewrite app_nil_r. reflexivity.
  - unfold chn_set in E1. rewrite ensure_body, Eb in E1. unfold kcommit in E1. destruct (handle_set _ _ _ _ _); try discriminate. injection E1 as <- <-. rewrite put_log. apply Fire; auto.
Qed.
Print Assumptions C64_context. Print Assumptions C64_thread_context. Print Assumptions C64_results. Print Assumptions C64_own_calls. Print Assumptions C64_annotations. Print Assumptions C64_callbacks.

(* ---- examples ---- *)
Definition kop_okb (s : kst) (o : kop) : bool :=
  (guarded o || k_live s) && forallb (attr_okb (r_tree (k_rt s))) (attrs_of o) &&
  match handle_of o with Some c => (c <? k_next s) && existsb (N.eqb c) (k_all s) | None => true end &&
  match o with
  | KApi (OActivate _) | KApi (ODeactivate _) => false
  | KApi o => rop_okb (k_rt s) o
  | KcChannelFlush i _ => existsb (N.eqb i) (k_all s)
  | _ => true
  end.
Lemma rop_okb_ok s o : rop_okb s o = true -> rop_ok s o.
Proof. intro H. assert (Z : ops_okb s [(0, o)] = true) by (cbn; rewrite H; destruct (rt_step s 0 o); reflexivity). apply ops_okb_ok in Z. apply Z. Qed.
Lemma kop_okb_ok s o : kop_okb s o = true -> kop_ok s o /\ kop_disc s o.
Proof.
  unfold kop_okb. intro H. apply andb_true_iff in H. destruct H as (H & H4). apply andb_true_iff in H. destruct H as (H & H3). apply andb_true_iff in H. destruct H as (H1 & H2).
  assert (Hh : forall c, handle_of o = Some c -> c < k_next s /\ In c (k_all s)).
  { intros c Ec. rewrite Ec in H3. apply andb_true_iff in H3. destruct H3 as (A1 & A2). split; [apply N.ltb_lt; auto|apply existsb_In; auto]. }
  split; [|intros c Ec; apply Hh; auto]. split; [intro Hg; rewrite Hg in H1; exact H1|]. split.
  - apply Forall_forall. intros a Ha. apply attr_okb_ok. rewrite forallb_forall in H2. auto.
  - split; [intros c Ec; apply Hh; auto|]. destruct o; auto.
    + destruct o; try discriminate; split; try (exact Logic.I); apply rop_okb_ok; exact H4.
    + apply existsb_In; auto.
Qed.
Fixpoint k_exec (h : list call) (s : kst) (ops : list (N * kop)) : option (list call * kst) :=
  match ops with
  | [] => Some (h, s)
  | (t, o) :: r => if negb (exited t h) && kop_okb s o then
                     match k_step s t o with
                     | KOk s' x => if t_next (r_tree (k_rt s')) <? t_nblk (r_tree (k_rt s')) then k_exec (h ++ [(t, o, x)]) s' r else None
                     | _ => None
                     end
                   else None
  end.
Lemma k_exec_hist t0 ops : forall h s h' s', k_hist t0 h s -> k_exec h s ops = Some (h', s') -> k_hist t0 h' s'.
Proof.
  induction ops as [|[t o] ops IH]; cbn [k_exec]; intros h s h' s' H E; [injection E as <- <-; auto|].
  destruct (negb (exited t h) && kop_okb s o) eqn:Eo; [|discriminate]. apply andb_true_iff in Eo. destruct Eo as (E1 & E2). apply negb_true_iff in E1. apply kop_okb_ok in E2.
  destruct (k_step s t o) as [s1 x| |] eqn:Es; try discriminate. destruct (_ <? _) eqn:En; [|discriminate]. eapply IH; [|exact E]. econstructor; eauto; [apply E2|apply E2|apply N.ltb_lt; auto].
Qed.
Lemma k_start ops h s : k_exec [] (k_init tr0 0) ops = Some (h, s) -> k_hist 0 h s.
Proof. intro E. eapply k_exec_hist; [|exact E]. eapply (kh_init 0 256 16384); [repeat split; (reflexivity || discriminate)|reflexivity]. Qed.

Definition setup : list (N * kop) := map (fun p => (fst p, KApi (snd p))) mk_attr_ops.
Definition mkch (f : bool) (n : N) : kop := KCreate f a_note a_iter a_iter (VStr [n]) (VInt 1) (VInt 2).
Definition outs (h : list call) : list kout := map snd h.
Definition kx (ops : list (N * kop)) : list call * kst :=
  match k_exec [] (k_init tr0 0) (setup ++ ops) with Some p => p | None => ([], k_init tr0 0) end.

(* two channels, two threads; channel 0 is deleted, channel 1 closed at the end *)
Definition ex_k : list (N * kop) :=
  [(0, mkch true 97); (0, mkch false 98); (0, KcActivate 0); (0, KApi (OBegin a_fun (VInt 1))); (1, KBegin 1 a_fun (VInt 7)); (1, KActivate 1);
   (1, KBegin 1 a_fun (VInt 8)); (0, KGet 1 a_fun); (1, KApi (OGet a_fun)); (0, KPush []); (0, KcFlush true); (0, KDelete 0); (1, KcActivate 0); (1, KFind 0); (0, KAll); (1, KcIsActive 1);
   (1, KEnd 1 a_fun); (0, KGet 1 a_fun); (1, KThreadExit); (0, KRelease)].
Example C63_ex : exists h s, k_hist 0 h s /\ map fst h = setup ++ ex_k /\
  skipn 4 (outs h) = [KChn (Some 0); KChn (Some 1); KDone; KDone; KDone; KDone; KDone; KVal (Some (VInt 8)); KVal None; KDone; KDone; KDone; KErr; KChn None; KChns [1]; KBool true;
    KDone; KVal (Some (VInt 7)); KDone; KDone] /\
  map (fun e => match e with KPostInit _ => 1 | KPreFinish _ => 2 | KFinish _ => 3 | KWrite _ _ _ => 4 | KSnap _ _ _ => 5 | KClear _ => 6 | KNewThread _ _ => 7 | KRelThread _ _ => 8 | KAnn _ => 9 end) (events_of 0 (k_log s)) =
    [1; 9; 9; 7; 5; 4; 6; 2; 3] /\
  map (fun e => match e with KPostInit _ => 1 | KPreFinish _ => 2 | KFinish _ => 3 | KWrite _ _ _ => 4 | KSnap _ _ _ => 5 | KClear _ => 6 | KNewThread _ _ => 7 | KRelThread _ _ => 8 | KAnn _ => 9 end) (events_of 1 (k_log s)) =
    [1; 7; 9; 9; 5; 9; 8; 2; 3].
Proof.
  destruct (k_exec [] (k_init tr0 0) (setup ++ ex_k)) as [[h s]|] eqn:E; [|vm_compute in E; discriminate].
  exists h, s. split; [apply (k_start _ _ _ E)|].
  assert (Z : option_map (fun p => (map fst (fst p), skipn 4 (outs (fst p)),
     map (fun e => match e with KPostInit _ => 1 | KPreFinish _ => 2 | KFinish _ => 3 | KWrite _ _ _ => 4 | KSnap _ _ _ => 5 | KClear _ => 6 | KNewThread _ _ => 7 | KRelThread _ _ => 8 | KAnn _ => 9 end) (events_of 0 (k_log (snd p))),
     map (fun e => match e with KPostInit _ => 1 | KPreFinish _ => 2 | KFinish _ => 3 | KWrite _ _ _ => 4 | KSnap _ _ _ => 5 | KClear _ => 6 | KNewThread _ _ => 7 | KRelThread _ _ => 8 | KAnn _ => 9 end) (events_of 1 (k_log (snd p)))))
     (k_exec [] (k_init tr0 0) (setup ++ ex_k)) = Some (setup ++ ex_k,
     [KChn (Some 0); KChn (Some 1); KDone; KDone; KDone; KDone; KDone; KVal (Some (VInt 8)); KVal None; KDone; KDone; KDone; KErr; KChn None; KChns [1]; KBool true;
    KDone; KVal (Some (VInt 7)); KDone; KDone], [1; 9; 9; 7; 5; 4; 6; 2; 3], [1; 7; 9; 9; 5; 9; 8; 2; 3])) by (vm_compute; reflexivity).
  rewrite E in Z. cbn [option_map fst snd] in Z. injection Z as Z1 Z2 Z3 Z4. auto.
Qed.
(* ---- limits ---- *)
Definition kst_of (ops : list (N * kop)) : kst := snd (kx ops).
Definition hist_of (ops : list (N * kop)) : list call := fst (kx ops).
(* activating a deleted channel through a handle puts it back in the list of active channels: its
   callbacks run after its finish callback; is_active of a deleted channel stays true *)
Theorem C63_deleted_handle_refuted : exists s0 s1 s2,
  k_hist 0 (hist_of [(0, mkch true 97); (0, KActivate 0); (0, KDelete 0)]) s0 /\ alive 0 0 (hist_of [(0, mkch true 97); (0, KActivate 0); (0, KDelete 0)]) = false /\
  chn_is_active s0 0 = KOk s0 (KBool true) /\
  k_step s0 0 (KActivate 0) = KOk s1 KDone /\ k_step s1 0 (KApi (OBegin a_fun (VInt 1))) = KOk s2 KDone /\
  map (fun e => match e with KPostInit _ => 1 | KPreFinish _ => 2 | KFinish _ => 3 | KAnn _ => 9 | _ => 0 end) (events_of 0 (k_log s2)) = [1; 2; 3; 9; 9].
Proof.
  exists (kst_of [(0, mkch true 97); (0, KActivate 0); (0, KDelete 0)]). eexists _, _. split.
  - apply (k_start (setup ++ [(0, mkch true 97); (0, KActivate 0); (0, KDelete 0)])). vm_compute. reflexivity.
  - split; [vm_compute; reflexivity|]. split; [vm_compute; reflexivity|]. split; [vm_compute; reflexivity|]. split; [vm_compute; reflexivity|]. vm_compute. reflexivity.
Qed.
(* after finalization every API call is a null pointer access, except is_active, release and the
   thread destructor; so is cali_channel_flush with the id of a channel that does not exist *)
Theorem C63_after_release_refuted : forall s t o, k_live s = false -> guarded o = false -> k_step s t o = KBad.
Proof. intros s t o H Hg. destruct o; cbn in *; try discriminate; rewrite H; reflexivity. Qed.
Theorem C63_flush_id_refuted : forall t0 h s t i clear, k_hist t0 h s -> alive t0 i h = false -> k_step s t (KcChannelFlush i clear) = KBad.
Proof.
  intros t0 h s t i clear H Ha. apply KJ_hist in H. cbn [k_step k_run1]. destruct (k_live s); auto. rewrite (find_alive t0 h s _ _ H), Ha. reflexivity.
Qed.
(* a failed end on a channel puts the calling thread into the error state: its later annotations
   on thread and process scope are ignored without a message *)
Theorem C64_error_refuted : exists h s, k_hist 0 h s /\
  map fst h = setup ++ [(0, mkch true 97); (0, KEnd 0 a_fun); (0, KApi (OBegin a_fun (VInt 1))); (0, KApi (OGet a_fun)); (0, KBegin 0 a_fun (VInt 2)); (0, KGet 0 a_fun)] /\
  skipn 4 (outs h) = [KChn (Some 0); KErr; KDone; KVal None; KDone; KVal (Some (VInt 2))].
Proof.
  set (ops := setup ++ [(0, mkch true 97); (0, KEnd 0 a_fun); (0, KApi (OBegin a_fun (VInt 1))); (0, KApi (OGet a_fun)); (0, KBegin 0 a_fun (VInt 2)); (0, KGet 0 a_fun)]).
  destruct (k_exec [] (k_init tr0 0) ops) as [[h s]|] eqn:E; [|vm_compute in E; discriminate]. exists h, s. split; [apply (k_start _ _ _ E)|].
  assert (Z : option_map (fun p => (map fst (fst p), skipn 4 (outs (fst p)))) (k_exec [] (k_init tr0 0) ops) = Some (ops, [KChn (Some 0); KErr; KDone; KVal None; KDone; KVal (Some (VInt 2))])) by (vm_compute; reflexivity).
  rewrite E in Z. cbn [option_map fst] in Z. injection Z as Z1 Z2. auto.
Qed.
Print Assumptions C63_deleted_handle_refuted. Print Assumptions C63_after_release_refuted. Print Assumptions C63_flush_id_refuted. Print Assumptions C64_error_refuted.
