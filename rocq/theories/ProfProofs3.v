(* C69: from a program run to the snapshots of one thread *)
From Verif Require Import Base VariantModel VariantSpec TreeModel TreeSpec TreeProofs TreeProofs2 RuntimeModel RuntimeSpec RuntimeProofs RuntimeProofs2 RuntimeProps RuntimeProps2 RuntimeProps3.
From Verif Require Import RtAggModel RtAggSpec RtAggProofs RtAggProofs2 RtAggProofs3 RtAggProps RtAggProps2 RFilterModel EventModel TimerModel ProfModel ProfSpec ProfProofs ProfProofs2.
Open Scope N_scope.

Section P.
Variable rx : bytes -> bytes -> bool.
Variable ea : N -> eattr.
Variable cv : value -> cvar.
Variable m : memory.
Variable c : pcfg.
Variable d0 : adb.
Variable es : esvc.
Variable t : N.
Hypothesis Hinfo : ec_info (pc_event c) = false.
Hypothesis Hreg : has_filters (ec_region (pc_event c)) = false.
Hypothesis Hbr : has_filters (ec_branch (pc_event c)) = false.
Hypothesis Hkeys : i_keys (pc_info c) = [].
Notation push := (push_snapshot cv m c).
Notation onev := (on_event rx ea cv m c).
Notation pstep := (pstep rx ea cv m c).
Notation prun := (prun rx ea cv m c).

Record J (p : pst) (a : ast) (sn : list snap) (prev : N) (q : path) : Prop := mkJ {
  j_rel : rel (p_rt p) a; j_vis : vis2_st (p_rt p); j_uniq : uniq (t_nodes (r_tree (p_rt p)));
  j_nodup : NoDup (r_act (p_rt p)); j_in : In (pc_chn c) (r_act (p_rt p)); j_es : p_es p = es;
  j_db : db_ok m c p; j_run : arun m d0 sn = Some (p_db p t); j_good : Forall (good c) sn;
  j_prev : prev_of (p_ts p) t = prev; j_path : c_reg (a_thr a t) = q; j_fresh : fresh_db d0 }.

Lemma skipn_log (l l' : list ev) : skipn (length l) (l ++ l') = l'.
Proof. induction l; cbn; auto. Qed.
Lemma pstep_eq p u now o s' x evs : rt_step (p_rt p) u o = SOk s' x -> r_log s' = r_log (p_rt p) ++ evs ->
  pstep p (u, now, o) = match fold_left (onf rx ea cv m c (p_rt p) now) evs (Some p) with Some q => Some (mkp s' (p_es q) (p_ts q) (p_db q)) | None => None end.
Proof. intros E L. unfold ProfModel.pstep. rewrite E, L, skipn_log. reflexivity. Qed.

(* everything of the new runtime state that does not depend on the services *)
Lemma next_rt p a sn prev q u o s' x : J p a sn prev q -> rop_ok (p_rt p) o -> plain_op o -> not_chn (pc_chn c) o -> rt_step (p_rt p) u o = SOk s' x -> not_full (r_tree s') ->
  let a' := fst (a_step a u o) in rel s' a' /\ vis2_st s' /\ uniq (t_nodes (r_tree s')) /\ NoDup (r_act s') /\ In (pc_chn c) (r_act s') /\ ext (r_tree (p_rt p)) (r_tree s').
Proof.
  intros HJ Ho Hp Hc E Hnf a'. pose proof (step_sim _ _ u o (j_rel _ _ _ _ _ HJ) Ho) as Hs. rewrite E in Hs. destruct Hs as (_ & Hs). destruct (Hs Hnf) as (_ & R & X).
  split; auto. split; [exact (vis2_step _ _ _ _ _ (j_vis _ _ _ _ _ HJ) Ho Hp E)|]. split; [exact (uniq_step _ _ _ _ _ _ (j_rel _ _ _ _ _ HJ) Ho Hp E (j_uniq _ _ _ _ _ HJ))|].
  rewrite (rl_act _ _ R). pose proof (j_nodup _ _ _ _ _ HJ) as Nd. pose proof (j_in _ _ _ _ _ HJ) as Hi. rewrite (rl_act _ _ (j_rel _ _ _ _ _ HJ)) in Nd, Hi.
  split; [apply step_act; auto|]. split; [apply step_act_in; auto|]. auto.
Qed.

(* a call that leaves thread t alone *)
Lemma step_quiet p a sn prev q u now o s' x : J p a sn prev q -> rop_ok (p_rt p) o -> plain_op o -> not_chn (pc_chn c) o -> rt_step (p_rt p) u o = SOk s' x -> not_full (r_tree s') ->
  u <> t \/ moves o = false ->
  exists p', pstep p (u, now, o) = Some p' /\ p_rt p' = s' /\ J p' (fst (a_step a u o)) sn prev q.
Proof.
  intros HJ Ho Hp Hc E Hnf Hq. destruct (next_rt p a sn prev q u o s' x HJ Ho Hp Hc E Hnf) as (R & V & U & Nd & Hi & X).
  pose proof HJ as [J1 J2 J3 J4 J5 J6 J7 J8 J9 J10 J11 J12].
  assert (Quiet : a_log (fst (a_step a u o)) = a_log a /\ (forall w, c_reg (a_thr (fst (a_step a u o)) w) = c_reg (a_thr a w)) ->
     exists p', pstep p (u, now, o) = Some p' /\ p_rt p' = s' /\ J p' (fst (a_step a u o)) sn prev q).
  { intros (L & Cr). rewrite (pstep_eq p u now o s' x [] E) by (rewrite app_nil_r, (rl_log _ _ R), (rl_log _ _ J1); exact L). cbn [fold_left].
    eexists. split; [reflexivity|]. split; [reflexivity|]. constructor; cbn; auto. rewrite Cr. auto. }
  destruct (moves o) eqn:Em; [|apply Quiet; apply a_step_quiet; auto].
  destruct Hq as [Hu|Hq]; [|discriminate].
  destruct (a_err a u) eqn:Ee; [apply Quiet; apply a_step_err; auto|].
  destruct (a_err (fst (a_step a u o)) u) eqn:Ee'; [apply Quiet; apply a_step_err; auto|].
  destruct (a_step_region a u o Em Ee Ee') as (b & v & ctx1 & ctx2 & _ & _ & L & Cr & Ac).
  rewrite (pstep_eq p u now o s' x _ E) by (rewrite (rl_log _ _ R), (rl_log _ _ J1); exact L).
  match goal with |- context [fold_left _ ?l (Some p)] => set (evs := l) end.
  assert (Hev : Forall (fun e => ev_thr e = u) evs).
  { unfold evs. apply Forall_app. split; [|destruct (is_end o); [constructor|destruct o; try constructor]]; apply Forall_forall; intros e He; apply in_map_iff in He as (ch & <- & _); reflexivity. }
  destruct (snap_ctx_ok cv _ _ u J1 J2) as (S1 & _).
  destruct (fold_other rx ea cv m c Hinfo Hreg Hbr Hkeys (p_rt p) now u evs S1 Hev p J7) as (q' & -> & Q1 & Q2 & Q3 & Q4).
  eexists. split; [reflexivity|]. split; [reflexivity|]. destruct (Q4 t ltac:(auto)) as (Q5 & Q6). constructor; cbn; auto; try congruence.
  rewrite Cr. destruct (N.eqb_spec t u); [congruence|auto].
Qed.

(* a region call of thread t *)
Definition snap_for (tr : tree) (sn : snap) (x : path * N * bool) : Prop :=
  s_info sn = pc_info c /\ s_alloc sn = true /\
  exists refs now, s_rec sn = rec_of c refs (snd x) now (snd (fst x)) /\ ctx_for tr refs (fst (fst x)).
Lemma kind_end o : moves o = true -> cnt_of (kind_of o) = is_end o /\ kind_of o <> PostBegin.
Proof. destruct o; cbn; intro; try discriminate; split; auto; discriminate. Qed.
Lemma sub64_ok a b : b <= a -> a < 18446744073709551616 -> sub64 a b = a - b.
Proof.
  intros H1 H2. unfold sub64. change 18446744073709551616 with W64 in H2. replace (a + W64 - b) with (a - b + 1 * W64) by lia.
  rewrite N.mod_add by (unfold W64; lia). apply N.mod_small. lia.
Qed.
Lemma step_region p a sn prev q now o s' x : J p a sn prev q -> rop_ok (p_rt p) o -> plain_op o -> not_chn (pc_chn c) o -> rt_step (p_rt p) t o = SOk s' x -> not_full (r_tree s') ->
  moves o = true -> r_err s' t = false -> r_err (p_rt p) t = false -> (forall b, op_attr o = Some b -> find_marker es (ea (at_id b)) = true) -> prev <= now -> now < 18446744073709551616 ->
  exists p' r, pstep p (t, now, o) = Some p' /\ p_rt p' = s' /\ J p' (fst (a_step a t o)) (sn ++ [r]) now (after q o) /\
    snap_for (r_tree (p_rt p)) r (q, now - prev, is_end o).
Proof.
  intros HJ Ho Hp Hc E Hnf Em Ee' Ee Hmk Hle Hlt. destruct (next_rt p a sn prev q t o s' x HJ Ho Hp Hc E Hnf) as (R & V & U & Nd & Hi & X).
  pose proof HJ as [J1 J2 J3 J4 J5 J6 J7 J8 J9 J10 J11 J12]. rewrite (rl_err _ _ R) in Ee'. rewrite (rl_err _ _ J1) in Ee.
  destruct (a_step_region a t o Em Ee Ee') as (b & v & ctx1 & ctx2 & Hb & Hrb & L & Cr & Ac).
  rewrite (pstep_eq p t now o s' x _ E) by (rewrite (rl_log _ _ R), (rl_log _ _ J1); exact L). rewrite fold_left_app.
  rewrite <- (rl_act _ _ J1). rewrite fold_evs by auto. destruct (kind_end o Em) as (K1 & K2).
  destruct (onev_marked rx ea cv m c Hinfo Hreg Hbr p (p_rt p) now (kind_of o) t (at_id b) v ctx1 K2) as (y & Y1 & ->); [rewrite J6; auto|].
  destruct (snap_ctx_ok cv _ _ t J1 J2) as (S1 & S2).
  destruct (push_ok ea cv m c Hinfo Hreg Hbr Hkeys d0 p (p_rt p) t now y sn J12 S1 J8 J9) as (q' & -> & Q1 & Q2 & (Q3 & Q4) & Q5 & Q6).
  assert (Ef : fold_left (onf rx ea cv m c (p_rt p) now) (if is_end o then [] else match o with OBegin _ _ => evs_of PostBegin t b v ctx2 (r_act (p_rt p)) | _ => [] end) (Some q') = Some q').
  { destruct (is_end o); [reflexivity|]. destruct o; try reflexivity. apply fold_post. }
  rewrite Ef. eexists _, _. split; [reflexivity|]. split; [reflexivity|]. split.
  - constructor; cbn; auto; try congruence.
    + intro w. cbn [p_db]. destruct (N.eq_dec w t) as [->|Hw]; [exists d0; eexists; split; [exact J12|]; split; [exact Q4|]; apply Forall_app; auto|]. destruct (Q6 w Hw) as (_ & ->). apply J7.
    + exact Q4.
    + apply Forall_app; auto.
    + rewrite Cr, N.eqb_refl, J11. reflexivity.
  - split; [reflexivity|]. split; [reflexivity|]. cbn [s_rec fst snd]. eexists _, now. split; [|rewrite J11 in S2; exact S2].
    rewrite Y1, K1, J10, sub64_ok by auto. reflexivity.
Qed.


Lemma ctx_for_ext tr tr' refs q : ext tr tr' -> ctx_for tr refs q -> ctx_for tr' refs q.
Proof. intros X [H|(i & H1 & H2 & H3 & H4)]; [left; auto|right; exists i; repeat split; auto; eapply ext_path; eauto]. Qed.
Lemma last_cons_default {A} (l : list A) : forall x d, last (x :: l) d = last l x.
Proof. induction l as [|y l IH]; intros x d; [reflexivity|]. change (last (x :: y :: l) d) with (last (y :: l) d). rewrite !IH. reflexivity. Qed.
Lemma main2 h : forall p a sn prev q s' xs, J p a sn prev q -> ops_ok (p_rt p) (prog h) -> Forall (fun x => plain_op (snd x) /\ not_chn (pc_chn c) (snd x)) h ->
  rt_run (p_rt p) (prog h) = Some (s', xs) -> not_full (r_tree s') -> r_err s' t = false ->
  (forall n o b, In (n, o) (timeline t h) -> op_attr o = Some b -> find_marker es (ea (at_id b)) = true) -> ordered prev (timeline t h) ->
  exists p' a' new, let prev' := last (map fst (timeline t h)) prev in let q' := fold_left after (map snd (timeline t h)) q in prun p h = Some p' /\ p_rt p' = s' /\ J p' a' (sn ++ new) prev' q' /\ Forall2 (snap_for (r_tree s')) new (stretches prev q (timeline t h)) /\ ext (r_tree (p_rt p)) (r_tree s').
Proof.
  induction h as [|[[u n] o] h IH]; intros p a sn prev q s' xs HJ Ho Hp Hr Hnf He Hmk Hord.
  - cbn in Hr. injection Hr as <- <-. exists p, a, []. cbn. rewrite app_nil_r. split; [reflexivity|]. split; [reflexivity|]. split; auto. split; [constructor|apply ext_refl].
  - cbn [prog map fst snd ops_ok rt_run] in Ho, Hr. fold (prog h) in Ho, Hr. destruct Ho as (Ho1 & Ho2).
    destruct (rt_step (p_rt p) u o) as [s1 x|?|] eqn:E1; [|discriminate|discriminate]. destruct (rt_run s1 (prog h)) as [[s2 ys]|] eqn:E2; [|discriminate]. injection Hr as <- <-.
    pose proof (Forall_inv Hp) as (Hp1 & Hp2). apply Forall_inv_tail in Hp. cbn [snd] in Hp1, Hp2.
    assert (Hnf1 : not_full (r_tree s1)) by (eapply mono_nf; eauto using run_mono).
    destruct (next_rt p a sn prev q u o s1 x HJ Ho1 Hp1 Hp2 E1 Hnf1) as (_ & _ & _ & _ & _ & X1).
    assert (Hsplit : timeline t ((u, n, o) :: h) = (if (u =? t) && moves o then [(n, o)] else []) ++ timeline t h) by reflexivity.
    assert (Ee1 : r_err s1 t = false). { destruct (r_err s1 t) eqn:Z; auto. exfalso. destruct (C20_error_freezes_thread (prog h) s1 t s2 ys Z E2) as (Z2 & _). congruence. }
    assert (Ee0 : r_err (p_rt p) t = false). { destruct (r_err (p_rt p) t) eqn:Z; auto. exfalso. rewrite (step_err_keep _ _ _ _ _ t E1 Z) in Ee1. discriminate. }
    destruct ((u =? t) && moves o) eqn:Eq.
    + apply andb_true_iff in Eq as (Eu & Em). apply N.eqb_eq in Eu. subst u. rewrite Hsplit in *. cbn [app ordered stretches] in *. destruct Hord as (O1 & O2 & O3).
      destruct (step_region p a sn prev q n o s1 x HJ Ho1 Hp1 Hp2 E1 Hnf1 Em Ee1 Ee0) as (p1 & r & P1 & P2 & P3 & P4); auto.
      { intros b Hb. eapply Hmk; [left; reflexivity|exact Hb]. }
      rewrite <- P2 in Ho2, E2. destruct (IH p1 _ _ _ _ _ _ P3 Ho2 Hp E2 Hnf He) as (p' & a' & new & R1 & R2 & R3 & R4 & R5); auto.
      { intros n' o' b Hin Hb. eapply Hmk; [right; exact Hin|exact Hb]. }
      exists p', a', (r :: new). cbv zeta. cbn [map fst snd fold_left]. rewrite last_cons_default. cbn [ProfModel.prun]. rewrite P1. split; auto. split; auto. rewrite <- app_assoc in R3. split; auto. rewrite P2 in R5. split; [|eapply ext_trans; eauto].
      constructor; auto. destruct P4 as (A1 & A2 & refs & now & A3 & A4). split; auto. split; auto. exists refs, now. split; auto. eapply ctx_for_ext; [|exact A4]. eapply ext_trans; eauto.
    + rewrite Hsplit in *. cbn [app] in *. destruct (step_quiet p a sn prev q u n o s1 x HJ Ho1 Hp1 Hp2 E1 Hnf1) as (p1 & P1 & P2 & P3).
      { apply andb_false_iff in Eq as [Eq|Eq]; [left; apply N.eqb_neq; auto|right; auto]. }
      rewrite <- P2 in Ho2, E2. destruct (IH p1 _ _ _ _ _ _ P3 Ho2 Hp E2 Hnf He Hmk Hord) as (p' & a' & new & R1 & R2 & R3 & R4 & R5).
      exists p', a', new. cbv zeta. cbn [ProfModel.prun]. rewrite P1. split; auto. split; auto. split; auto. split; auto. rewrite P2 in R5. eapply ext_trans; eauto.
Qed.
Lemma main h : forall p a sn prev q s' xs, J p a sn prev q -> ops_ok (p_rt p) (prog h) -> Forall (fun x => plain_op (snd x) /\ not_chn (pc_chn c) (snd x)) h ->
  rt_run (p_rt p) (prog h) = Some (s', xs) -> not_full (r_tree s') -> r_err s' t = false ->
  (forall n o b, In (n, o) (timeline t h) -> op_attr o = Some b -> find_marker es (ea (at_id b)) = true) -> ordered prev (timeline t h) ->
  exists p' a' new prev' q', prun p h = Some p' /\ p_rt p' = s' /\ J p' a' (sn ++ new) prev' q' /\ Forall2 (snap_for (r_tree s')) new (stretches prev q (timeline t h)) /\ ext (r_tree (p_rt p)) (r_tree s').
Proof. intros p a sn prev q s' xs H1 H2 H3 H4 H5 H6 H7 H8. destruct (main2 h p a sn prev q s' xs H1 H2 H3 H4 H5 H6 H7 H8) as (p' & a' & new & R). exists p', a', new. eexists _, _. exact R. Qed.
End P.
