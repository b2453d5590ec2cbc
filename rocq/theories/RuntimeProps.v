(* C18, C19, C20, C21, C22, C24: the annotation interface *)
From Verif Require Import Base VariantModel VariantSpec TreeModel TreeSpec TreeProofs TreeProofs2
  RuntimeModel RuntimeSpec RuntimeProofs RuntimeProofs2.

(* ---- helpers ---- *)
Lemma ops_ok_attr ops : forall s s' xs t a v, ops_ok s ops -> rt_run s ops = Some (s', xs) -> In (t, OBegin a v) ops -> 12 <= at_id a.
Proof.
  induction ops as [|[t' o] ops IH]; intros s s' xs t a v Ho Hr Hin; [contradiction|]. cbn in Ho, Hr. destruct Ho as (Ho1 & Ho2).
  destruct (rt_step s t' o) as [s1 x|?|] eqn:E; [|discriminate|discriminate].
  destruct (rt_run s1 ops) as [[s2 ys]|] eqn:E2; [|discriminate]. destruct Hin as [Hin|Hin]; [|eapply IH; eauto].
  injection Hin as -> ->. cbn in Ho1. apply Ho1.
Qed.
Lemma ops_of_in t o ops : In o (ops_of t ops) -> In (t, o) ops.
Proof.
  unfold ops_of. intro H. apply in_map_iff in H. destruct H as ([t' o'] & E & H). apply filter_In in H. destruct H as (H & Et).
  cbn in *. apply N.eqb_eq in Et. subst. auto.
Qed.
Lemma get_none_fresh s a t x : rel s a -> asvalue x = true -> scope_of x <> ScOther -> 12 <= at_id x -> rt_get s t x = None ->
  c_imm (a_ctx a t x) (at_id x) = None.
Proof.
  intros H Hv Hs Hk Hg. destruct (rel_bb _ _ t x H Hs) as (_ & Hb). destruct (br_imm _ _ _ Hb (at_id x) Hk) as (E & _).
  unfold rt_get in Hg. assert (Hg' : option_map snd (ent_get (r_tree s) (bget (get_bb s t x) (bb_key x)) (at_id x)) = None) by (destruct (scope_of x); auto; congruence).
  unfold bb_key in Hg'. rewrite Hv, E in Hg'. destruct (c_imm (a_ctx a t x) (at_id x)); auto. cbn in Hg'. rewrite N.eqb_refl in Hg'. discriminate.
Qed.

(* C18: properly nested annotations of thread t leave its context as it was and raise no
   error, whatever the other threads do in between *)
Theorem C18_nesting_restores_thread_context : forall s t ops s' xs, rt_reach s -> r_err s t = false ->
  ops_ok s ops -> rt_run s ops = Some (s', xs) -> not_full (r_tree s') ->
  nested (ops_of t ops) -> Forall no_process (ops_of t ops) ->
  (forall a v, In (OBegin a v) (ops_of t ops) -> asvalue a = true -> rt_get s t a = None) ->
  same_ctx (r_tree s) (r_tbb s t) (r_tree s') (r_tbb s' t) /\ ~ In OError (outs_of t ops xs) /\ r_err s' t = false.
Proof.
  intros s t ops s' xs Hr He Ho Hrun Hnf Hne Hnp Hfr. destruct (reach_rel _ Hr) as (a & Hrel).
  destruct (run_sim ops s a s' xs Hrel Ho Hrun Hnf) as (Ex & Hrel' & _).
  set (x := (a_thr a t, a_proc a, false)).
  assert (Hag : agree false t a x). { split; auto. split; [rewrite <- (rl_err _ _ Hrel); auto|discriminate]. }
  destruct (run_agree false t ops a x Hag) as ((A1 & A2 & _) & A4); [discriminate|auto|].
  destruct (nested_run _ Hne x eq_refl) as (X1 & X2).
  { intros b w Hin Hb Hs. rewrite Forall_forall in Hnp. pose proof (Hnp _ Hin b eq_refl) as Hp.
    pose proof (get_none_fresh s a t b Hrel Hb Hs (ops_ok_attr _ _ _ _ _ _ _ Ho Hrun (ops_of_in _ _ _ Hin)) (Hfr b w Hin Hb)) as G.
    unfold ctx1, a_ctx in *. destruct (scope_of b); auto. }
  rewrite <- Ex, A4. destruct X1 as (Y1 & _ & Y3).
  split; [|split; [exact X2|rewrite (rl_err _ _ Hrel'), A2; exact Y3]].
  eapply shows_same; [apply (rel_shows _ _ t Hrel)|apply (rel_shows _ _ t Hrel')|]. rewrite A1. apply ceq_sym. exact Y1.
Qed.
Print Assumptions C18_nesting_restores_thread_context.

(* the same with process-scope attributes, if no other thread uses those meanwhile *)
Theorem C18_nesting_restores_thread_and_process_context : forall s t ops s' xs, rt_reach s -> r_err s t = false ->
  ops_ok s ops -> rt_run s ops = Some (s', xs) -> not_full (r_tree s') ->
  nested (ops_of t ops) -> (forall t' o, In (t', o) ops -> t' <> t -> no_process o) ->
  (forall a v, In (OBegin a v) (ops_of t ops) -> asvalue a = true -> rt_get s t a = None) ->
  same_ctx (r_tree s) (r_tbb s t) (r_tree s') (r_tbb s' t) /\ same_ctx (r_tree s) (r_pbb s) (r_tree s') (r_pbb s') /\
  ~ In OError (outs_of t ops xs) /\ r_err s' t = false.
Proof.
  intros s t ops s' xs Hr He Ho Hrun Hnf Hne Hoth Hfr. destruct (reach_rel _ Hr) as (a & Hrel).
  destruct (run_sim ops s a s' xs Hrel Ho Hrun Hnf) as (Ex & Hrel' & _).
  set (x := (a_thr a t, a_proc a, false)).
  assert (Hag : agree true t a x). { split; auto. split; [rewrite <- (rl_err _ _ Hrel); auto|auto]. }
  destruct (run_agree true t ops a x Hag) as ((A1 & A2 & A3) & A4); [intros _ t' o Hin; apply Hoth; auto|discriminate|].
  destruct (nested_run _ Hne x eq_refl) as (X1 & X2).
  { intros b w Hin Hb Hs.
    pose proof (get_none_fresh s a t b Hrel Hb Hs (ops_ok_attr _ _ _ _ _ _ _ Ho Hrun (ops_of_in _ _ _ Hin)) (Hfr b w Hin Hb)) as G.
    unfold ctx1, a_ctx in *. destruct (scope_of b); auto. }
  rewrite <- Ex, A4. destruct X1 as (Y1 & Y2 & Y3). specialize (A3 eq_refl).
  split; [|split; [|split; [exact X2|rewrite (rl_err _ _ Hrel'), A2; exact Y3]]].
  - eapply shows_same; [apply (rel_shows _ _ t Hrel)|apply (rel_shows _ _ t Hrel')|]. rewrite A1. apply ceq_sym. exact Y1.
  - eapply shows_same; [apply (rel_shows _ _ t Hrel)|apply (rel_shows _ _ t Hrel')|]. rewrite A3. apply ceq_sym. exact Y2.
Qed.
Print Assumptions C18_nesting_restores_thread_and_process_context.

(* ---- single steps ---- *)
Lemma step_rel s t o s' x : rt_reach s -> rop_ok s o -> rt_step s t o = SOk s' x -> not_full (r_tree s') ->
  exists a, rel s a /\ rel s' (fst (a_step a t o)) /\ x = snd (a_step a t o).
Proof.
  intros Hr Ho E Hnf. destruct (reach_rel _ Hr) as (a & Hrel). exists a. split; auto.
  pose proof (step_sim s a t o Hrel Ho) as H. rewrite E in H. destruct H as (_ & H). destruct (H Hnf) as (H1 & H2 & _). auto.
Qed.
Lemma rel_ctx s a t x : rel s a -> scope_of x <> ScOther -> shows (r_tree s) (get_bb s t x) (a_ctx a t x).
Proof.
  intros H Hs. pose proof (rel_shows _ _ t H) as (H1 & H2). unfold get_bb, a_ctx. destruct (scope_of x); auto. congruence.
Qed.
Lemma close_at a t x ok w : a_err a t = false -> scope_of x <> ScOther -> c_open (a_ctx a t x) x = Some w -> ok w = true ->
  snd (a_close a t x ok) = ODone /\ a_ctx (fst (a_close a t x ok)) t x = c_end (a_ctx a t x) x.
Proof.
  intros He Hs Ho Hk. unfold a_close. rewrite He. assert (is_other x = false) as -> by (unfold is_other; destruct (scope_of x); auto; congruence).
  rewrite Ho, Hk. cbn [fst snd]. split; auto. rewrite fire_ctx. unfold a_put, a_ctx. destruct (scope_of x); cbn; [apply upd_same|auto|congruence].
Qed.
Lemma innermost_split k l1 v l2 : ~ In k (map fst l2) -> innermost k (l1 ++ (k, v) :: l2) = Some v.
Proof.
  intro H. unfold innermost. rewrite rev_app_distr. cbn. rewrite <- app_assoc.
  assert (G : forall l r, ~ In k (map fst l) -> find (fun x : N * value => fst x =? k) (l ++ r) = find (fun x => fst x =? k) r).
  { induction l as [|y l IH]; cbn; intros r Hn; auto. destruct (N.eqb_spec (fst y) k); [exfalso; auto|]. apply IH. auto. }
  rewrite G. - cbn. rewrite N.eqb_refl. reflexivity. - rewrite map_rev, <- in_rev. auto.
Qed.
Lemma rm_innermost_split k l1 (v : value) l2 : ~ In k (map fst l2) -> rm_innermost k (l1 ++ (k, v) :: l2) = l1 ++ l2.
Proof.
  intro H. unfold rm_innermost. rewrite rev_app_distr. cbn. rewrite <- app_assoc.
  assert (G : forall l r, ~ In k (map fst l) -> rm_first k (l ++ (k, v) :: r) = l ++ r).
  { induction l as [|y l IH]; cbn; intros r Hn; [rewrite N.eqb_refl; auto|]. destruct (N.eqb_spec (fst y) k); [exfalso; auto|]. rewrite IH; auto. }
  cbn. rewrite G by (rewrite map_rev, <- in_rev; auto). rewrite rev_app_distr, !rev_involutive. reflexivity.
Qed.
Lemma innermost_none k l : ~ In k (map fst l) -> innermost k l = None.
Proof.
  intro H. unfold innermost. destruct (find _ (rev l)) eqn:E; auto. apply find_some in E. destruct E as (E1 & E2).
  exfalso. apply H. apply N.eqb_eq in E2. rewrite <- E2. apply in_map. apply in_rev. auto.
Qed.

(* an operation that ends attribute a: end(a), or end with the right value *)
Definition ends (o : rop) (a : attr) (v : value) : Prop := o = OEnd a \/ o = OEndCheck a v.
Lemma ends_step o x v a t : ends o x v -> exists ok, a_step a t o = a_close a t x ok /\ ok v = true.
Proof.
  intros [->| ->]; cbn [a_step]; eexists; (split; [reflexivity|]); auto. unfold veqb. destruct (value_eq_dec v v); auto.
Qed.

(* C19: end() closes the innermost open entry of its attribute and nothing else in that context *)
Theorem C19_end_closes_region : forall s t a v l o s' x, rt_reach s -> rop_ok s o -> ends o a v ->
  asvalue a = false -> unaligned a = false -> scope_of a <> ScOther -> r_err s t = false ->
  bb_regions (r_tree s) (get_bb s t a) = l ++ [(at_id a, v)] ->
  rt_step s t o = SOk s' x -> not_full (r_tree s') ->
  x = ODone /\ bb_regions (r_tree s') (get_bb s' t a) = l /\
  bb_unaligned (r_tree s') (get_bb s' t a) = bb_unaligned (r_tree s) (get_bb s t a) /\
  (forall k, 12 <= k -> option_map snd (bget (get_bb s' t a) k) = option_map snd (bget (get_bb s t a) k)).
Proof.
  intros s t a v l o s' x Hr Hok Hends Hv Hu Hs He Hl E Hnf.
  destruct (step_rel _ _ _ _ _ Hr Hok E Hnf) as (b & R & R' & Ex). destruct (ends_step o a v b t Hends) as (ok & Es & Hok').
  rewrite Es in *. destruct (rel_ctx _ _ t a R Hs) as (S1 & S2 & S3). destruct (rel_ctx _ _ t a R' Hs) as (T1 & T2 & T3).
  rewrite S1 in Hl. destruct (close_at b t a ok v) as (C1 & C2); auto.
  { rewrite <- (rl_err _ _ R). auto. }
  { unfold c_open. rewrite Hv, Hu, Hl. unfold last_is. rewrite rev_app_last, N.eqb_refl. apply innermost_last. }
  rewrite Ex, C1. split; auto. rewrite C2 in *. unfold c_end, with_lst, lst in *. rewrite Hv, Hu in *. cbn in *.
  split; [|split].
  - rewrite T1, Hl. apply (last_is_rm (at_id a) [] l v).
  - congruence.
  - intros k Hk. rewrite T3, S3; auto.
Qed.
Print Assumptions C19_end_closes_region.

Theorem C19_end_closes_unaligned : forall s t a v l1 l2 o s' x, rt_reach s -> rop_ok s o -> ends o a v ->
  asvalue a = false -> unaligned a = true -> scope_of a <> ScOther -> r_err s t = false ->
  bb_unaligned (r_tree s) (get_bb s t a) = l1 ++ (at_id a, v) :: l2 -> ~ In (at_id a) (map fst l2) ->
  rt_step s t o = SOk s' x -> not_full (r_tree s') ->
  x = ODone /\ bb_unaligned (r_tree s') (get_bb s' t a) = l1 ++ l2 /\
  bb_regions (r_tree s') (get_bb s' t a) = bb_regions (r_tree s) (get_bb s t a) /\
  (forall k, 12 <= k -> option_map snd (bget (get_bb s' t a) k) = option_map snd (bget (get_bb s t a) k)).
Proof.
  intros s t a v l1 l2 o s' x Hr Hok Hends Hv Hu Hs He Hl Hn E Hnf.
  destruct (step_rel _ _ _ _ _ Hr Hok E Hnf) as (b & R & R' & Ex). destruct (ends_step o a v b t Hends) as (ok & Es & Hok').
  rewrite Es in *. destruct (rel_ctx _ _ t a R Hs) as (S1 & S2 & S3). destruct (rel_ctx _ _ t a R' Hs) as (T1 & T2 & T3).
  rewrite S2 in Hl. destruct (close_at b t a ok v) as (C1 & C2); auto.
  { rewrite <- (rl_err _ _ R). auto. }
  { unfold c_open. rewrite Hv, Hu, Hl. apply innermost_split; auto. }
  rewrite Ex, C1. split; auto. rewrite C2 in *. unfold c_end, with_lst, lst in *. rewrite Hv, Hu in *. cbn in *.
  split; [|split].
  - rewrite T2, Hl. apply rm_innermost_split; auto.
  - congruence.
  - intros k Hk. rewrite T3, S3; auto.
Qed.
Print Assumptions C19_end_closes_unaligned.

Theorem C19_end_removes_value : forall s t a v o s' x, rt_reach s -> rop_ok s o -> ends o a v ->
  asvalue a = true -> scope_of a <> ScOther -> r_err s t = false -> rt_get s t a = Some v ->
  rt_step s t o = SOk s' x -> not_full (r_tree s') ->
  x = ODone /\ rt_get s' t a = None /\
  bb_regions (r_tree s') (get_bb s' t a) = bb_regions (r_tree s) (get_bb s t a) /\
  bb_unaligned (r_tree s') (get_bb s' t a) = bb_unaligned (r_tree s) (get_bb s t a) /\
  (forall k, 12 <= k -> k <> at_id a -> option_map snd (bget (get_bb s' t a) k) = option_map snd (bget (get_bb s t a) k)).
Proof.
  intros s t a v o s' x Hr Hok Hends Hv Hs He Hg E Hnf.
  destruct (step_rel _ _ _ _ _ Hr Hok E Hnf) as (b & R & R' & Ex). destruct (ends_step o a v b t Hends) as (ok & Es & Hok').
  rewrite Es in *. destruct (rel_ctx _ _ t a R Hs) as (S1 & S2 & S3). destruct (rel_ctx _ _ t a R' Hs) as (T1 & T2 & T3).
  assert (H12 : 12 <= at_id a) by (destruct Hends as [->| ->]; apply Hok).
  destruct (rel_bb _ _ t a R Hs) as (_ & Hb). destruct (br_imm _ _ _ Hb (at_id a) H12) as (Ei & _).
  destruct (rel_bb _ _ t a R' Hs) as (_ & Hb'). destruct (br_imm _ _ _ Hb' (at_id a) H12) as (Ei' & _).
  assert (Hg' : c_imm (a_ctx b t a) (at_id a) = Some v).
  { unfold rt_get in Hg. assert (G : option_map snd (ent_get (r_tree s) (bget (get_bb s t a) (bb_key a)) (at_id a)) = Some v) by (destruct (scope_of a); auto; congruence).
    unfold bb_key in G. rewrite Hv, Ei in G. destruct (c_imm (a_ctx b t a) (at_id a)); [|discriminate]. cbn in G. rewrite N.eqb_refl in G. exact G. }
  destruct (close_at b t a ok v) as (C1 & C2); auto.
  { rewrite <- (rl_err _ _ R). auto. }
  { unfold c_open. rewrite Hv. auto. }
  rewrite Ex, C1. split; auto. rewrite C2 in *. unfold c_end in *. rewrite Hv in *. cbn in *. rewrite upd_same in Ei'. cbn in Ei'.
  split; [|split; [congruence|split; [congruence|]]].
  - unfold rt_get, bb_key. rewrite Hv, Ei'. destruct (scope_of a); reflexivity.
  - intros k Hk Hne. rewrite T3, S3 by auto. apply upd_other; auto.
Qed.
Print Assumptions C19_end_removes_value.

(* A mismatched end() is an error and changes nothing but the thread's error flag.
   Regions must be closed innermost first; unaligned and as-value attributes need to be open. *)
Theorem C19_mismatched_end_is_an_error : forall s t a o s' x v, rt_reach s -> rop_ok s o -> ends o a v ->
  scope_of a <> ScOther -> r_err s t = false ->
  (asvalue a = true -> rt_get s t a = None) ->
  (asvalue a = false -> unaligned a = true -> ~ In (at_id a) (map fst (bb_unaligned (r_tree s) (get_bb s t a)))) ->
  (asvalue a = false -> unaligned a = false -> forall l w, bb_regions (r_tree s) (get_bb s t a) <> l ++ [(at_id a, w)]) ->
  rt_step s t o = SOk s' x -> x = OError /\ s' = set_err s t.
Proof.
  intros s t a o s' x v Hr Hok Hends Hs He H1 H2 H3 E.
  destruct (reach_rel _ Hr) as (b & R). destruct (rel_ctx _ _ t a R Hs) as (S1 & S2 & S3).
  assert (Ha : attr_ok (r_tree s) a) by (destruct Hends as [->| ->]; exact Hok).
  destruct (rel_bb _ _ t a R Hs) as (_ & Hb). pose proof (load_spec _ a _ _ (rl_inv _ _ R) Hb Ha) as HL.
  assert (Ho : c_open (a_ctx b t a) a = None).
  { unfold c_open. destruct (asvalue a) eqn:Ev.
    - eapply get_none_fresh; eauto. apply Ha.
    - destruct (unaligned a) eqn:Eu.
      + apply innermost_none. rewrite <- S2. auto.
      + unfold last_is. destruct (rev (c_reg (a_ctx b t a))) as [|[k w] r] eqn:Er; auto.
        destruct (N.eqb_spec k (at_id a)); auto. exfalso. apply (H3 eq_refl eq_refl (rev r) w).
        rewrite S1. rewrite <- (rev_involutive (c_reg _)), Er. cbn. subst. reflexivity. }
  rewrite Ho in HL.
  assert (F : forall f, rt_step s t o = (if r_err s t then SOk s ODone else match scope_of a with ScOther => SOk s ODone | _ => match snd (end_load s t a) with None => SOk (set_err s t) OError | Some e => f e end end) -> x = OError /\ s' = set_err s t).
  { intros f Ef. rewrite E in Ef. rewrite He in Ef. unfold end_load in Ef. rewrite HL in Ef.
    destruct (scope_of a); try (injection Ef as -> ->; auto). congruence. }
  destruct Hends as [->| ->]; cbn [rt_step] in *.
  - apply (F (fun _ => end_commit s t a (end_load s t a))). unfold rt_end. reflexivity.
  - apply (F (fun e => match e with (_, w) => if veqb v w then end_commit s t a (end_load s t a) else SOk (set_err s t) OError end)). unfold rt_end_check. reflexivity.
Qed.
Print Assumptions C19_mismatched_end_is_an_error.

(* end with a value check: a different innermost value is an error *)
Theorem C19_wrong_value_is_an_error : forall s t a v w s' x, rt_reach s -> rop_ok s (OEndCheck a v) ->
  scope_of a <> ScOther -> r_err s t = false -> rt_get s t a = Some w -> v <> w ->
  rt_step s t (OEndCheck a v) = SOk s' x -> x = OError /\ s' = set_err s t.
Proof.
  intros s t a v w s' x Hr Ha Hs He Hg Hne E. cbn in Ha.
  destruct (reach_rel _ Hr) as (b & R). pose proof (step_sim s b t (OGet a) R Ha) as G. cbn in G. destruct G as (_ & G).
  destruct (rel_bb _ _ t a R Hs) as (_ & Hb). pose proof (load_spec _ a _ _ (rl_inv _ _ R) Hb Ha) as HL.
  assert (Hgc : c_get (a_ctx b t a) a = Some w).
  { assert (attr_node (r_tree s) (at_id a)) by apply Ha. pose proof (attr_ok_ne _ _ (rl_inv _ _ R) Ha) as Hin.
    assert (Gv : option_map snd (ent_get (r_tree s) (bget (get_bb s t a) (bb_key a)) (at_id a)) = Some w) by (unfold rt_get in Hg; destruct (scope_of a); auto; congruence).
    rewrite <- Gv. symmetry. unfold bb_key, c_get. destruct (asvalue a).
    - destruct (br_imm _ _ _ Hb (at_id a) (proj1 Ha)) as (Ei & _). rewrite Ei. destruct (c_imm (a_ctx b t a) (at_id a)); cbn; auto. rewrite N.eqb_refl. reflexivity.
    - apply (ref_get (r_tree s)); auto; [apply R|apply br_lst; auto]. }
  cbn [rt_step] in E. unfold rt_end_check in E. rewrite He in E. unfold end_load in E.
  assert (X : match snd (load_current (r_tree s) a (bb_key a) (get_bb s t a)) with None => True | Some (_, u) => u = w end).
  { unfold c_open, c_get, lst in *. destruct (asvalue a).
    - rewrite Hgc in HL. destruct HL as (i & u & j & EL & _). rewrite EL. reflexivity.
    - destruct (unaligned a).
      + rewrite Hgc in HL. destruct HL as (i & u & j & EL & _). rewrite EL. reflexivity.
      + destruct (last_is _ _); [rewrite Hgc in HL; destruct HL as (i & u & j & EL & _); rewrite EL; reflexivity|rewrite HL; exact I]. }
  destruct (snd (load_current (r_tree s) a (bb_key a) (get_bb s t a))) as [[j u]|].
  - subst u. unfold veqb in E. destruct (value_eq_dec v w); [contradiction|]. destruct (scope_of a); try (injection E as <- <-; auto). congruence.
  - destruct (scope_of a); try (injection E as <- <-; auto). congruence.
Qed.
Print Assumptions C19_wrong_value_is_an_error.

(* C20: an annotation error freezes the thread: from then on its begin/end/set calls are as if
   they had not been made (no context change, no callbacks), for every later history *)
Definition annotates (o : rop) : bool :=
  match o with OBegin _ _ | OEnd _ | OEndCheck _ _ | OSet _ _ => true | _ => false end.
Definition without (t : N) (ops : list (N * rop)) : list (N * rop) :=
  filter (fun p => negb ((fst p =? t) && annotates (snd p))) ops.
Lemma step_err_keep s t o s' x t' : rt_step s t o = SOk s' x -> r_err s t' = true -> r_err s' t' = true.
Proof.
  assert (F : forall s k t a v, r_err (fire s k t a v) = r_err s) by (intros; unfold fire; destruct (run_events a); reflexivity).
  assert (P : forall s t a tr m, r_err (put_bb s t a tr m) = r_err s) by (intros; unfold put_bb; destruct (scope_of a); reflexivity).
  assert (S : forall s t, r_err s t' = true -> r_err (set_err s t) t' = true) by (intros; cbn; unfold upd; destruct (t' =? t0); auto).
  assert (C : forall s t a h k, (forall s2, r_err s2 t' = true -> forall s3 x, k s2 = SOk s3 x -> r_err s3 t' = true) ->
       r_err s t' = true -> forall s3 x, commit s t a h k = SOk s3 x -> r_err s3 t' = true).
  { intros s0 t0 a h k Hk H s3 y. unfold commit. destruct h; [|discriminate|discriminate]. apply Hk. rewrite P. auto. }
  assert (EC : forall s t a cur s3 x, end_commit s t a cur = SOk s3 x -> r_err s t' = true -> r_err s3 t' = true).
  { intros s0 t0 a cur s3 y. unfold end_commit. destruct (snd cur) as [[? ?]|]; [|discriminate]. intros E H. eapply C; [|rewrite F; exact H|exact E].
    cbn. intros ? ? ? ? Z. injection Z as <- <-. auto. }
  intros E H. destruct o; cbn [rt_step] in E.
  - unfold rt_begin in E. destruct (r_err s t); [injection E as <- <-; auto|].
    destruct (scope_of a).
    + eapply C; [|rewrite F; exact H|exact E]. cbn. intros ? ? ? ? Z. injection Z as <- <-. rewrite F. auto.
    + eapply C; [|rewrite F; exact H|exact E]. cbn. intros ? ? ? ? Z. injection Z as <- <-. rewrite F. auto.
    + injection E as <- <-. rewrite !F. auto.
  - unfold rt_end in E. destruct (r_err s t); [injection E as <- <-; auto|].
    destruct (scope_of a); cbn zeta in E; try (destruct (snd (end_load s t a)); [exact (EC _ _ _ _ _ _ E H)|injection E as <- <-; apply S; auto]).
    injection E as <- <-; auto.
  - unfold rt_end_check in E. destruct (r_err s t); [injection E as <- <-; auto|].
    destruct (scope_of a); cbn zeta in E; try (destruct (snd (end_load s t a)) as [[? w]|]; [destruct (veqb v w); [eapply EC; eauto|]|]; injection E as <- <-; apply S; auto).
    injection E as <- <-; auto.
  - unfold rt_set in E. destruct (r_err s t); [injection E as <- <-; auto|].
    destruct (scope_of a).
    + eapply C; [|rewrite F; exact H|exact E]. cbn. intros ? ? ? ? Z. injection Z as <- <-. auto.
    + eapply C; [|rewrite F; exact H|exact E]. cbn. intros ? ? ? ? Z. injection Z as <- <-. auto.
    + injection E as <- <-. rewrite F. auto.
  - injection E as <- <-; auto.
  - injection E as <- <-; auto.
  - injection E as <- <-; auto.
  - destruct (tstep (r_tree s) t o) as [[? ?]|]; [|discriminate]. injection E as <- <-; auto.
Qed.

Theorem C20_error_freezes_thread : forall ops s t s' xs, r_err s t = true -> rt_run s ops = Some (s', xs) ->
  r_err s' t = true /\ (exists ys, rt_run s (without t ops) = Some (s', ys)) /\
  r_tbb s' t = r_tbb s t /\ ~ In OError (outs_of t ops xs) /\
  filter (fun e => ev_thr e =? t) (r_log s') = filter (fun e => ev_thr e =? t) (r_log s).
Proof.
  induction ops as [|[t' o] ops IH]; intros s t s' xs He Hr.
  - cbn in Hr. injection Hr as <- <-. split; auto. split; [exists []; reflexivity|]. auto.
  - cbn [rt_run] in Hr. destruct (rt_step s t' o) as [s1 x|?|] eqn:E; [|discriminate|discriminate].
    destruct (rt_run s1 ops) as [[s2 ys]|] eqn:E2; [|discriminate]. injection Hr as <- <-.
    pose proof (step_err_keep _ _ _ _ _ t E He) as He1.
    destruct (IH s1 t s2 ys He1 E2) as (I1 & (zs & I2) & I3 & I4 & I5). split; auto.
    unfold without, outs_of in *. cbn [filter fst snd combine].
    destruct (N.eqb_spec t' t) as [->|Hne].
    + destruct (annotates o) eqn:Ea; cbn [andb negb].
      * assert (s1 = s /\ x = ODone) as (-> & ->).
        { destruct o; try discriminate; cbn [rt_step] in E; unfold rt_begin, rt_end, rt_end_check, rt_set in E; rewrite He in E; injection E as <- <-; auto. }
        split; [eauto|]. split; [auto|]. split; [|auto]. cbn. intros [Z|Z]; [discriminate|auto].
      * split; [cbn [rt_run]; rewrite E, I2; eauto|].
        assert (K : r_tbb s1 t = r_tbb s t /\ r_log s1 = r_log s /\ x <> OError).
        { destruct o; try discriminate; cbn [rt_step] in E.
          - injection E as <- <-. repeat split; auto. discriminate.
          - injection E as <- <-. repeat split; auto. discriminate.
          - injection E as <- <-. repeat split; auto. discriminate.
          - destruct (tstep (r_tree s) t o) as [[? ?]|]; [|discriminate]. injection E as <- <-. repeat split; auto. discriminate. }
        destruct K as (K1 & K2 & K3). rewrite I3, K1, I5, K2. split; auto. split; auto. cbn. intros [Z|Z]; auto.
    + cbn [andb negb]. split; [cbn [rt_run]; rewrite E, I2; eauto|].
      assert (K : r_tbb s1 t = r_tbb s t /\ filter (fun e => ev_thr e =? t) (r_log s1) = filter (fun e => ev_thr e =? t) (r_log s)).
      { assert (F : forall s k a v, r_tbb (fire s k t' a v) t = r_tbb s t /\ filter (fun e => ev_thr e =? t) (r_log (fire s k t' a v)) = filter (fun e => ev_thr e =? t) (r_log s)).
        { intros s0 k a v. unfold fire. destruct (run_events a); cbn; auto. split; auto. rewrite filter_app.
          assert (Z : forall l, filter (fun e => ev_thr e =? t) (map (fun c => mkev k c t' (at_id a) v (ent_view (r_tree s0) (bget (get_bb s0 t' a) (bb_key a)))) l) = []).
          { induction l as [|y l IHl]; cbn; auto. apply N.eqb_neq in Hne. rewrite Hne. auto. }
          rewrite Z, app_nil_r. reflexivity. }
        assert (P : forall s a tr m, r_tbb (put_bb s t' a tr m) t = r_tbb s t /\ r_log (put_bb s t' a tr m) = r_log s).
        { intros s0 a tr m. unfold put_bb. destruct (scope_of a); cbn; auto. rewrite upd_other by auto. auto. }
        assert (EC : forall s a cur s3 x, end_commit s t' a cur = SOk s3 x -> r_tbb s3 t = r_tbb s t /\ filter (fun e => ev_thr e =? t) (r_log s3) = filter (fun e => ev_thr e =? t) (r_log s)).
        { intros s0 a cur s3 y. unfold end_commit. destruct (snd cur) as [[? v0]|]; [|discriminate]. unfold commit.
          destruct (handle_end _ _ _ _ _ _) as [tr m|?|]; [|discriminate|discriminate]. intro Z. injection Z as <- <-.
          destruct (P (fire s0 PreEnd t' a v0) a tr m) as (-> & ->). apply F. }
        destruct o; cbn [rt_step] in E.
        - unfold rt_begin in E. destruct (r_err s t'); [injection E as <- <-; auto|]. destruct (F s PreBegin a v) as (F1 & F2).
          unfold commit in E. destruct (scope_of a) eqn:Es.
          3:{ injection E as <- <-. destruct (F (fire s PreBegin t' a v) PostBegin a v) as (-> & ->). auto. }
          all: destruct (handle_begin _ _ _ _ _) as [tr m|?|]; [|discriminate|discriminate]; injection E as <- <-;
            destruct (P (fire s PreBegin t' a v) a tr m) as (P1 & P2);
            match goal with |- context [fire ?s0 PostBegin _ _ _] => destruct (F s0 PostBegin a v) as (-> & ->) end; rewrite P1, P2; auto.
        - unfold rt_end in E. destruct (r_err s t'); [injection E as <- <-; auto|].
          destruct (scope_of a); cbn zeta in E; try (destruct (snd (end_load s t' a)); [exact (EC _ _ _ _ _ E)|]); injection E as <- <-; auto.
        - unfold rt_end_check in E. destruct (r_err s t'); [injection E as <- <-; auto|].
          destruct (scope_of a); cbn zeta in E; try (destruct (snd (end_load s t' a)) as [[? w]|]; [destruct (veqb v w); [exact (EC _ _ _ _ _ E)|]|]); injection E as <- <-; auto.
        - unfold rt_set in E. destruct (r_err s t'); [injection E as <- <-; auto|]. destruct (F s PreSet a v) as (F1 & F2).
          unfold commit in E. destruct (scope_of a) eqn:Es.
          3:{ injection E as <- <-. auto. }
          all: destruct (handle_set _ _ _ _ _) as [tr m|?|]; [|discriminate|discriminate]; injection E as <- <-;
            destruct (P (fire s PreSet t' a v) a tr m) as (-> & ->); auto.
        - injection E as <- <-. auto.
        - injection E as <- <-. auto.
        - injection E as <- <-. auto.
        - destruct (tstep (r_tree s) t' o) as [[? ?]|]; [|discriminate]. injection E as <- <-. auto. }
      destruct K as (K1 & K2). rewrite I3, K1, I5, K2. auto.
Qed.
Print Assumptions C20_error_freezes_thread.

(* an error concerns the calling thread only *)
Theorem C20_error_is_local : forall s t o s', rt_step s t o = SOk s' OError ->
  r_err s' t = true /\ (forall t', t' <> t -> r_err s' t' = r_err s t') /\
  r_tree s' = r_tree s /\ r_tbb s' = r_tbb s /\ r_pbb s' = r_pbb s /\ r_act s' = r_act s /\ r_log s' = r_log s.
Proof.
  intros s t o s' E.
  assert (G : s' = set_err s t).
  { assert (EC : forall cur a, end_commit s t a cur = SOk s' OError -> s' = set_err s t).
    { intros cur a. unfold end_commit. destruct (snd cur) as [[? ?]|]; [|discriminate]. unfold commit. destruct (handle_end _ _ _ _ _ _); discriminate. }
    destruct o; cbn [rt_step] in E; try discriminate.
    - unfold rt_begin, commit in E. destruct (r_err s t); [discriminate|]. destruct (scope_of a); try discriminate; destruct (handle_begin _ _ _ _ _); discriminate.
    - unfold rt_end in E. destruct (r_err s t); [discriminate|]. destruct (scope_of a); cbn zeta in E; try discriminate; (destruct (snd (end_load s t a)); [eapply EC; eauto|congruence]).
    - unfold rt_end_check in E. destruct (r_err s t); [discriminate|]. destruct (scope_of a); cbn zeta in E; try discriminate; (destruct (snd (end_load s t a)) as [[? w]|]; [destruct (veqb v w); [eapply EC; eauto|congruence]|congruence]).
    - unfold rt_set, commit in E. destruct (r_err s t); [discriminate|]. destruct (scope_of a); try discriminate; destruct (handle_set _ _ _ _ _); discriminate.
    - destruct (tstep (r_tree s) t o) as [[? ?]|]; discriminate. }
  subst. cbn. rewrite upd_same. split; auto. split; auto. intros t' Hne. apply upd_other; auto.
Qed.
Print Assumptions C20_error_is_local.
