(* C21, C22, C24 *)
From Verif Require Import Base VariantModel VariantSpec TreeModel TreeSpec TreeProofs TreeProofs2
  RuntimeModel RuntimeSpec RuntimeProofs RuntimeProofs2 RuntimeProps.

Lemma rel_get s a t x : rel s a -> attr_ok (r_tree s) x -> rt_get s t x = if is_other x then None else c_get (a_ctx a t x) x.
Proof.
  intros H Ho. unfold rt_get, is_other.
  pose proof (attr_ok_ne _ _ (rl_inv _ _ H) Ho) as Hne. pose proof Ho as (H12 & Hnode).
  assert (G : scope_of x <> ScOther -> option_map snd (ent_get (r_tree s) (bget (get_bb s t x) (bb_key x)) (at_id x)) = c_get (a_ctx a t x) x).
  { intro Hs. destruct (rel_bb _ _ t x H Hs) as (Hn & Hb). unfold bb_key, c_get. destruct (asvalue x).
    - destruct (br_imm _ _ _ Hb (at_id x) H12) as (E & _). rewrite E. destruct (c_imm (a_ctx a t x) (at_id x)); cbn; auto. rewrite N.eqb_refl. reflexivity.
    - apply (ref_get (r_tree s)); auto; [apply H|apply br_lst; auto]. }
  destruct (scope_of x); [apply G; discriminate|apply G; discriminate|reflexivity].
Qed.
Lemma step_ext s t o s' x : rt_reach s -> rop_ok s o -> rt_step s t o = SOk s' x -> not_full (r_tree s') -> ext (r_tree s) (r_tree s').
Proof.
  intros Hr Ho E Hnf. destruct (reach_rel _ Hr) as (a & Hrel).
  pose proof (step_sim s a t o Hrel Ho) as H. rewrite E in H. destruct H as (_ & H). destruct (H Hnf) as (H1 & H2 & H3). auto.
Qed.
Lemma rel_entries s a t x : rel s a -> scope_of x <> ScOther -> entries s t x = lst (a_ctx a t x) x.
Proof. intros H Hs. destruct (rel_ctx _ _ t x H Hs) as (S1 & S2 & _). unfold entries, lst. destruct (unaligned x); auto. Qed.
Lemma rel_seen s a t x : rel s a -> attr_ok (r_tree s) x -> seen s t x = if is_other x then [] else c_see (a_ctx a t x) x.
Proof.
  intros H Hx. unfold seen, c_see. rewrite (rel_get _ _ t x H Hx). unfold c_get. destruct (is_other x) eqn:Eo.
  - destruct (asvalue x); auto. unfold entries, get_bb, is_other in *. destruct (scope_of x); try discriminate. destruct (unaligned x); reflexivity.
  - destruct (asvalue x); auto. apply rel_entries; auto. unfold is_other in Eo. destruct (scope_of x); discriminate.
Qed.
Lemma set_at a t x v : a_err a t = false -> scope_of x <> ScOther ->
  a_ctx (fst (a_step a t (OSet x v))) t x = c_set (a_ctx a t x) x v.
Proof.
  intros He Hs. cbn [a_step]. rewrite He. cbn [fst]. rewrite fire_ctx. unfold a_put, a_ctx. destruct (scope_of x); cbn; [apply upd_same|auto|congruence].
Qed.

(* C21: set() makes v the attribute's value, replacing exactly its innermost entry (if any) *)
Theorem C21_set_then_get : forall s t a v s' x, rt_reach s -> rop_ok s (OSet a v) -> scope_of a <> ScOther -> r_err s t = false ->
  rt_step s t (OSet a v) = SOk s' x -> not_full (r_tree s') -> x = ODone /\ rt_get s' t a = Some v.
Proof.
  intros s t a v s' x Hr Ho Hs He E Hnf. destruct (step_rel _ _ _ _ _ Hr Ho E Hnf) as (b & R & R' & Ex).
  pose proof (step_ext _ _ _ _ _ Hr Ho E Hnf) as Hext.
  assert (Hb : a_err b t = false) by (rewrite <- (rl_err _ _ R); auto).
  split. { rewrite Ex. cbn [a_step]. rewrite Hb. reflexivity. }
  rewrite (rel_get _ _ t a R' (attr_ok_ext _ _ _ Hext Ho)), (set_at b t a v Hb Hs).
  assert (is_other a = false) as -> by (unfold is_other; destruct (scope_of a); auto; congruence).
  unfold c_get, c_set. destruct (asvalue a); [cbn; apply upd_same|]. rewrite lst_with. apply innermost_last.
Qed.
Print Assumptions C21_set_then_get.

Theorem C21_set_replaces_innermost : forall s t a v w l1 l2 s' x, rt_reach s -> rop_ok s (OSet a v) -> scope_of a <> ScOther ->
  r_err s t = false -> asvalue a = false ->
  entries s t a = l1 ++ (at_id a, w) :: l2 -> ~ In (at_id a) (map fst l2) ->
  rt_step s t (OSet a v) = SOk s' x -> not_full (r_tree s') ->
  entries s' t a = l1 ++ l2 ++ [(at_id a, v)].
Proof.
  intros s t a v w l1 l2 s' x Hr Ho Hs He Hv Hl Hn E Hnf. destruct (step_rel _ _ _ _ _ Hr Ho E Hnf) as (b & R & R' & Ex).
  assert (Hb : a_err b t = false) by (rewrite <- (rl_err _ _ R); auto).
  rewrite (rel_entries _ _ t a R' Hs), (set_at b t a v Hb Hs). rewrite (rel_entries _ _ t a R Hs) in Hl.
  unfold c_set. rewrite Hv, lst_with, Hl, rm_innermost_split by auto. rewrite app_assoc. reflexivity.
Qed.
Print Assumptions C21_set_replaces_innermost.

Theorem C21_set_adds_if_absent : forall s t a v s' x, rt_reach s -> rop_ok s (OSet a v) -> scope_of a <> ScOther ->
  r_err s t = false -> asvalue a = false -> ~ In (at_id a) (map fst (entries s t a)) ->
  rt_step s t (OSet a v) = SOk s' x -> not_full (r_tree s') ->
  entries s' t a = entries s t a ++ [(at_id a, v)].
Proof.
  intros s t a v s' x Hr Ho Hs He Hv Hn E Hnf. destruct (step_rel _ _ _ _ _ Hr Ho E Hnf) as (b & R & R' & Ex).
  assert (Hb : a_err b t = false) by (rewrite <- (rl_err _ _ R); auto).
  rewrite (rel_entries _ _ t a R' Hs), (set_at b t a v Hb Hs). rewrite (rel_entries _ _ t a R Hs) in Hn |- *.
  unfold c_set. rewrite Hv, lst_with. f_equal. unfold rm_innermost.
  assert (G : forall l, ~ In (at_id a) (map fst l) -> rm_first (at_id a) l = l).
  { induction l as [|y l IH]; cbn; auto. intro H. destruct (N.eqb_spec (fst y) (at_id a)); [exfalso; auto|]. rewrite IH; auto. }
  rewrite G, rev_involutive; auto. rewrite map_rev, <- in_rev. auto.
Qed.
Print Assumptions C21_set_adds_if_absent.

(* no other attribute's value changes *)
Theorem C21_set_changes_no_other : forall s t a v t' b s' x, rt_reach s -> rop_ok s (OSet a v) -> attr_ok (r_tree s) b ->
  at_id b <> at_id a -> rt_step s t (OSet a v) = SOk s' x -> not_full (r_tree s') -> rt_get s' t' b = rt_get s t' b.
Proof.
  intros s t a v t' b s' x Hr Ho Hb Hne E Hnf. destruct (step_rel _ _ _ _ _ Hr Ho E Hnf) as (c & R & R' & Ex).
  pose proof (step_ext _ _ _ _ _ Hr Ho E Hnf) as Hext.
  rewrite (rel_get _ _ t' b R' (attr_ok_ext _ _ _ Hext Hb)), (rel_get _ _ t' b R Hb). destruct (is_other b); auto.
  cbn [a_step]. destruct (a_err c t); [reflexivity|]. cbn [fst].
  assert (G : forall d, c_get (c_set d a v) b = c_get d b).
  { intro d. unfold c_get, c_set. destruct (asvalue a).
    - unfold with_imm, lst. cbn. rewrite upd_other by auto. reflexivity.
    - assert (Gi : forall l, innermost (at_id b) (rm_innermost (at_id a) l ++ [(at_id a, v)]) = innermost (at_id b) l).
      { intro l. unfold innermost, rm_innermost. rewrite rev_app_last, rev_involutive. cbn.
        destruct (N.eqb_spec (at_id a) (at_id b)); [congruence|]. f_equal. generalize (rev l). induction l0 as [|y r IH]; cbn; auto.
        destruct (N.eqb_spec (fst y) (at_id a)).
        - destruct (N.eqb_spec (fst y) (at_id b)); [congruence|reflexivity].
        - cbn. destruct (fst y =? at_id b); auto. }
      unfold with_lst, lst. destruct (unaligned a), (unaligned b); cbn; rewrite ?Gi; reflexivity. }
  rewrite fire_ctx. unfold a_put. unfold a_ctx at 1. destruct (scope_of a) eqn:Ea; unfold a_ctx; rewrite ?fire_thr, ?fire_proc; cbn; rewrite ?fire_thr, ?fire_proc.
  - destruct (scope_of b); auto. unfold upd. destruct (N.eqb_spec t' t); auto. subst. rewrite G. unfold a_ctx; rewrite Ea. reflexivity.
  - destruct (scope_of b); auto. rewrite G. unfold a_ctx; rewrite Ea. reflexivity.
  - reflexivity.
Qed.
Print Assumptions C21_set_changes_no_other.

(* C22: a thread's operation leaves the context and error state of every other thread alone,
   and the process context, too, unless it works on a process-scope attribute *)
Theorem C22_operation_is_local : forall s t o s' x t', rt_reach s -> rop_ok s o ->
  rt_step s t o = SOk s' x -> not_full (r_tree s') -> t' <> t ->
  same_ctx (r_tree s) (r_tbb s t') (r_tree s') (r_tbb s' t') /\ r_err s' t' = r_err s t' /\
  (no_process o -> same_ctx (r_tree s) (r_pbb s) (r_tree s') (r_pbb s')).
Proof.
  intros s t o s' x t' Hr Ho E Hnf Hne. destruct (step_rel _ _ _ _ _ Hr Ho E Hnf) as (a & R & R' & Ex).
  destruct (step_other a t t' o Hne) as (H1 & H2 & H3).
  pose proof (rel_shows _ _ t' R) as (S1 & S2). pose proof (rel_shows _ _ t' R') as (T1 & T2).
  split; [|split].
  - eapply shows_same; eauto. rewrite H1. apply ceq_refl.
  - rewrite (rl_err _ _ R), (rl_err _ _ R'). auto.
  - intro Hn. eapply shows_same; eauto. rewrite H3 by auto. apply ceq_refl.
Qed.
Print Assumptions C22_operation_is_local.

(* what a thread sees of its own context depends on its own operations only: two histories
   with the same operations of thread t (thread-scope attributes), and anything else from
   other threads, in any interleaving, give t the same results and the same context *)
Theorem C22_context_depends_on_own_operations : forall t ops1 s1 xs1 ops2 s2 xs2,
  rt_history ops1 s1 xs1 -> rt_history ops2 s2 xs2 -> ops_of t ops1 = ops_of t ops2 -> Forall no_process (ops_of t ops1) ->
  same_ctx (r_tree s1) (r_tbb s1 t) (r_tree s2) (r_tbb s2 t) /\ outs_of t ops1 xs1 = outs_of t ops2 xs2 /\ r_err s1 t = r_err s2 t.
Proof.
  intros t ops1 s1 xs1 ops2 s2 xs2 H1 H2 Ho Hn. destruct (history_rel _ _ _ H1) as (R1 & X1). destruct (history_rel _ _ _ H2) as (R2 & X2).
  set (x := (ctx_empty, ctx_empty, false)).
  assert (Hag : agree false t ast_init x). { split; [reflexivity|]. split; [reflexivity|discriminate]. }
  destruct (run_agree false t ops1 ast_init x Hag) as ((A1 & A2 & _) & A4); [discriminate|auto|].
  destruct (run_agree false t ops2 ast_init x Hag) as ((B1 & B2 & _) & B4); [discriminate|rewrite <- Ho; auto|].
  rewrite <- Ho in *. split; [|split].
  - eapply shows_same; [apply (rel_shows _ _ t R1)|apply (rel_shows _ _ t R2)|]. rewrite A1, B1. apply ceq_refl.
  - rewrite <- X1, <- X2, A4, B4. reflexivity.
  - rewrite (rl_err _ _ R1), (rl_err _ _ R2), A2, B2. reflexivity.
Qed.
Print Assumptions C22_context_depends_on_own_operations.

(* snapshots: if no attribute of the history is hidden, the context part of a snapshot taken by
   thread t consists exactly of t's and the process' open regions, unaligned entries and
   as-value attributes *)
Definition vis_inv (m : bb) : Prop :=
  Forall (fun x => snd (snd x) = true /\ (fst x = REGION_KEY \/ fst x = UNALIGNED_KEY \/ 12 <= fst x)) m.
Lemma vis_bset m k e : vis_inv m -> (k = REGION_KEY \/ k = UNALIGNED_KEY \/ 12 <= k) -> vis_inv (bset m k e true).
Proof.
  intros H Hk. unfold vis_inv in *. induction m as [|[k' [[i v] b]] m IH]; cbn [bset]; [constructor; [split; auto|constructor]|].
  inversion H; subst. destruct (N.eqb_spec k' k); constructor; auto.
Qed.
Lemma vis_bdel m k : vis_inv m -> vis_inv (bdel m k).
Proof. intro H. induction H as [|x m Hx Hm IH]; cbn; [constructor|]. destruct (fst x =? k); auto. constructor; auto. Qed.
Definition vis_st (s : rt) : Prop := (forall t, vis_inv (r_tbb s t)) /\ vis_inv (r_pbb s).
Lemma vis_get s t a : vis_st s -> vis_inv (get_bb s t a).
Proof. intros (H1 & H2). unfold get_bb. destruct (scope_of a); auto. constructor. Qed.
Lemma vis_put s t a tr m : vis_st s -> vis_inv m -> vis_st (put_bb s t a tr m).
Proof.
  intros (H1 & H2) Hm. unfold put_bb. destruct (scope_of a); split; cbn; auto. intro t'. unfold upd. destruct (t' =? t); auto.
Qed.
Lemma vis_fire s k t a v : vis_st s -> vis_st (fire s k t a v).
Proof. intro H. unfold fire. destruct (run_events a); auto. Qed.
Definition all_visible (o : rop) : Prop := forall a, op_attr o = Some a -> visible_flag a = true.
Lemma ref_key_ok a : ref_key a = REGION_KEY \/ ref_key a = UNALIGNED_KEY \/ 12 <= ref_key a.
Proof. unfold ref_key. destruct (unaligned a); auto. Qed.
Lemma vis_step s t o s' x : vis_st s -> rop_ok s o -> all_visible o -> rt_step s t o = SOk s' x -> vis_st s'.
Proof.
  intros H Ho Hv E.
  assert (C : forall s t a h k, vis_st s -> (forall tr m, h = HOk tr m -> vis_inv m) -> (forall s2 s3 y, vis_st s2 -> k s2 = SOk s3 y -> vis_st s3) ->
     forall s3 y, commit s t a h k = SOk s3 y -> vis_st s3).
  { intros s0 t0 a h k H0 Hh Hk s3 y. unfold commit. destruct h as [tr m|?|]; [|discriminate|discriminate]. apply Hk. apply vis_put; auto. eapply Hh; eauto. }
  assert (EC : forall s t a cur s3 y, vis_st s -> visible_flag a = true -> end_commit s t a cur = SOk s3 y -> vis_st s3).
  { intros s0 t0 a cur s3 y H0 Hva. unfold end_commit. destruct (snd cur) as [[j0 v0]|] eqn:Ec; [|discriminate]. apply C; [apply vis_fire; auto| |intros ? ? ? ? Z; injection Z as <- <-; auto].
    intros tr m. pose proof (vis_get (fire s0 PreEnd t0 a v0) t0 a (vis_fire _ PreEnd t0 a v0 H0)) as Hm. unfold handle_end.
    destruct (asvalue a) eqn:Eas; [intro Z; injection Z as <- <-; apply vis_bdel; auto|]. assert (Ek : bb_key a = ref_key a) by (unfold bb_key; rewrite Eas; auto).
    destruct (fst cur) as [[i w0]|]; [|discriminate]. cbn [snd]; rewrite ?Ec. destruct (node_at _ i) as [nd|]; [|discriminate]. destruct (n_par nd) as [p|]; [|discriminate].
    destruct (p =? ROOT); [intro Z; injection Z as <- <-; apply vis_bdel; auto|].
    destruct (if i =? j0 then _ else _) as [[[q|] tr']|]; [|discriminate|discriminate]. destruct (mk_ref tr' q); [|discriminate].
    intro Z; injection Z as <- <-. rewrite Hva, Ek. apply vis_bset; auto. apply ref_key_ok. }
  destruct o; cbn [rt_step] in E.
  - specialize (Hv a eq_refl). unfold rt_begin in E. destruct (r_err s t); [injection E as <- <-; auto|].
    assert (Hh : forall tr m, handle_begin (r_tree (fire s PreBegin t a v)) t a v (get_bb (fire s PreBegin t a v) t a) = HOk tr m -> vis_inv m).
    { intros tr m. pose proof (vis_get (fire s PreBegin t a v) t a (vis_fire _ PreBegin t a v H)) as Hm. unfold handle_begin. rewrite Hv. destruct (asvalue a); [intro Z; injection Z as <- <-; apply vis_bset; auto; right; right; apply Ho|].
      destruct (get_child _ _ _ _ _) as [[[q|] tr']|]; [|discriminate|discriminate]. destruct (mk_ref tr' q); [|discriminate].
      intro Z; injection Z as <- <-. apply vis_bset; auto. apply ref_key_ok. }
    destruct (scope_of a).
    3:{ injection E as <- <-. apply vis_fire, vis_fire; auto. }
    all: revert E; apply C; [apply vis_fire; auto|exact Hh|intros ? ? ? ? Z; injection Z as <- <-; apply vis_fire; auto].
  - specialize (Hv a eq_refl). unfold rt_end in E. destruct (r_err s t); [injection E as <- <-; auto|].
    destruct (scope_of a); cbn zeta in E; try (destruct (snd (end_load s t a)); [exact (EC _ _ _ _ _ _ H Hv E)|]); injection E as <- <-; auto.
  - specialize (Hv a eq_refl). unfold rt_end_check in E. destruct (r_err s t); [injection E as <- <-; auto|].
    destruct (scope_of a); cbn zeta in E; try (destruct (snd (end_load s t a)) as [[? w]|]; [destruct (veqb v w); [exact (EC _ _ _ _ _ _ H Hv E)|]|]); injection E as <- <-; auto.
  - specialize (Hv a eq_refl). unfold rt_set in E. destruct (r_err s t); [injection E as <- <-; auto|].
    assert (Hh : forall tr m, handle_set (r_tree (fire s PreSet t a v)) t a v (get_bb (fire s PreSet t a v) t a) = HOk tr m -> vis_inv m).
    { intros tr m. pose proof (vis_get (fire s PreSet t a v) t a (vis_fire _ PreSet t a v H)) as Hm. unfold handle_set. rewrite Hv. destruct (asvalue a); [intro Z; injection Z as <- <-; apply vis_bset; auto; right; right; apply Ho|].
      destruct (replace_first_in_path _ _ _ _ _) as [[[q|] tr']|]; [|discriminate|discriminate]. destruct (mk_ref tr' q); [|discriminate].
      intro Z; injection Z as <- <-. apply vis_bset; auto. apply ref_key_ok. }
    destruct (scope_of a).
    3:{ injection E as <- <-. apply vis_fire; auto. }
    all: revert E; apply C; [apply vis_fire; auto|exact Hh|intros ? ? ? ? Z; injection Z as <- <-; auto].
  - injection E as <- <-; auto.
  - injection E as <- <-; auto.
  - injection E as <- <-; auto.
  - destruct (tstep (r_tree s) t o) as [[? ?]|]; [|discriminate]. injection E as <- <-; auto.
Qed.
Lemma vis_run ops : forall s s' xs, vis_st s -> ops_ok s ops -> Forall (fun p => all_visible (snd p)) ops -> rt_run s ops = Some (s', xs) -> vis_st s'.
Proof.
  induction ops as [|[t o] ops IH]; cbn [rt_run ops_ok]; intros s s' xs H Ho Hv E; [injection E as <- <-; auto|].
  destruct Ho as (Ho1 & Ho2). inversion Hv; subst. destruct (rt_step s t o) as [s1 x|?|] eqn:E1; [|discriminate|discriminate].
  destruct (rt_run s1 ops) as [[s2 ys]|] eqn:E2; [|discriminate]. injection E as <- <-. eapply IH; [|exact Ho2|exact H3|exact E2].
  eapply vis_step; eauto.
Qed.
Lemma bget_in m k i v : NoDup (keys m) -> (bget m k = Some (i, v) <-> exists b, In (k, (i, v, b)) m).
Proof.
  intro H. induction m as [|[k' [[i' v'] b']] m IH]; cbn in *; [split; [discriminate|intros (b & [])]|]. inversion H; subst.
  destruct (N.eqb_spec k' k).
  - subst. split; [intro Z; injection Z as <- <-; exists b'; auto|]. intros (b & [Z|Z]); [congruence|]. exfalso. apply H2. apply (in_map fst) in Z. exact Z.
  - rewrite (IH H3). split; intros (b & Z); exists b; auto. destruct Z; [congruence|auto].
Qed.
Definition context_items (tr : tree) (m : bb) (x : list (N * value)) : Prop :=
  x <> [] /\ (x = bb_regions tr m \/ x = bb_unaligned tr m \/ exists k v, 12 <= k /\ option_map snd (bget m k) = Some v /\ x = [(k, v)]).
Theorem C22_snapshot_contents : forall ops s xs t x, rt_history ops s xs -> Forall (fun p => all_visible (snd p)) ops ->
  (In x (rt_snapshot s t) <-> context_items (r_tree s) (r_tbb s t) x \/ context_items (r_tree s) (r_pbb s) x).
Proof.
  intros ops s xs t x H Hv. destruct (history_rel _ _ _ H) as (R & _). destruct H as (npb & nblk & t0 & tr & Hc & Hi & Ho & Hr & Hnf).
  assert (V : vis_st s). { eapply vis_run; [|exact Ho|exact Hv|exact Hr]. split; cbn; intros; constructor. }
  set (a := fst (a_run ast_init ops)) in *. pose proof (rel_shows _ _ t R) as (S1 & S2). destruct V as (V1 & V2).
  assert (G : forall m c, NoDup (keys m) -> bbrel (r_tree s) m c -> vis_inv m -> shows (r_tree s) m c ->
     (In x (map (fun e => ent_view (r_tree s) (Some e)) (bb_visible m)) <-> context_items (r_tree s) m x)).
  { intros m c Hn Hb Hvis (Sh1 & Sh2 & Sh3). unfold bb_visible. rewrite map_map, in_map_iff. split.
    - intros ([k [[i v] b]] & Ex & Hin). cbn in Ex. apply filter_In in Hin. destruct Hin as (Hin & _).
      unfold vis_inv in Hvis. rewrite Forall_forall in Hvis. destruct (Hvis _ Hin) as (_ & Hk). cbn in Hk.
      assert (Eg : bget m k = Some (i, v)) by (apply bget_in; eauto).
      destruct Hk as [->|[->|Hk]].
      + assert (E2 : x = bb_regions (r_tree s) m) by (unfold bb_regions; rewrite Eg; auto). split; auto.
        destruct (br_reg _ _ _ Hb) as (_ & Z). rewrite Eg in Z. rewrite E2, Sh1. apply Z.
      + assert (E2 : x = bb_unaligned (r_tree s) m) by (unfold bb_unaligned; rewrite Eg; auto). split; auto.
        destruct (br_una _ _ _ Hb) as (_ & Z). rewrite Eg in Z. rewrite E2, Sh2. apply Z.
      + destruct (br_imm _ _ _ Hb k Hk) as (Ei & An). rewrite Eg in Ei. destruct (c_imm c k) as [w|] eqn:Ew; [|discriminate]. cbn in Ei. injection Ei as -> ->.
        destruct An as (n & Hn' & En & An); [discriminate|]. unfold ent_view in Ex. rewrite <- En in Ex.
        rewrite (in_node_at _ n (wf_nodup _ (proj1 (rl_inv _ _ R))) Hn'), An, N.eqb_refl in Ex. subst x. split; [discriminate|]. right; right.
        exists k, w. rewrite Eg, En. auto.
    - intros (Hne & Hx).
      assert (Take : forall k i v, bget m k = Some (i, v) -> ent_view (r_tree s) (Some (i, v)) = x -> exists y, ent_view (r_tree s) (Some (fst (snd y))) = x /\ In y (filter (fun x0 => snd (snd x0)) m)).
      { intros k i v Eg Ev. apply bget_in in Eg; auto. destruct Eg as (b & Hin). exists (k, (i, v, b)). split; auto. apply filter_In. split; auto.
        unfold vis_inv in Hvis. rewrite Forall_forall in Hvis. apply (Hvis _ Hin). }
      destruct Hx as [->|[->|(k & v & Hk & Eg & ->)]].
      + unfold bb_regions in *. destruct (bget m REGION_KEY) as [[i v]|] eqn:Eg; [|cbn in Hne; congruence]. eapply Take; eauto.
      + unfold bb_unaligned in *. destruct (bget m UNALIGNED_KEY) as [[i v]|] eqn:Eg; [|cbn in Hne; congruence]. eapply Take; eauto.
      + destruct (br_imm _ _ _ Hb k Hk) as (Ei & An). destruct (c_imm c k) as [w|] eqn:Ew; [|rewrite Ei in Eg; discriminate]. cbn in Ei. rewrite Ei in Eg. cbn in Eg. injection Eg as ->.
        eapply Take; [exact Ei|]. destruct An as (n & Hn' & En & An); [discriminate|]. unfold ent_view. rewrite <- En.
        rewrite (in_node_at _ n (wf_nodup _ (proj1 (rl_inv _ _ R))) Hn'), An, N.eqb_refl. reflexivity. }
  unfold rt_snapshot. rewrite map_app, in_app_iff. destruct (rl_thr _ _ R t) as (N1 & B1). destruct (rl_proc _ _ R) as (N2 & B2).
  rewrite (G _ _ N1 B1 (V1 t) S1), (G _ _ N2 B2 V2 S2). reflexivity.
Qed.
Print Assumptions C22_snapshot_contents.
