(* Proofs about the abstract annotation interface: nesting and isolation. *)
From Verif Require Import Base VariantModel VariantSpec TreeModel TreeSpec TreeProofs TreeProofs2 RuntimeModel RuntimeSpec RuntimeProofs.

(* the part of the state thread t works on *)
Definition st1 := (actx * actx * bool)%type.
Definition ctx1 (x : st1) (a : attr) : actx :=
  match scope_of a with ScThread => fst (fst x) | ScProcess => snd (fst x) | ScOther => ctx_empty end.
Definition put1 (x : st1) (a : attr) (c : actx) : st1 :=
  match scope_of a with ScThread => (c, snd (fst x), snd x) | ScProcess => (fst (fst x), c, snd x) | ScOther => x end.
Definition close1 (x : st1) (a : attr) (ok : value -> bool) : st1 * out :=
  if snd x then (x, ODone)
  else if is_other a then (x, ODone)
  else match c_open (ctx1 x a) a with
       | None => ((fst x, true), OError)
       | Some w => if ok w then (put1 x a (c_end (ctx1 x a) a), ODone) else ((fst x, true), OError)
       end.
Definition step1 (x : st1) (o : rop) : st1 * out :=
  match o with
  | OBegin a v => if snd x then (x, ODone) else (put1 x a (c_begin (ctx1 x a) a v), ODone)
  | OEnd a => close1 x a (fun _ => true)
  | OEndCheck a v => close1 x a (veqb v)
  | OSet a v => if snd x then (x, ODone) else (put1 x a (c_set (ctx1 x a) a v), ODone)
  | OGet a => (x, OVal (if is_other a then None else c_get (ctx1 x a) a))
  | _ => (x, ODone)
  end.
Fixpoint run1 (x : st1) (ops : list rop) : st1 * list out :=
  match ops with
  | [] => (x, [])
  | o :: r => let (x1, y) := step1 x o in let (x2, ys) := run1 x1 r in (x2, y :: ys)
  end.

Definition agree (pp : bool) (t : N) (s : ast) (x : st1) : Prop :=
  a_thr s t = fst (fst x) /\ a_err s t = snd x /\ (pp = true -> a_proc s = snd (fst x)).

Lemma fire_thr s k t a v : a_thr (a_fire s k t a v) = a_thr s.
Proof. unfold a_fire. destruct (run_events a); reflexivity. Qed.
Lemma fire_proc s k t a v : a_proc (a_fire s k t a v) = a_proc s.
Proof. unfold a_fire. destruct (run_events a); reflexivity. Qed.
Lemma fire_err s k t a v : a_err (a_fire s k t a v) = a_err s.
Proof. unfold a_fire. destruct (run_events a); reflexivity. Qed.
Lemma fire_act s k t a v : a_act (a_fire s k t a v) = a_act s.
Proof. unfold a_fire. destruct (run_events a); reflexivity. Qed.
Lemma fire_ctx s k t a v : a_ctx (a_fire s k t a v) t a = a_ctx s t a.
Proof. unfold a_ctx. rewrite fire_thr, fire_proc. reflexivity. Qed.
Lemma agree_fire pp t s k t' a v x : agree pp t s x -> agree pp t (a_fire s k t' a v) x.
Proof. unfold agree. rewrite fire_thr, fire_proc, fire_err. auto. Qed.
Lemma upd_same {A} (f : N -> A) k x : upd f k x k = x.
Proof. unfold upd. rewrite N.eqb_refl. reflexivity. Qed.
Lemma upd_other {A} (f : N -> A) k x j : j <> k -> upd f k x j = f j.
Proof. intro H. unfold upd. apply N.eqb_neq in H. rewrite H. reflexivity. Qed.

Lemma agree_put pp t s a c x : agree pp t s x -> agree pp t (a_put s t a c) (put1 x a c).
Proof.
  destruct x as [[c1 p1] e1]. intros (H1 & H2 & H3). unfold agree, a_put, put1. destruct (scope_of a); cbn in *; auto.
  rewrite upd_same. auto.
Qed.
Lemma agree_ctx pp t s a x : agree pp t s x -> (scope_of a = ScProcess -> pp = true) -> a_ctx s t a = ctx1 x a.
Proof. intros (H1 & H2 & H3) H. unfold a_ctx, ctx1. destruct (scope_of a); auto. Qed.
Lemma agree_fail pp t s x : agree pp t s x -> agree pp t (a_fail s t) (fst x, true).
Proof. intros (H1 & H2 & H3). unfold agree, a_fail. cbn. rewrite upd_same. auto. Qed.

Lemma close_agree pp t s x a ok : agree pp t s x -> (scope_of a = ScProcess -> pp = true) ->
  agree pp t (fst (a_close s t a ok)) (fst (close1 x a ok)) /\ snd (a_close s t a ok) = snd (close1 x a ok).
Proof.
  intros Ha Hp. pose proof Ha as (H1 & H2 & H3). unfold a_close, close1. rewrite H2. destruct (snd x) eqn:Ex; [auto|].
  destruct (is_other a); [auto|]. rewrite (agree_ctx pp t s a x Ha Hp).
  destruct (c_open (ctx1 x a) a) as [w|] eqn:Eo; [|cbn; auto using agree_fail]. destruct (ok w); [|cbn; auto using agree_fail].
  cbn [fst snd]. split; auto. rewrite fire_ctx, (agree_ctx pp t s a x Ha Hp). apply agree_put, agree_fire; auto.
Qed.
Lemma step_agree pp t s x o : agree pp t s x -> (pp = false -> no_process o) ->
  agree pp t (fst (a_step s t o)) (fst (step1 x o)) /\ snd (a_step s t o) = snd (step1 x o).
Proof.
  intros Ha Hno. pose proof Ha as (H1 & H2 & H3).
  assert (Hp : forall a, op_attr o = Some a -> scope_of a = ScProcess -> pp = true).
  { intros a E1 E2. destruct pp; auto. exfalso. exact (Hno eq_refl a E1 E2). }
  destruct o; cbn [a_step step1].
  - rewrite H2. destruct (snd x); [auto|]. cbn [fst snd]. split; auto. rewrite fire_ctx, (agree_ctx pp t s a x Ha (Hp a eq_refl)).
    apply agree_fire, agree_put, agree_fire; auto.
  - apply close_agree; [auto|exact (Hp a eq_refl)].
  - apply close_agree; [auto|exact (Hp a eq_refl)].
  - rewrite H2. destruct (snd x); [auto|]. cbn [fst snd]. split; auto. rewrite fire_ctx, (agree_ctx pp t s a x Ha (Hp a eq_refl)).
    apply agree_put, agree_fire; auto.
  - cbn. split; auto. destruct (is_other a); auto. rewrite (agree_ctx pp t s a x Ha (Hp a eq_refl)). reflexivity.
  - cbn. auto.
  - cbn. auto.
  - cbn. auto.
Qed.

(* steps of other threads *)
Lemma put_other_thr s t t' a c : t' <> t -> a_thr (a_put s t a c) t' = a_thr s t'.
Proof. intro H. unfold a_put. destruct (scope_of a); cbn; auto. apply upd_other; auto. Qed.
Lemma put_proc s t a c : scope_of a <> ScProcess -> a_proc (a_put s t a c) = a_proc s.
Proof. intro H. unfold a_put. destruct (scope_of a); cbn; auto. contradiction. Qed.
Lemma put_err s t a c : a_err (a_put s t a c) = a_err s.
Proof. unfold a_put. destruct (scope_of a); reflexivity. Qed.
Lemma close_other s t t' a ok : t' <> t ->
  a_thr (fst (a_close s t a ok)) t' = a_thr s t' /\ a_err (fst (a_close s t a ok)) t' = a_err s t' /\
  (scope_of a <> ScProcess -> a_proc (fst (a_close s t a ok)) = a_proc s).
Proof.
  intro H. unfold a_close. destruct (a_err s t); [auto|]. destruct (is_other a); [auto|].
  destruct (c_open _ _) as [w|]; [destruct (ok w)|]; cbn [fst].
  - rewrite put_other_thr, fire_thr, put_err, fire_err by auto. split; auto. split; auto. intro. rewrite put_proc, fire_proc; auto.
  - unfold a_fail; cbn. rewrite upd_other by auto. auto.
  - unfold a_fail; cbn. rewrite upd_other by auto. auto.
Qed.
Lemma step_other s t t' o : t' <> t ->
  a_thr (fst (a_step s t o)) t' = a_thr s t' /\ a_err (fst (a_step s t o)) t' = a_err s t' /\
  (no_process o -> a_proc (fst (a_step s t o)) = a_proc s).
Proof.
  intro H. destruct o; cbn [a_step].
  - destruct (a_err s t); [auto|]. cbn [fst]. rewrite !fire_thr, !fire_err, !fire_proc, put_other_thr, put_err, fire_thr, fire_err by auto.
    split; auto. split; auto. intro Hn. rewrite put_proc, fire_proc; auto.
  - destruct (close_other s t t' a (fun _ => true) H) as (X & Y & Z). split; auto. 
  - destruct (close_other s t t' a (veqb v) H) as (X & Y & Z). split; auto.
  - destruct (a_err s t); [auto|]. cbn [fst]. rewrite put_other_thr, put_err, fire_thr, fire_err by auto.
    split; auto. split; auto. intro Hn. rewrite put_proc, fire_proc; auto.
  - auto.
  - auto.
  - auto.
  - auto.
Qed.

Definition others_ok (pp : bool) (t : N) (ops : list (N * rop)) : Prop :=
  pp = true -> forall t' o, In (t', o) ops -> t' <> t -> no_process o.
Lemma a_run_len ops : forall s, length (snd (a_run s ops)) = length ops.
Proof.
  induction ops as [|[t o] ops IH]; intro s; cbn; auto. destruct (a_step s t o) as [s1 x]. specialize (IH s1). destruct (a_run s1 ops). cbn in *. auto.
Qed.
Lemma run_agree pp t ops : forall s x, agree pp t s x -> others_ok pp t ops ->
  (pp = false -> Forall no_process (ops_of t ops)) ->
  agree pp t (fst (a_run s ops)) (fst (run1 x (ops_of t ops))) /\
  outs_of t ops (snd (a_run s ops)) = snd (run1 x (ops_of t ops)).
Proof.
  induction ops as [|[t' o] ops IH]; intros s x Ha Hoth Hnp.
  - cbn. auto.
  - cbn [a_run]. unfold ops_of in *. cbn [filter fst] in *.
    assert (Hoth' : others_ok pp t ops). { intros E u w Hin. apply (Hoth E). right; auto. }
    destruct (N.eqb_spec t' t) as [->|Hne].
    + cbn [map snd run1]. pose proof (step_agree pp t s x o Ha) as Hs.
      destruct (a_step s t o) as [s1 y]. destruct (step1 x o) as [x1 y1].
      destruct Hs as (Ha1 & E); [intro Z; specialize (Hnp Z); inversion Hnp; auto|]. cbn in Ha1, E. subst y1.
      specialize (IH s1 x1 Ha1 Hoth'). destruct (a_run s1 ops) as [s2 ys] eqn:Er. destruct (run1 x1 _) as [x2 ys'] eqn:E1.
      destruct IH as (I1 & I2); [intro Z; specialize (Hnp Z); inversion Hnp; auto|]. cbn in *. split; auto.
      unfold outs_of in *. cbn. rewrite N.eqb_refl. cbn. f_equal. exact I2.
    + pose proof (step_other s t' t o (not_eq_sym Hne)) as (H1 & H2 & H3). destruct (a_step s t' o) as [s1 y]. cbn [fst] in *.
      assert (Ha1 : agree pp t s1 x).
      { destruct Ha as (A1 & A2 & A3). split; [congruence|]. split; [congruence|]. intro E. rewrite H3; auto.
        apply (Hoth E t' o); [left; auto|auto]. }
      specialize (IH s1 x Ha1 Hoth' Hnp). destruct (a_run s1 ops) as [s2 ys] eqn:Er. cbn in *. destruct IH as (I1 & I2). split; auto.
      unfold outs_of in *. cbn. apply N.eqb_neq in Hne. rewrite Hne. exact I2.
Qed.

(* ---- nesting ---- *)
Definition ceq (c c' : actx) : Prop := c_reg c = c_reg c' /\ c_una c = c_una c' /\ forall k, c_imm c k = c_imm c' k.
Definition xeq (x y : st1) : Prop := ceq (fst (fst x)) (fst (fst y)) /\ ceq (snd (fst x)) (snd (fst y)) /\ snd x = snd y.
Lemma ceq_refl c : ceq c c. Proof. repeat split. Qed.
Lemma ceq_trans a b c : ceq a b -> ceq b c -> ceq a c.
Proof. intros (H1 & H2 & H3) (H4 & H5 & H6). split; [congruence|]. split; [congruence|]. intro. rewrite H3; auto. Qed.
Lemma ceq_sym a b : ceq a b -> ceq b a.
Proof. intros (H1 & H2 & H3). unfold ceq. auto. Qed.
Lemma xeq_refl x : xeq x x. Proof. split; [apply ceq_refl|]. split; [apply ceq_refl|auto]. Qed.
Lemma xeq_trans a b c : xeq a b -> xeq b c -> xeq a c.
Proof. intros (H1 & H2 & H3) (H4 & H5 & H6). split; [eapply ceq_trans; eauto|]. split; [eapply ceq_trans; eauto|congruence]. Qed.
Lemma ctx1_xeq x y a : xeq x y -> ceq (ctx1 x a) (ctx1 y a).
Proof. intros (H1 & H2 & H3). unfold ctx1. destruct (scope_of a); auto. apply ceq_refl. Qed.
Lemma put1_xeq x y a c d : xeq x y -> ceq c d -> xeq (put1 x a c) (put1 y a d).
Proof. intros (H1 & H2 & H3) H. unfold put1. destruct (scope_of a); split; cbn; auto. Qed.
Lemma put1_id x a : xeq (put1 x a (ctx1 x a)) x.
Proof. unfold put1, ctx1. destruct x as [[c p] e]. destruct (scope_of a); apply xeq_refl. Qed.
Lemma put1_put1 x a c d : put1 (put1 x a c) a d = put1 x a d.
Proof. unfold put1. destruct (scope_of a); reflexivity. Qed.
Lemma put1_err x a c : snd (put1 x a c) = snd x.
Proof. unfold put1. destruct (scope_of a); reflexivity. Qed.
Lemma lst_ceq c d a : ceq c d -> lst c a = lst d a.
Proof. intros (H1 & H2 & H3). unfold lst. destruct (unaligned a); auto. Qed.
Lemma open_ceq c d a : ceq c d -> c_open c a = c_open d a.
Proof. intros (H1 & H2 & H3). unfold c_open. rewrite H1, H2, H3. reflexivity. Qed.
Lemma with_lst_ceq c d a l : ceq c d -> ceq (with_lst c a l) (with_lst d a l).
Proof. intros (H1 & H2 & H3). unfold with_lst. destruct (unaligned a); split; cbn; auto. Qed.
Lemma with_imm_ceq c d k v : ceq c d -> ceq (with_imm c k v) (with_imm d k v).
Proof. intros (H1 & H2 & H3). unfold with_imm. split; [|split]; cbn; auto. intro j. unfold upd. destruct (j =? k); auto. Qed.
Lemma end_ceq c d a : ceq c d -> ceq (c_end c a) (c_end d a).
Proof. intro H. unfold c_end. destruct (asvalue a); [apply with_imm_ceq; auto|]. rewrite (lst_ceq c d a H). apply with_lst_ceq; auto. Qed.
Lemma lst_with c a l : lst (with_lst c a l) a = l.
Proof. unfold lst, with_lst. destruct (unaligned a); reflexivity. Qed.
Lemma with_with c a l l' : with_lst (with_lst c a l) a l' = with_lst c a l'.
Proof. unfold with_lst. destruct (unaligned a); reflexivity. Qed.
Lemma with_id c a : with_lst c a (lst c a) = c.
Proof. destruct c. unfold with_lst, lst. destruct (unaligned a); reflexivity. Qed.
Lemma innermost_last k v l : innermost k (l ++ [(k, v)]) = Some v.
Proof. unfold innermost. rewrite rev_app_distr. cbn. rewrite N.eqb_refl. reflexivity. Qed.

(* closing what was just opened *)
Lemma open_begin c a v : c_open (c_begin c a v) a = Some v.
Proof.
  unfold c_open, c_begin. destruct (asvalue a); [cbn; rewrite upd_same; auto|].
  pose proof (lst_with c a (lst c a ++ [(at_id a, v)])) as E. unfold lst in E at 1. 
  destruct (unaligned a); rewrite E; [apply innermost_last|]. unfold last_is. rewrite rev_app_distr. cbn. rewrite N.eqb_refl. apply innermost_last.
Qed.
Lemma end_begin_ref c a v : asvalue a = false -> c_end (c_begin c a v) a = c.
Proof.
  intro H. unfold c_end, c_begin. rewrite H, lst_with, with_with, (last_is_rm (at_id a) [] (lst c a) v). apply with_id.
Qed.
Lemma end_begin_val c a v : asvalue a = true -> c_imm c (at_id a) = None -> ceq (c_end (c_begin c a v) a) c.
Proof.
  intros H Hn. unfold c_end, c_begin. rewrite H. split; [|split]; cbn; auto. intro k. unfold upd. destruct (N.eqb_spec k (at_id a)); subst; auto.
Qed.

Definition fresh (x : st1) (ops : list rop) : Prop :=
  forall b w, In (OBegin b w) ops -> asvalue b = true -> scope_of b <> ScOther -> c_imm (ctx1 x b) (at_id b) = None.

Lemma run1_app x l l' : run1 x (l ++ l') =
  (fst (run1 (fst (run1 x l)) l'), snd (run1 x l) ++ snd (run1 (fst (run1 x l)) l')).
Proof.
  revert x. induction l as [|o l IH]; intro x; cbn [app run1].
  - cbn. destruct (run1 x l'); reflexivity.
  - destruct (step1 x o) as [x1 y]. rewrite IH. destruct (run1 x1 l) as [x2 ys]. cbn. reflexivity.
Qed.

Lemma fresh_xeq x y ops : xeq x y -> fresh x ops -> fresh y ops.
Proof. intros H F b w Hin Ha Hs. destruct (ctx1_xeq x y b H) as (_ & _ & E). rewrite <- E. eauto. Qed.
Lemma fresh_sub x l l' : (forall o, In o l -> In o l') -> fresh x l' -> fresh x l.
Proof. intros H F b w Hin. apply (F b w). auto. Qed.

(* the imm part of the context of b in the state after begin a *)
Lemma begin_imm x a v b : (asvalue a = true -> at_id b <> at_id a) ->
  c_imm (ctx1 (put1 x a (c_begin (ctx1 x a) a v)) b) (at_id b) = c_imm (ctx1 x b) (at_id b).
Proof.
  intro H.
  assert (G : forall c, c_imm (c_begin c a v) (at_id b) = c_imm c (at_id b)).
  { intro c. unfold c_begin. destruct (asvalue a).
    - cbn. apply upd_other; auto.
    - unfold with_lst. destruct (unaligned a); reflexivity. }
  unfold ctx1, put1. destruct (scope_of a), (scope_of b); cbn; rewrite ?G; reflexivity.
Qed.

Lemma close1_nested x a v e : (e = OEnd a \/ e = OEndCheck a v) -> snd x = false ->
  is_other a = false -> c_open (ctx1 x a) a = Some v ->
  step1 x e = (put1 x a (c_end (ctx1 x a) a), ODone).
Proof.
  intros He Hx Ho Hop. destruct He as [->| ->]; cbn [step1]; unfold close1; rewrite Hx, Ho, Hop; [reflexivity|].
  unfold veqb. destruct (value_eq_dec v v); [reflexivity|contradiction].
Qed.

Lemma nested_run ops : nested ops -> forall x, snd x = false -> fresh x ops ->
  xeq (fst (run1 x ops)) x /\ ~ In OError (snd (run1 x ops)).
Proof.
  assert (Pair : forall a v e body rest, (e = OEnd a \/ e = OEndCheck a v) ->
     (asvalue a = true -> forall b w, In (OBegin b w) body -> at_id b <> at_id a) ->
     (forall x, snd x = false -> fresh x body -> xeq (fst (run1 x body)) x /\ ~ In OError (snd (run1 x body))) ->
     (forall x, snd x = false -> fresh x rest -> xeq (fst (run1 x rest)) x /\ ~ In OError (snd (run1 x rest))) ->
     forall x, snd x = false -> fresh x (OBegin a v :: body ++ e :: rest) ->
     xeq (fst (run1 x (OBegin a v :: body ++ e :: rest))) x /\ ~ In OError (snd (run1 x (OBegin a v :: body ++ e :: rest)))).
  { intros a v e body rest He Hnb IHb IHr x Hx Hf. cbn [run1 step1]. rewrite Hx.
    set (x1 := put1 x a (c_begin (ctx1 x a) a v)).
    assert (Hx1 : snd x1 = false) by (unfold x1; rewrite put1_err; auto).
    assert (Hf1 : fresh x1 body).
    { intros b w Hin Hb Hs. unfold x1. rewrite begin_imm by (intro; eauto).
      apply (Hf b w); auto. right. apply in_or_app. auto. }
    destruct (IHb x1 Hx1 Hf1) as (E1 & O1). rewrite run1_app. destruct (run1 x1 body) as [x2 ys] eqn:Er. cbn [fst snd] in *.
    assert (Hx2 : snd x2 = false) by (destruct E1 as (_ & _ & E1); congruence).
    cbn [run1].
    assert (St : exists x3, step1 x2 e = (x3, ODone) /\ xeq x3 x).
    { destruct (is_other a) eqn:Ho.
      - exists x2. split.
        + destruct He as [->| ->]; cbn [step1]; unfold close1; rewrite Hx2, Ho; reflexivity.
        + eapply xeq_trans; [exact E1|]. unfold x1, put1. unfold is_other in Ho. destruct (scope_of a); try discriminate. apply xeq_refl.
      - assert (Hs : scope_of a <> ScOther) by (unfold is_other in Ho; destruct (scope_of a); discriminate).
        assert (Ec : ctx1 x1 a = c_begin (ctx1 x a) a v). { unfold x1, ctx1, put1. destruct (scope_of a); [reflexivity|reflexivity|contradiction]. }
        exists (put1 x2 a (c_end (ctx1 x2 a) a)). split.
        + apply close1_nested with (v := v); auto. rewrite (open_ceq _ _ a (ctx1_xeq _ _ a E1)), Ec. apply open_begin.
        + eapply xeq_trans; [apply put1_xeq; [exact E1|apply end_ceq, (ctx1_xeq _ _ a E1)]|].
          rewrite Ec. unfold x1. rewrite put1_put1. destruct (asvalue a) eqn:Ea.
          * eapply xeq_trans; [apply put1_xeq; [apply xeq_refl|apply end_begin_val; auto]|apply put1_id].
            apply (Hf a v); auto. left; auto.
          * rewrite end_begin_ref by auto. apply put1_id. }
    destruct St as (x3 & Es & E3). rewrite Es.
    assert (Hx3 : snd x3 = false) by (destruct E3 as (_ & _ & E3); congruence).
    destruct (IHr x3 Hx3) as (E4 & O4).
    { apply (fresh_xeq x x3); [destruct E3 as (A & B & C); split; [apply ceq_sym; auto|split; [apply ceq_sym; auto|auto]]|].
      eapply fresh_sub; [|exact Hf]. intros o Ho. right. apply in_or_app. right. right; auto. }
    destruct (run1 x3 rest) as [x4 zs]. cbn [fst snd] in *. split; [eapply xeq_trans; eauto|].
    intros [Z|Z]; [discriminate|]. apply in_app_or in Z. destruct Z as [Z|[Z|Z]]; auto. discriminate. }
  assert (Skip : forall o rest, (forall x, fst (step1 x o) = x /\ snd (step1 x o) <> OError) ->
     (forall x, snd x = false -> fresh x rest -> xeq (fst (run1 x rest)) x /\ ~ In OError (snd (run1 x rest))) ->
     forall x, snd x = false -> fresh x (o :: rest) ->
     xeq (fst (run1 x (o :: rest))) x /\ ~ In OError (snd (run1 x (o :: rest)))).
  { intros o rest Hs IH x Hx Hf. cbn [run1]. destruct (Hs x) as (S1 & S2). destruct (step1 x o) as [x1 y]. cbn in S1, S2. subst x1.
    destruct (IH x Hx) as (E & O); [eapply fresh_sub; [|exact Hf]; right; auto|]. destruct (run1 x rest). cbn in *. split; auto.
    intros [Z|Z]; auto. }
  induction 1.
  - intros x Hx Hf. cbn. split; [apply xeq_refl|auto].
  - apply Pair; auto. congruence.
  - apply Pair; auto.
  - apply Skip; auto. intro x. cbn. split; auto. discriminate.
  - apply Skip; auto. intro x. cbn. split; auto. discriminate.
  - apply Skip; auto. intro x. cbn. split; auto. discriminate.
  - apply Skip; auto. intro x. cbn. split; auto. discriminate.
Qed.

(* reachable states *)
Lemma init_rel npb nblk t0 tr : cfg_ok npb nblk -> tree_init npb nblk t0 = Some tr -> rel (rt_init tr) ast_init.
Proof.
  intros Hc Hi. apply rel_init. assert (R : reach true tr) by (exists npb, nblk, t0, tr; split; auto; split; auto; constructor).
  apply (proj1 (reach_inv _ _ R)).
Qed.
Lemma history_rel ops s xs : rt_history ops s xs -> rel s (fst (a_run ast_init ops)) /\ snd (a_run ast_init ops) = xs.
Proof.
  intros (npb & nblk & t0 & tr & Hc & Hi & Ho & Hr & Hnf). pose proof (init_rel _ _ _ _ Hc Hi) as H0.
  destruct (run_sim ops _ _ _ _ H0 Ho Hr Hnf) as (E & R & _). auto.
Qed.
Lemma reach_rel s : rt_reach s -> exists a, rel s a.
Proof. intros (ops & xs & H). destruct (history_rel _ _ _ H) as (R & _). eauto. Qed.
Lemma shows_same tr m tr' m' c c' : shows tr m c -> shows tr' m' c' -> ceq c c' -> same_ctx tr m tr' m'.
Proof.
  intros (A1 & A2 & A3) (B1 & B2 & B3) (C1 & C2 & C3). split; [congruence|]. split; [congruence|].
  intros k Hk. rewrite A3, B3, C3; auto.
Qed.
