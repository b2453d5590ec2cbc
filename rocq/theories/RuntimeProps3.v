(* C24 (callbacks), the limits of C18-C22, and examples *)
From Verif Require Import Base VariantModel VariantSpec TreeModel TreeSpec TreeProofs TreeProofs2
  RuntimeModel RuntimeSpec RuntimeProofs RuntimeProofs2 RuntimeProps RuntimeProps2.

Definition callbacks (k : evk) (s : rt) (t : N) (a : attr) (v : value) (see : list (N * value)) : list ev :=
  if run_events a then map (fun c => mkev k c t (at_id a) v see) (r_act s) else [].
Lemma fire_log s a k t x v : rel s a -> attr_ok (r_tree s) x -> a_log (a_fire a k t x v) = a_log a ++ callbacks k s t x v (c_see (a_ctx a t x) x).
Proof.
  intros R H. unfold a_fire, callbacks. destruct (run_events x); [cbn; rewrite (rl_act _ _ R); reflexivity|rewrite app_nil_r; reflexivity].
Qed.
Lemma see_other a t x : is_other x = true -> c_see (a_ctx a t x) x = [].
Proof.
  unfold is_other, c_see, a_ctx, lst. destruct (scope_of x); try discriminate. intros _. destruct (asvalue x); [reflexivity|]. destruct (unaligned x); reflexivity.
Qed.
Lemma seen_see s a t x : rel s a -> attr_ok (r_tree s) x -> seen s t x = c_see (a_ctx a t x) x.
Proof. intros R H. rewrite (rel_seen _ _ t x R H). destruct (is_other x) eqn:E; auto. rewrite see_other; auto. Qed.

(* C24: begin() calls back every active channel, in order, once before the update (the callback
   finds the old context) and once after it (the new context) *)
Theorem C24_begin_callbacks : forall s t a v s' x, rt_reach s -> rop_ok s (OBegin a v) -> r_err s t = false ->
  rt_step s t (OBegin a v) = SOk s' x -> not_full (r_tree s') ->
  r_log s' = r_log s ++ callbacks PreBegin s t a v (seen s t a) ++ callbacks PostBegin s t a v (seen s' t a).
Proof.
  intros s t a v s' x Hr Ho He E Hnf. destruct (step_rel _ _ _ _ _ Hr Ho E Hnf) as (b & R & R' & Ex).
  pose proof (step_ext _ _ _ _ _ Hr Ho E Hnf) as Hext. pose proof (attr_ok_ext _ _ _ Hext Ho) as Ho'.
  rewrite (seen_see _ _ t a R Ho), (seen_see _ _ t a R' Ho'). rewrite (rl_log _ _ R'), (rl_log _ _ R).
  assert (Hb : a_err b t = false) by (rewrite <- (rl_err _ _ R); auto).
  cbn [a_step]. rewrite Hb. cbn [fst]. rewrite !fire_ctx.
  set (c := c_begin (a_ctx b t a) a v). unfold callbacks. rewrite (rl_act _ _ R).
  assert (P1 : forall b c, a_act (a_put b t a c) = a_act b) by (intros; unfold a_put; destruct (scope_of a); reflexivity).
  assert (P2 : forall b c, a_log (a_put b t a c) = a_log b) by (intros; unfold a_put; destruct (scope_of a); reflexivity).
  unfold a_fire at 1. destruct (run_events a) eqn:Er; cbn [a_log].
  - rewrite P1, P2, fire_act. unfold a_fire at 1. rewrite Er. cbn [a_log]. rewrite <- app_assoc. reflexivity.
  - rewrite P2. unfold a_fire. rewrite Er. rewrite !app_nil_r. reflexivity.
Qed.
Print Assumptions C24_begin_callbacks.

(* end(): one callback per channel, before the update, with the value being closed *)
Theorem C24_end_callbacks : forall s t a w o s' x, rt_reach s -> rop_ok s o -> ends o a w -> scope_of a <> ScOther -> r_err s t = false ->
  rt_get s t a = Some w -> rt_step s t o = SOk s' x -> not_full (r_tree s') -> 
  (x = ODone /\ r_log s' = r_log s ++ callbacks PreEnd s t a w (seen s t a)) \/ (x = OError /\ r_log s' = r_log s).
Proof.
  intros s t a w o s' x Hr Ho Hends Hs He Hg E Hnf. destruct (step_rel _ _ _ _ _ Hr Ho E Hnf) as (b & R & R' & Ex).
  assert (Ha : attr_ok (r_tree s) a) by (destruct Hends as [->| ->]; exact Ho).
  destruct (ends_step o a w b t Hends) as (ok & Es & Hok'). rewrite Es in *. rewrite (seen_see _ _ t a R Ha). rewrite (rl_log _ _ R'), (rl_log _ _ R), Ex.
  assert (Hb : a_err b t = false) by (rewrite <- (rl_err _ _ R); auto). rewrite (rel_get _ _ t a R Ha) in Hg.
  assert (Ht : is_other a = false) by (unfold is_other; destruct (scope_of a); auto; congruence). rewrite Ht in Hg.
  unfold a_close. rewrite Hb, Ht. destruct (c_open (a_ctx b t a) a) as [u|] eqn:Eo.
  - assert (u = w). { unfold c_open, c_get, lst in *. destruct (asvalue a); [congruence|]. destruct (unaligned a); [congruence|]. destruct (last_is _ _); congruence. }
    subst u. rewrite Hok'. cbn [fst snd]. left. split; auto.
    assert (P2 : forall b c, a_log (a_put b t a c) = a_log b) by (intros; unfold a_put; destruct (scope_of a); reflexivity).
    rewrite P2. apply fire_log; auto.
  - right. split; reflexivity.
Qed.
Print Assumptions C24_end_callbacks.

Theorem C24_set_callbacks : forall s t a v s' x, rt_reach s -> rop_ok s (OSet a v) -> r_err s t = false ->
  rt_step s t (OSet a v) = SOk s' x -> not_full (r_tree s') ->
  r_log s' = r_log s ++ callbacks PreSet s t a v (seen s t a).
Proof.
  intros s t a v s' x Hr Ho He E Hnf. destruct (step_rel _ _ _ _ _ Hr Ho E Hnf) as (b & R & R' & Ex).
  rewrite (seen_see _ _ t a R Ho). rewrite (rl_log _ _ R'), (rl_log _ _ R).
  assert (Hb : a_err b t = false) by (rewrite <- (rl_err _ _ R); auto).
  cbn [a_step]. rewrite Hb. cbn [fst].
  assert (P2 : forall b c, a_log (a_put b t a c) = a_log b) by (intros; unfold a_put; destruct (scope_of a); reflexivity).
  rewrite P2. apply fire_log; auto.
Qed.
Print Assumptions C24_set_callbacks.

(* nothing else produces callbacks: errors, suppressed calls, reads, channel and tree operations *)
Theorem C24_no_other_callbacks : forall s t o s' x, rt_step s t o = SOk s' x ->
  (annotates o = false \/ r_err s t = true \/ x = OError \/ (exists a, op_attr o = Some a /\ run_events a = false)) -> r_log s' = r_log s.
Proof.
  intros s t o s' x E H. destruct H as [H|[H|[->|(a & Ha & Hev)]]].
  - destruct o; try discriminate; cbn [rt_step] in E; try (injection E as <- <-; auto).
    destruct (tstep (r_tree s) t o) as [[? ?]|]; [|discriminate]. injection E as <- <-; auto.
  - destruct o; cbn [rt_step] in E; unfold rt_begin, rt_end, rt_end_check, rt_set in E; rewrite ?H in E; try (injection E as <- <-; reflexivity).
    destruct (tstep (r_tree s) t o) as [[? ?]|]; [|discriminate]. injection E as <- <-; auto.
  - apply (C20_error_is_local _ _ _ _ E).
  - assert (F : forall s k v, fire s k t a v = s) by (intros; unfold fire; rewrite Hev; reflexivity).
    assert (P : forall s tr m, r_log (put_bb s t a tr m) = r_log s) by (intros; unfold put_bb; destruct (scope_of a); reflexivity).
    assert (EC : forall cur s3 y, end_commit s t a cur = SOk s3 y -> r_log s3 = r_log s).
    { intros cur s3 y. unfold end_commit. destruct (snd cur) as [[? ?]|]; [|discriminate]. rewrite F. unfold commit. destruct (handle_end _ _ _ _ _ _); [|discriminate|discriminate].
      intro Z. injection Z as <- <-. apply P. }
    destruct o; cbn in Ha; try discriminate; injection Ha as ->; cbn [rt_step] in E.
    + unfold rt_begin in E. destruct (r_err s t); [injection E as <- <-; auto|]. cbn zeta in E. rewrite !F in E. unfold commit in E.
      destruct (scope_of a) eqn:Es; try (injection E as <- <-; rewrite ?F; reflexivity);
      (destruct (handle_begin _ _ _ _ _) as [tr m|?|]; [|discriminate|discriminate]; rewrite F in E; injection E as <- <-; apply P).
    + unfold rt_end in E. destruct (r_err s t); [injection E as <- <-; auto|]. cbn zeta in E.
      destruct (scope_of a); try (destruct (snd (end_load s t a)) as [?|]; [exact (EC _ _ _ E)|]); injection E as <- <-; auto.
    + unfold rt_end_check in E. destruct (r_err s t); [injection E as <- <-; auto|]. cbn zeta in E.
      destruct (scope_of a); try (destruct (snd (end_load s t a)) as [[? w]|]; [destruct (veqb v w); [exact (EC _ _ _ E)|]|]); injection E as <- <-; auto.
    + unfold rt_set in E. destruct (r_err s t); [injection E as <- <-; auto|]. cbn zeta in E. rewrite !F in E. unfold commit in E.
      destruct (scope_of a) eqn:Es; try (injection E as <- <-; rewrite ?F; reflexivity);
      (destruct (handle_set _ _ _ _ _) as [tr m|?|]; [|discriminate|discriminate]; injection E as <- <-; apply P).
    + injection E as <- <-. reflexivity.
Qed.
Print Assumptions C24_no_other_callbacks.

(* over histories: the callbacks an active channel receives from properly nested annotations of
   a thread mirror the nesting, whatever other threads do meanwhile *)
Definition evs1 (x : st1) (o : rop) : list (evk * N * value) :=
  match o with
  | OBegin a v => if snd x then [] else if run_events a then [(PreBegin, at_id a, v); (PostBegin, at_id a, v)] else []
  | OEnd a => if snd x then [] else if is_other a then [] else
      match c_open (ctx1 x a) a with Some w => if run_events a then [(PreEnd, at_id a, w)] else [] | None => [] end
  | OEndCheck a v => if snd x then [] else if is_other a then [] else
      match c_open (ctx1 x a) a with Some w => if veqb v w then if run_events a then [(PreEnd, at_id a, w)] else [] else [] | None => [] end
  | OSet a v => if snd x then [] else if run_events a then [(PreSet, at_id a, v)] else []
  | _ => []
  end.
Fixpoint evs1_run (x : st1) (ops : list rop) : list (evk * N * value) :=
  match ops with [] => [] | o :: r => evs1 x o ++ evs1_run (fst (step1 x o)) r end.
Lemma evs1_app x l l' : evs1_run x (l ++ l') = evs1_run x l ++ evs1_run (fst (run1 x l)) l'.
Proof.
  revert x. induction l as [|o l IH]; intro x; cbn [app evs1_run run1]; auto. rewrite IH, app_assoc. destruct (step1 x o) as [x1 y]. cbn. destruct (run1 x1 l); reflexivity.
Qed.
Lemma received_app c t l l' : received c t (l ++ l') = received c t l ++ received c t l'.
Proof. unfold received. rewrite filter_app, map_app. reflexivity. Qed.
Lemma received_map c t k t' i v see act : NoDup act -> 
  received c t (map (fun c => mkev k c t' i v see) act) = if (t' =? t) && existsb (N.eqb c) act then [(k, i, v)] else [].
Proof.
  unfold received. induction 1 as [|d act Hd Ha IH]; cbn; [rewrite andb_false_r; auto|].
  destruct (t' =? t); cbn in *; [|exact IH]. rewrite (N.eqb_sym c d). destruct (N.eqb_spec d c); cbn.
  - subst. rewrite IH. destruct (existsb (N.eqb c) act) eqn:E; auto. apply existsb_exists in E. destruct E as (y & Hy & Ey). apply N.eqb_eq in Ey. subst. contradiction.
  - exact IH.
Qed.
Lemma existsb_in c l : In c l -> existsb (N.eqb c) l = true.
Proof. intro H. apply existsb_exists. exists c. split; auto. apply N.eqb_refl. Qed.
Lemma fire_received c t s k t' x v : NoDup (a_act s) ->
  received c t (a_log (a_fire s k t' x v)) = received c t (a_log s) ++
    (if run_events x then if (t' =? t) && existsb (N.eqb c) (a_act s) then [(k, at_id x, v)] else [] else []).
Proof.
  intro H. unfold a_fire. destruct (run_events x); [|rewrite app_nil_r; auto]. cbn [a_log]. rewrite received_app, received_map by auto. reflexivity.
Qed.
Lemma put_log s t a c : a_log (a_put s t a c) = a_log s.
Proof. unfold a_put. destruct (scope_of a); reflexivity. Qed.
Lemma put_act s t a c : a_act (a_put s t a c) = a_act s.
Proof. unfold a_put. destruct (scope_of a); reflexivity. Qed.
Definition not_chn (c : N) (o : rop) : Prop := o <> OActivate c /\ o <> ODeactivate c.
Lemma remove1_in c l x : In x (remove1 c l) -> In x l.
Proof. induction l as [|y l IH]; cbn; auto. destruct (y =? c); cbn; intuition. Qed.
Lemma remove1_in2 c l x : x <> c -> In x l -> In x (remove1 c l).
Proof. intro H. induction l as [|y l IH]; cbn; auto. destruct (N.eqb_spec y c); cbn; intuition. congruence. Qed.
Lemma remove1_nodup c l : NoDup l -> NoDup (remove1 c l).
Proof. induction 1 as [|y l Hy Hl IH]; cbn; [constructor|]. destruct (y =? c); auto. constructor; auto. intro Z. apply Hy. eapply remove1_in; eauto. Qed.
Lemma nodup_snoc (l : list N) c : NoDup l -> ~ In c l -> NoDup (l ++ [c]).
Proof.
  intros H Hn. rewrite <- (rev_involutive (l ++ [c])). apply NoDup_rev. rewrite rev_app_distr. cbn. constructor; [rewrite <- in_rev; auto|apply NoDup_rev; auto].
Qed.
Lemma close_act s t a ok : a_act (fst (a_close s t a ok)) = a_act s.
Proof.
  unfold a_close. destruct (a_err s t); auto. destruct (is_other a); auto. destruct (c_open _ _) as [w|]; [destruct (ok w)|]; cbn [fst]; auto.
  rewrite put_act, fire_act. reflexivity.
Qed.
Lemma step_act s t o : NoDup (a_act s) -> NoDup (a_act (fst (a_step s t o))).
Proof.
  intro H. destruct o; cbn [a_step]; rewrite ?close_act; auto.
  - destruct (a_err s t); auto. cbn [fst]. rewrite fire_act, put_act, fire_act. auto.
  - destruct (a_err s t); auto. cbn [fst]. rewrite put_act, fire_act. auto.
  - cbn. destruct (existsb (N.eqb c) (a_act s)) eqn:E; auto. apply nodup_snoc; auto. intro Z.
    assert (existsb (N.eqb c) (a_act s) = true) by (apply existsb_exists; exists c; split; auto; apply N.eqb_refl). congruence.
  - cbn. apply remove1_nodup; auto.
Qed.
Lemma step_act_in s t o c : not_chn c o -> In c (a_act s) -> In c (a_act (fst (a_step s t o))).
Proof.
  intros (H1 & H2) H. destruct o; cbn [a_step]; rewrite ?close_act; auto.
  - destruct (a_err s t); auto. cbn [fst]. rewrite fire_act, put_act, fire_act. auto.
  - destruct (a_err s t); auto. cbn [fst]. rewrite put_act, fire_act. auto.
  - cbn. destruct (existsb _ _); auto. apply in_or_app; auto.
  - cbn. apply remove1_in2; auto. congruence.
Qed.
Lemma run_act ops : forall s, NoDup (a_act s) -> NoDup (a_act (fst (a_run s ops))).
Proof.
  induction ops as [|[t o] ops IH]; intros s H; cbn; auto. pose proof (step_act s t o H) as H1. destruct (a_step s t o) as [s1 x]. specialize (IH s1 H1).
  destruct (a_run s1 ops). exact IH.
Qed.
Lemma close_received c t t' s a ok : NoDup (a_act s) -> In c (a_act s) ->
  received c t (a_log (fst (a_close s t' a ok))) = received c t (a_log s) ++
    (if t' =? t then if a_err s t' then [] else if is_other a then [] else
      match c_open (a_ctx s t' a) a with Some w => if ok w then if run_events a then [(PreEnd, at_id a, w)] else [] else [] | None => [] end else []).
Proof.
  intros Hn Hc. unfold a_close. destruct (a_err s t'); [destruct (t' =? t); rewrite app_nil_r; auto|].
  destruct (is_other a); [destruct (t' =? t); rewrite app_nil_r; auto|].
  destruct (c_open _ _) as [w|]; [destruct (ok w)|]; cbn [fst].
  - rewrite put_log, fire_received by auto. rewrite (existsb_in c (a_act s)) by auto. rewrite andb_true_r.
    destruct (run_events a), (t' =? t); reflexivity.
  - destruct (t' =? t); rewrite app_nil_r; auto.
  - destruct (t' =? t); rewrite app_nil_r; auto.
Qed.
Lemma step_received pp c t t' s x o : agree pp t s x -> (t' = t -> pp = false -> no_process o) -> NoDup (a_act s) -> In c (a_act s) ->
  received c t (a_log (fst (a_step s t' o))) = received c t (a_log s) ++ (if t' =? t then evs1 x o else []).
Proof.
  intros Ha Hno Hn Hc.
  assert (Hp : t' = t -> forall a, op_attr o = Some a -> scope_of a = ScProcess -> pp = true).
  { intros Et a E1 E2. destruct pp; auto. exfalso. exact (Hno Et eq_refl a E1 E2). }
  pose proof Ha as (A1 & A2 & A3).
  destruct o; cbn [a_step evs1].
  - destruct (a_err s t') eqn:Ee; cbn [fst].
    + destruct (N.eqb_spec t' t); [|rewrite app_nil_r; auto]. subst. rewrite <- A2, Ee, app_nil_r. reflexivity.
    + rewrite fire_received by (rewrite put_act, fire_act; auto). rewrite put_log, put_act, fire_act, fire_received by auto.
      rewrite (existsb_in c (a_act s)) by auto. rewrite andb_true_r. destruct (N.eqb_spec t' t).
      * subst. rewrite <- A2, Ee. destruct (run_events a); rewrite <- ?app_assoc; reflexivity.
      * destruct (run_events a); rewrite !app_nil_r; reflexivity.
  - rewrite close_received by auto. f_equal. destruct (N.eqb_spec t' t); auto. subst. rewrite A2, (agree_ctx pp t s a x Ha (Hp eq_refl a eq_refl)). reflexivity.
  - rewrite close_received by auto. f_equal. destruct (N.eqb_spec t' t); auto. subst. rewrite A2, (agree_ctx pp t s a x Ha (Hp eq_refl a eq_refl)). reflexivity.
  - destruct (a_err s t') eqn:Ee; cbn [fst].
    + destruct (N.eqb_spec t' t); [|rewrite app_nil_r; auto]. subst. rewrite <- A2, Ee, app_nil_r. reflexivity.
    + rewrite put_log, fire_received by auto.
      rewrite (existsb_in c (a_act s)) by auto. rewrite andb_true_r. destruct (N.eqb_spec t' t).
      * subst. rewrite <- A2, Ee. reflexivity.
      * destruct (run_events a); rewrite !app_nil_r; reflexivity.
  - destruct (t' =? t); rewrite app_nil_r; reflexivity.
  - destruct (t' =? t); rewrite app_nil_r; reflexivity.
  - destruct (t' =? t); rewrite app_nil_r; reflexivity.
  - destruct (t' =? t); rewrite app_nil_r; reflexivity.
Qed.
Lemma run_received c t ops : forall s x, agree false t s x -> Forall no_process (ops_of t ops) -> NoDup (a_act s) -> In c (a_act s) ->
  (forall t' o, In (t', o) ops -> not_chn c o) ->
  received c t (a_log (fst (a_run s ops))) = received c t (a_log s) ++ evs1_run x (ops_of t ops).
Proof.
  induction ops as [|[t' o] ops IH]; intros s x Ha Hnp Hn Hc Hch.
  - cbn. rewrite app_nil_r. auto.
  - assert (Hno : t' = t -> no_process o /\ Forall no_process (ops_of t ops)).
    { intros ->. unfold ops_of in *. cbn in Hnp. rewrite N.eqb_refl in Hnp. cbn in Hnp. inversion Hnp; auto. }
    pose proof (step_received false c t t' s x o Ha (fun E _ => proj1 (Hno E)) Hn Hc) as Hs.
    pose proof (step_act s t' o Hn) as Hn1. pose proof (step_act_in s t' o c (Hch t' o (or_introl eq_refl)) Hc) as Hc1.
    cbn [a_run]. unfold ops_of in *. cbn [filter fst] in *.
    destruct (N.eqb_spec t' t) as [->|Hne].
    + cbn [map snd evs1_run]. destruct (step_agree false t s x o Ha) as (Ha1 & _); [intros _; apply Hno; auto|].
      destruct (a_step s t o) as [s1 y]. cbn [fst] in *.
      assert (E : received c t (a_log (fst (a_run s1 ops))) = received c t (a_log s1) ++ evs1_run (fst (step1 x o)) (map snd (filter (fun p => fst p =? t) ops))).
      { apply IH; auto. - apply Hno; auto. - intros u w Hin. apply (Hch u w). right; auto. }
      destruct (a_run s1 ops). cbn [fst] in *. rewrite E, Hs, app_assoc. reflexivity.
    + pose proof (step_other s t' t o (not_eq_sym Hne)) as (H1 & H2 & H3). destruct (a_step s t' o) as [s1 y]. cbn [fst] in *.
      assert (Ha1 : agree false t s1 x). { destruct Ha as (A1 & A2 & A3). split; [congruence|]. split; [congruence|discriminate]. }
      assert (E : received c t (a_log (fst (a_run s1 ops))) = received c t (a_log s1) ++ evs1_run x (map snd (filter (fun p => fst p =? t) ops))).
      { apply IH; auto. intros u w Hin. apply (Hch u w). right; auto. }
      destruct (a_run s1 ops). cbn [fst] in *. rewrite E, Hs, app_nil_r. reflexivity.
Qed.

Lemma nested_trace_nested ops tr : nested_trace ops tr -> nested ops.
Proof.
  induction 1; try (constructor; auto; fail). destruct (asvalue a) eqn:E.
  - apply ne_value; auto. exact (H1 eq_refl).
  - apply ne_region; auto.
Qed.
Lemma nested_evs ops tr : nested_trace ops tr -> forall x, snd x = false -> fresh x ops -> evs1_run x ops = tr.
Proof.
  induction 1 as [|a v e body rest eb er Hs He Hnb Hb IHb Hr IHr| | | |]; intros x Hx Hf; auto.
  2,3,4,5: cbn; apply IHnested_trace; auto; eapply fresh_sub; [|exact Hf]; right; auto.
  cbn [evs1_run]. cbn [evs1 step1]. rewrite Hx. cbn [fst].
  set (x1 := put1 x a (c_begin (ctx1 x a) a v)).
  assert (Hx1 : snd x1 = false) by (unfold x1; rewrite put1_err; auto).
  assert (Hf1 : fresh x1 body).
  { intros b w Hin Hbv Hsb. unfold x1. rewrite begin_imm by (intro; eauto). apply (Hf b w); auto. right. apply in_or_app. auto. }
  rewrite evs1_app. rewrite (IHb x1 Hx1 Hf1).
  destruct (nested_run _ (nested_trace_nested _ _ Hb) x1 Hx1 Hf1) as (E1 & _).
  set (x2 := fst (run1 x1 body)) in *.
  assert (Hx2 : snd x2 = false) by (destruct E1 as (_ & _ & E1); congruence).
  assert (Ho : is_other a = false) by (unfold is_other; destruct (scope_of a); auto; congruence).
  assert (Ec : ctx1 x1 a = c_begin (ctx1 x a) a v). { unfold x1, ctx1, put1. destruct (scope_of a); [reflexivity|reflexivity|contradiction]. }
  assert (Eo : c_open (ctx1 x2 a) a = Some v) by (rewrite (open_ceq _ _ a (ctx1_xeq _ _ a E1)), Ec; apply open_begin).
  assert (E3 : xeq (put1 x2 a (c_end (ctx1 x2 a) a)) x).
  { eapply xeq_trans; [apply put1_xeq; [exact E1|apply end_ceq, (ctx1_xeq _ _ a E1)]|].
    rewrite Ec. unfold x1. rewrite put1_put1. destruct (asvalue a) eqn:Ea.
    - eapply xeq_trans; [apply put1_xeq; [apply xeq_refl|apply end_begin_val; auto]|apply put1_id]. apply (Hf a v); auto. left; auto.
    - rewrite end_begin_ref by auto. apply put1_id. }
  cbn [evs1_run]. rewrite (close1_nested x2 a v e He Hx2 Ho Eo). cbn [fst]. set (x3 := put1 x2 a (c_end (ctx1 x2 a) a)) in *.
  assert (Ee : evs1 x2 e = if run_events a then [(PreEnd, at_id a, v)] else []).
  { destruct He as [->| ->]; cbn [evs1]; rewrite Hx2, Ho, Eo; auto. unfold veqb. destruct (value_eq_dec v v); [reflexivity|contradiction]. }
  rewrite Ee. rewrite IHr.
  - reflexivity.
  - destruct E3 as (_ & _ & E3). congruence.
  - apply (fresh_xeq x x3); [destruct E3 as (A & B & C); split; [apply ceq_sym; auto|split; [apply ceq_sym; auto|auto]]|].
    eapply fresh_sub; [|exact Hf]. intros o Hin. right. apply in_or_app. right. right; auto.
Qed.

Theorem C24_nested_callbacks : forall s t ops s' xs c tr, rt_reach s -> r_err s t = false ->
  ops_ok s ops -> rt_run s ops = Some (s', xs) -> not_full (r_tree s') ->
  In c (r_act s) -> (forall t' o, In (t', o) ops -> not_chn c o) ->
  nested_trace (ops_of t ops) tr -> Forall no_process (ops_of t ops) ->
  (forall a v, In (OBegin a v) (ops_of t ops) -> asvalue a = true -> rt_get s t a = None) ->
  received c t (r_log s') = received c t (r_log s) ++ tr.
Proof.
  intros s t ops s' xs c tr Hr He Ho Hrun Hnf Hc Hch Hne Hnp Hfr. pose proof Hr as (ops0 & xs0 & Hh).
  destruct (history_rel _ _ _ Hh) as (Hrel & _). set (a := fst (a_run ast_init ops0)) in *.
  assert (Hn : NoDup (a_act a)) by (apply run_act; constructor).
  destruct (run_sim ops s a s' xs Hrel Ho Hrun Hnf) as (Ex & Hrel' & _).
  set (x := (a_thr a t, a_proc a, false)).
  assert (Hag : agree false t a x). { split; auto. split; [rewrite <- (rl_err _ _ Hrel); auto|discriminate]. }
  rewrite (rl_log _ _ Hrel'), (rl_log _ _ Hrel), (run_received c t ops a x Hag Hnp Hn); auto.
  - f_equal. apply nested_evs; auto. intros b w Hin Hb Hs. rewrite Forall_forall in Hnp. pose proof (Hnp _ Hin b eq_refl) as Hp.
    pose proof (get_none_fresh s a t b Hrel Hb Hs (ops_ok_attr _ _ _ _ _ _ _ Ho Hrun (ops_of_in _ _ _ Hin)) (Hfr b w Hin Hb)) as G.
    unfold ctx1, a_ctx in *. destruct (scope_of b); auto.
  - rewrite <- (rl_act _ _ Hrel). auto.
Qed.
Print Assumptions C24_nested_callbacks.
