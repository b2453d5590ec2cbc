(* C77: the calls of a binding follow the open regions *)
From Verif Require Import Base VariantModel VariantSpec TreeModel TreeSpec TreeProofs TreeProofs2 RuntimeModel RuntimeSpec RuntimeProofs RuntimeProofs2 RuntimeProps RuntimeProps2 RuntimeProps3.
From Verif Require Import RFilterModel EventModel ProfSpec ProfProofs BindModel BindSpec.
Open Scope N_scope.

Section B.
Variable rx : bytes -> bytes -> bool.
Variable dat : value -> bytes.
Variable c : bcfg.
Notation on_ev := (on_ev rx dat c).
Notation passes := (passes rx dat c).

Lemma on_ev_other s e : ev_chn e <> bc_chn c -> on_ev s e = s.
Proof. intro H. unfold BindModel.on_ev. destruct (N.eqb_spec (ev_chn e) (bc_chn c)); [congruence|reflexivity]. Qed.
Lemma fold_none k t b v ctx act : ~ In (bc_chn c) act -> forall s, fold_left on_ev (evs_of k t b v ctx act) s = s.
Proof.
  induction act as [|x act IH]; intros H s; [reflexivity|]. cbn. rewrite on_ev_other by (cbn; intro; apply H; left; auto). apply IH. intro; apply H; right; auto.
Qed.
Lemma fold_bev k t b v ctx act s : NoDup act -> In (bc_chn c) act ->
  fold_left on_ev (evs_of k t b v ctx act) s = on_ev s (mkev k (bc_chn c) t (at_id b) v ctx).
Proof.
  intros Nd Hi. revert s. induction act as [|x act IH]; intro s; [destruct Hi|]. inversion Nd; subst. cbn.
  destruct Hi as [->|Hi].
  - apply fold_none; auto.
  - rewrite on_ev_other; [apply IH; auto|]. cbn. intros ->. auto.
Qed.
Lemma fold_post t b v ctx act s : fold_left on_ev (evs_of PostBegin t b v ctx act) s = s.
Proof.
  revert s. induction act as [|x act IH]; intro s; [reflexivity|]. cbn. rewrite <- IH. f_equal. unfold BindModel.on_ev. cbn.
  destruct (negb (x =? bc_chn c)); auto. destruct (negb (existsb _ _)); auto. destruct (negb (passes v)); auto.
Qed.
Definition is_bound (s : bst) (x : N * value) : bool := existsb (N.eqb (fst x)) (b_marks s) && passes (snd x).
Lemma on_begin s t b v ctx : on_ev s (mkev PreBegin (bc_chn c) t b v ctx) =
  mkbst (b_marks s) (b_calls s ++ if is_bound s (b, v) then [CBegin t b v] else []).
Proof.
  unfold BindModel.on_ev, is_bound. cbn. rewrite N.eqb_refl. cbn. destruct (existsb (N.eqb b) (b_marks s)); cbn; [destruct (passes v); cbn|]; auto; rewrite app_nil_r; destruct s; auto.
Qed.
Lemma on_end s t b v ctx : on_ev s (mkev PreEnd (bc_chn c) t b v ctx) =
  mkbst (b_marks s) (b_calls s ++ if is_bound s (b, v) then [CEnd t b v] else []).
Proof.
  unfold BindModel.on_ev, is_bound. cbn. rewrite N.eqb_refl. cbn. destruct (existsb (N.eqb b) (b_marks s)); cbn; [destruct (passes v); cbn|]; auto; rewrite app_nil_r; destruct s; auto.
Qed.
Lemma on_set s t b v ctx : on_ev s (mkev PreSet (bc_chn c) t b v ctx) = s.
Proof. unfold BindModel.on_ev. cbn. rewrite N.eqb_refl. cbn. destruct (existsb _ _); cbn; [destruct (passes v)|]; auto. Qed.

(* one API call, seen from the specification *)
Lemma a_step_end a t b ok : region_attr b = true -> a_err a t = false -> a_err (fst (a_close a t b ok)) t = false -> exists v q ctx,
  c_reg (a_thr a t) = q ++ [(at_id b, v)] /\ a_log (fst (a_close a t b ok)) = a_log a ++ evs_of PreEnd t b v ctx (a_act a) /\
  (forall u, c_reg (a_thr (fst (a_close a t b ok)) u) = if u =? t then q else c_reg (a_thr a u)) /\ a_act (fst (a_close a t b ok)) = a_act a.
Proof.
  intros Hb Ee. destruct (region_props _ Hb) as (P1 & P2 & P3 & P4 & P5). unfold a_close. rewrite Ee. unfold is_other. rewrite P1.
  assert (Ec : a_ctx a t b = a_thr a t) by (unfold a_ctx; rewrite P1; reflexivity). destruct (c_open (a_ctx a t b) b) as [w|] eqn:Eo; [|cbn; unfold upd; rewrite N.eqb_refl; discriminate].
  destruct (ok w) eqn:Eok; [|cbn; unfold upd; rewrite N.eqb_refl; discriminate]. intros _. cbn [fst]. rewrite Ec in Eo. unfold c_open in Eo. rewrite P2, P3 in Eo.
  destruct (last_is (at_id b) (c_reg (a_thr a t))) eqn:El; [|discriminate]. apply last_is_split in El as (q & v & El).
  assert (w = v). { rewrite El in Eo. unfold innermost in Eo. rewrite rev_app_distr in Eo. cbn in Eo. rewrite N.eqb_refl in Eo. cbn in Eo. congruence. } subst w.
  exists v, q, (c_see (a_ctx a t b) b).
  rewrite put_log, put_act, fire_act, fire_ctx. unfold a_fire. rewrite P5. cbn [a_log]. split; [exact El|]. split; [reflexivity|]. split; [|reflexivity].
  intro u. rewrite a_put_thr by auto. cbn [a_thr]. unfold upd. destruct (u =? t); [|reflexivity]. rewrite Ec.
  unfold c_end. rewrite P2. unfold with_lst, lst. rewrite P3. cbn [c_reg]. rewrite El. apply last_is_rm. exact q.
Qed.
Lemma known_app s l l' : known (b_marks s) passes (l ++ l') = known (b_marks s) passes l ++ known (b_marks s) passes l'.
Proof. apply filter_app. Qed.
Lemma known_one s x : known (b_marks s) passes [x] = if is_bound s x then [x] else [].
Proof. reflexivity. Qed.
Lemma rm_known s k l : existsb (N.eqb k) (b_marks s) = false -> known (b_marks s) passes (rm_innermost k l) = known (b_marks s) passes l.
Proof.
  intro Hk. unfold rm_innermost. unfold known.
  assert (G : forall l, filter (is_bound s) (rm_first k l) = filter (is_bound s) l).
  { clear l. induction l as [|[b v] l IH]; cbn; auto. destruct (N.eqb_spec b k).
    - subst. unfold is_bound at 2. cbn. rewrite Hk. reflexivity.
    - cbn. rewrite IH. reflexivity. }
  assert (R : forall l : list (N * value), filter (is_bound s) (rev l) = rev (filter (is_bound s) l)).
  { clear. induction l as [|x l IH]; cbn; auto. rewrite filter_app, IH. cbn. destruct (is_bound s x); cbn; auto. rewrite app_nil_r; auto. }
  change (filter (is_bound s) (rev (rm_first k (rev l))) = filter (is_bound s) l). rewrite R, G, <- R, rev_involutive. reflexivity.
Qed.

Lemma api_step s a u o : plain_op o -> NoDup (a_act a) -> In (bc_chn c) (a_act a) -> exists evs new,
  a_log (fst (a_step a u o)) = a_log a ++ evs /\ fold_left on_ev evs s = mkbst (b_marks s) (b_calls s ++ new) /\
  Forall (fun x => thread_call u x = true) new /\ (forall w, w <> u -> c_reg (a_thr (fst (a_step a u o)) w) = c_reg (a_thr a w)) /\
  ((forall b v, o = OSet b v -> ~ In (at_id b) (b_marks s)) ->
   fold_left tool_step new (Some (known (b_marks s) passes (c_reg (a_thr a u)))) = Some (known (b_marks s) passes (c_reg (a_thr (fst (a_step a u o)) u)))).
Proof.
  intros Hp Nd Hi.
  assert (Quiet : a_log (fst (a_step a u o)) = a_log a /\ (forall w, c_reg (a_thr (fst (a_step a u o)) w) = c_reg (a_thr a w)) -> exists evs new,
    a_log (fst (a_step a u o)) = a_log a ++ evs /\ fold_left on_ev evs s = mkbst (b_marks s) (b_calls s ++ new) /\
    Forall (fun x => thread_call u x = true) new /\ (forall w, w <> u -> c_reg (a_thr (fst (a_step a u o)) w) = c_reg (a_thr a w)) /\
    ((forall b v, o = OSet b v -> ~ In (at_id b) (b_marks s)) ->
     fold_left tool_step new (Some (known (b_marks s) passes (c_reg (a_thr a u)))) = Some (known (b_marks s) passes (c_reg (a_thr (fst (a_step a u o)) u))))).
  { intros (L & C). exists [], []. rewrite !app_nil_r. split; [exact L|]. split; [destruct s; reflexivity|]. split; [constructor|]. split; [auto|]. intros _. cbn. rewrite C. reflexivity. }
  destruct (moves o) eqn:Em; [|apply Quiet; apply a_step_quiet; auto].
  destruct (a_err a u) eqn:Ee; [apply Quiet; apply a_step_err; auto|].
  destruct (a_err (fst (a_step a u o)) u) eqn:Ee'; [apply Quiet; apply a_step_err; auto|].
  clear Quiet.
  assert (CL : forall b ok, region_attr b = true -> a_err (fst (a_close a u b ok)) u = false -> exists evs new,
    a_log (fst (a_close a u b ok)) = a_log a ++ evs /\ fold_left on_ev evs s = mkbst (b_marks s) (b_calls s ++ new) /\
    Forall (fun x => thread_call u x = true) new /\ (forall w, w <> u -> c_reg (a_thr (fst (a_close a u b ok)) w) = c_reg (a_thr a w)) /\
    fold_left tool_step new (Some (known (b_marks s) passes (c_reg (a_thr a u)))) = Some (known (b_marks s) passes (c_reg (a_thr (fst (a_close a u b ok)) u)))).
  { intros b ok Hb Hc. destruct (a_step_end a u b ok Hb Ee Hc) as (v & q & ctx & E1 & E2 & E3 & E4).
    eexists _, _. split; [exact E2|]. rewrite fold_bev by auto. rewrite on_end. split; [reflexivity|].
    split; [destruct (is_bound s _); constructor; [cbn; apply N.eqb_refl|constructor]|].
    split; [intros w Hw; rewrite E3; destruct (N.eqb_spec w u); congruence|].
    rewrite E3, N.eqb_refl, E1, known_app, known_one. destruct (is_bound s (at_id b, v)); [|cbn; rewrite app_nil_r; reflexivity].
    cbn. rewrite rev_app_distr. cbn. rewrite N.eqb_refl. destruct (value_eq_dec v v); [|congruence]. cbn. rewrite rev_involutive. reflexivity. }
  destruct o as [b v|b|b v|b v|b| | |]; cbn [moves] in Em; try discriminate; cbn [a_step] in *.
  - destruct (a_step_region a u (OBegin b v) Em Ee) as (b' & v' & ctx1 & ctx2 & E1 & _ & E2 & E3 & E4); [cbn [a_step]; exact Ee'|]. cbn [op_attr] in E1. injection E1 as <-. clear CL.
    destruct (region_props _ Em) as (P1 & P2 & P3 & P4 & P5). rewrite Ee in *. cbn [fst] in *. clear E1 E2 || idtac.
    eexists _, _. split.
    { unfold a_fire at 1. rewrite P5. cbn [a_log]. rewrite put_log. unfold a_fire at 1. rewrite P5. cbn [a_log]. rewrite <- app_assoc. rewrite put_act, fire_act. reflexivity. }
    change (map (fun c0 => mkev PreBegin c0 u (at_id b) v (c_see (a_ctx a u b) b)) (a_act a)) with (evs_of PreBegin u b v (c_see (a_ctx a u b) b) (a_act a)).
    rewrite fold_left_app. rewrite fold_bev by auto. rewrite on_begin.
    match goal with |- context [map (fun c0 => mkev PostBegin c0 u (at_id b) v ?x) (a_act a)] => change (map (fun c0 => mkev PostBegin c0 u (at_id b) v x) (a_act a)) with (evs_of PostBegin u b v x (a_act a)) end.
    rewrite fold_post. split; [reflexivity|].
    assert (Z : forall w, c_reg (a_thr (a_fire (a_put (a_fire a PreBegin u b v) u b (c_begin (a_ctx (a_fire a PreBegin u b v) u b) b v)) PostBegin u b v) w) = if w =? u then c_reg (a_thr a u) ++ [(at_id b, v)] else c_reg (a_thr a w)).
    { intro w. rewrite fire_thr, a_put_thr by auto. rewrite fire_thr. unfold upd. destruct (w =? u); [|reflexivity]. rewrite fire_ctx. unfold a_ctx. rewrite P1.
      unfold c_begin. rewrite P2. unfold with_lst, lst. rewrite P3. reflexivity. }
    split; [destruct (is_bound s _); constructor; [cbn; apply N.eqb_refl|constructor]|].
    split; [intros w Hw; rewrite Z; destruct (N.eqb_spec w u); congruence|]. intros _.
    rewrite Z, N.eqb_refl, known_app, known_one. destruct (is_bound s (at_id b, v)); cbn; [reflexivity|rewrite app_nil_r; reflexivity].
  - destruct (CL b _ Em Ee') as (evs & new & H1 & H2 & H3 & H4 & H5). exists evs, new. auto 6.
  - destruct (CL b _ Em Ee') as (evs & new & H1 & H2 & H3 & H4 & H5). exists evs, new. auto 6.
  - destruct (region_props _ Em) as (P1 & P2 & P3 & P4 & P5). rewrite Ee in *. cbn [fst] in *.
    exists (evs_of PreSet u b v (c_see (a_ctx a u b) b) (a_act a)), []. rewrite app_nil_r. split.
    { rewrite put_log. unfold a_fire. rewrite P5. reflexivity. }
    rewrite fold_bev by auto. rewrite on_set. split; [destruct s; reflexivity|]. split; [constructor|].
    assert (Z : forall w, c_reg (a_thr (a_put (a_fire a PreSet u b v) u b (c_set (a_ctx (a_fire a PreSet u b v) u b) b v)) w) = if w =? u then rm_innermost (at_id b) (c_reg (a_thr a u)) ++ [(at_id b, v)] else c_reg (a_thr a w)).
    { intro w. rewrite a_put_thr by auto. rewrite fire_thr. unfold upd. destruct (w =? u); [|reflexivity]. rewrite fire_ctx. unfold a_ctx. rewrite P1.
      unfold c_set. rewrite P2. unfold with_lst, lst. rewrite P3. reflexivity. }
    split; [intros w Hw; rewrite Z; destruct (N.eqb_spec w u); congruence|]. intro Hs.
    assert (Hk : existsb (N.eqb (at_id b)) (b_marks s) = false).
    { destruct (existsb _ _) eqn:E; auto. apply existsb_exists in E as (y & Hy & Ey). apply N.eqb_eq in Ey. subst y. destruct (Hs b v eq_refl Hy). }
    rewrite Z, N.eqb_refl, known_app, known_one, rm_known by auto. unfold is_bound. cbn [fst]. rewrite Hk. cbn. rewrite app_nil_r. reflexivity.
Qed.

(* ---- runs ---- *)
Variable t : N.
Record J (p : rt * bst) (a : ast) : Prop := mkJ {
  j_rel : rel (fst p) a; j_nodup : NoDup (a_act a); j_in : In (bc_chn c) (a_act a);
  j_tool : tool_stack (calls_of t (b_calls (snd p))) = Some (known (b_marks (snd p)) passes (c_reg (a_thr a t))) }.
Lemma regions_eq s a u : rel s a -> open_regions s u = c_reg (a_thr a u).
Proof. intro R. pose proof (rel_ctx s a u (mkattr 12 20) R ltac:(discriminate)) as (H & _). exact H. Qed.
Lemma calls_app l l' : calls_of t (l ++ l') = calls_of t l ++ calls_of t l'.
Proof. apply filter_app. Qed.
Lemma calls_all l : Forall (fun x => thread_call t x = true) l -> calls_of t l = l.
Proof. induction 1; cbn; auto. rewrite H. f_equal; auto. Qed.
Lemma calls_none u l : u <> t -> Forall (fun x => thread_call u x = true) l -> calls_of t l = [].
Proof.
  intros Hu. induction 1 as [|x l Hx Hl IH]; cbn; auto. destruct x as [|w b v|w b v]; cbn in *; try discriminate; apply N.eqb_eq in Hx; subst w; destruct (N.eqb_spec u t); [congruence|auto|congruence|auto].
Qed.
Lemma check_cases s a : bcheck c s a = s \/ bcheck c s a = mark s a.
Proof. unfold bcheck. destruct (has_flag _ _); auto. destruct (bc_triggers c); [destruct (has_flag _ _)|destruct (existsb _ _)]; auto. Qed.
Lemma known_mark s a l : (forall v, ~ In (ea_id a, v) l) -> known (b_marks (mark s a)) passes l = known (b_marks s) passes l.
Proof.
  intro H. unfold known. apply filter_ext_in. intros [k v] Hk. f_equal. cbn. destruct (existsb (N.eqb (ea_id a)) (b_marks s)); auto. cbn.
  destruct (N.eqb_spec k (ea_id a)); auto. subst. destruct (H v Hk).
Qed.
Lemma step_J p a x q : J p a -> step_fine c t p x -> bstep rx dat c p x = Some q -> not_full (r_tree (fst q)) -> exists a', J q a'.
Proof.
  intros [R Nd Hi T] F E Hnf.
  assert (Ck : forall b s, J (s, snd p) a -> (forall v, ~ In (ea_id b, v) (open_regions (fst p) t)) -> s = fst p -> J (s, bcheck c (snd p) b) a).
  { intros b s [R1 N1 I1 T1] Hb ->. destruct (check_cases (snd p) b) as [->| ->]; constructor; auto. cbn [snd fst] in *.
    rewrite known_mark by (rewrite <- (regions_eq _ _ t R); auto). cbn [b_calls mark]. rewrite calls_app. cbn. rewrite app_nil_r. exact T1. }
  destruct p as [s bs]. destruct x as [u o|b|b]; cbn [bstep fst snd step_fine] in *.
  - destruct F as (Ho & Hp & (Hc1 & Hc2) & Hset). destruct (rt_step s u o) as [s' y| |] eqn:Es; [|discriminate|discriminate]. injection E as <-. cbn [fst] in Hnf.
    pose proof (step_sim _ _ u o R Ho) as Hs. rewrite Es in Hs. destruct Hs as (_ & Hs). destruct (Hs Hnf) as (_ & R' & _).
    destruct (api_step bs a u o Hp Nd Hi) as (evs & new & E1 & E2 & E3 & E4 & E5).
    exists (fst (a_step a u o)). constructor; cbn [fst snd].
    + exact R'.
    + apply step_act; auto.
    + apply step_act_in; auto. split; auto.
    + rewrite (rl_log _ _ R'), (rl_log _ _ R), E1.
      replace (skipn (length (a_log a)) (a_log a ++ evs)) with evs by (clear; induction (a_log a); cbn; auto). rewrite E2. cbn [b_calls b_marks]. rewrite calls_app. unfold tool_stack. rewrite fold_left_app.
      unfold tool_stack in T. rewrite T. destruct (N.eqb_spec u t).
      * subst u. rewrite (calls_all _ E3). apply E5. intros b v Eo. apply (Hset b v Eo eq_refl).
      * rewrite (calls_none _ _ n E3). cbn. rewrite E4 by auto. reflexivity.
  - injection E as <-. exists a. destruct (ea_sub b); [constructor; auto|]. apply (Ck b s); auto. constructor; auto.
  - injection E as <-. exists a. apply (Ck b s); auto. constructor; auto.
Qed.
Lemma brun_mono l : forall p q, brun rx dat c p l = Some q -> mono (r_tree (fst p)) (r_tree (fst q)).
Proof.
  induction l as [|x l IH]; cbn; intros p q E; [injection E as ->; apply mono_refl|]. destruct (bstep rx dat c p x) as [p1|] eqn:E1; [|discriminate].
  eapply mono_trans; [|eapply IH; eauto]. destruct x as [u o|b|b]; cbn in E1; [|injection E1 as <-; apply mono_refl|injection E1 as <-; apply mono_refl].
  destruct (rt_step (fst p) u o) as [s' y| |] eqn:Es; [|discriminate|discriminate]. injection E1 as <-. eapply step_mono; eauto.
Qed.
Lemma run_J l : forall p a q, J p a -> run_fine rx dat c t p l -> brun rx dat c p l = Some q -> not_full (r_tree (fst q)) -> exists a', J q a'.
Proof.
  induction l as [|x l IH]; cbn; intros p a q HJ F E Hnf; [injection E as <-; eauto|]. destruct F as (F1 & F2).
  destruct (bstep rx dat c p x) as [p1|] eqn:E1; [|discriminate]. destruct (step_J p a x p1 HJ F1 E1) as (a1 & J1); [eapply mono_nf; [eapply brun_mono; eauto|auto]|]. eauto.
Qed.
End B.
