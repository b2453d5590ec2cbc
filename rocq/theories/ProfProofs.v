(* C69: the runtime under plain operations: what is visible, which callbacks are invoked *)
From Verif Require Import Base VariantModel VariantSpec TreeModel TreeSpec TreeProofs TreeProofs2 RuntimeModel RuntimeSpec RuntimeProofs RuntimeProofs2 RuntimeProps RuntimeProps2 RuntimeProps3.
From Verif Require Import RtAggModel EventModel TimerModel ProfModel ProfSpec.
Open Scope N_scope.

(* ---- visible entries ---- *)
Definition vis2 (m : bb) : Prop := Forall (fun x => (fst x = REGION_KEY /\ snd (snd x) = true) \/ (12 <= fst x /\ snd (snd x) = false)) m.
Definition visp (m : bb) : Prop := Forall (fun x : N * (N * value * bool) => 12 <= fst x /\ snd (snd x) = false) m.
Definition vis2_st (s : rt) : Prop := (forall t, vis2 (r_tbb s t)) /\ visp (r_pbb s).
Lemma bset_forall (P : N * (N * value * bool) -> Prop) m k e vis : (forall i v, P (k, (i, v, vis))) -> (forall i v j w b, P (k, (i, v, b)) -> P (k, (j, w, b))) ->
  Forall P m -> Forall P (bset m k e vis).
Proof.
  intros H1 H2 H. induction m as [|[k' [[i v] b]] m IH]; cbn [bset]; [constructor; auto|].
  inversion H; subst. destruct (N.eqb_spec k' k); constructor; auto. subst. eapply H2; eauto.
Qed.
Lemma bdel_forall (P : N * (N * value * bool) -> Prop) m k : Forall P m -> Forall P (bdel m k).
Proof. intro H. induction H as [|x m Hx Hm IH]; cbn; [constructor|]. destruct (fst x =? k); auto. Qed.
Lemma vis2_set_reg m e : vis2 m -> vis2 (bset m REGION_KEY e true).
Proof. apply bset_forall; cbn; auto. Qed.
Lemma vis2_set_imm m k e : 12 <= k -> vis2 m -> vis2 (bset m k e false).
Proof. intro Hk. apply bset_forall; cbn; auto. Qed.
Lemma visp_set_imm m k e : 12 <= k -> visp m -> visp (bset m k e false).
Proof. intro Hk. apply bset_forall; cbn; auto. Qed.

Lemma region_props a : region_attr a = true -> scope_of a = ScThread /\ asvalue a = false /\ unaligned a = false /\ visible_flag a = true /\ run_events a = true.
Proof.
  unfold region_attr. destruct (scope_of a); cbn; try discriminate. intro H. repeat (apply andb_true_iff in H as (H & ?)).
  apply negb_true_iff in H. repeat split; auto. apply negb_true_iff; auto.
Qed.
Lemma internal_props a : internal_attr a = true -> asvalue a = true /\ visible_flag a = false /\ run_events a = false.
Proof. unfold internal_attr. intro H. repeat (apply andb_true_iff in H as (H & ?)). repeat split; auto; apply negb_true_iff; auto. Qed.

(* the map of the attribute's blackboard keeps its form *)
Definition keeps (a : attr) (m m' : bb) : Prop := (vis2 m -> vis2 m') /\ (internal_attr a = true -> visp m -> visp m').
Lemma internal_not_region a : internal_attr a = true -> region_attr a = true -> False.
Proof. intros H1 H2. apply internal_props in H1 as (E1 & _). apply region_props in H2 as (_ & E2 & _). congruence. Qed.
Lemma keeps_set a m e : region_attr a = true \/ internal_attr a = true -> 12 <= at_id a -> keeps a m (bset m (bb_key a) e (visible_flag a)).
Proof.
  intros [H|H] H12; split; intros.
  - apply region_props in H as (_ & E1 & E2 & E3 & _). unfold bb_key, ref_key. rewrite E1, E2, E3. apply vis2_set_reg; auto.
  - exfalso. eapply internal_not_region; eauto.
  - apply internal_props in H as (E1 & E2 & _). unfold bb_key. rewrite E1, E2. apply vis2_set_imm; auto.
  - apply internal_props in H as (E1 & E2 & _). unfold bb_key. rewrite E1, E2. apply visp_set_imm; auto.
Qed.
Lemma keeps_del a m k : keeps a m (bdel m k).
Proof. split; intros; apply bdel_forall; auto. Qed.
Lemma keeps_begin tr t a v m tr' m' : region_attr a = true \/ internal_attr a = true -> 12 <= at_id a -> handle_begin tr t a v m = HOk tr' m' -> keeps a m m'.
Proof.
  intros Ha H12. unfold handle_begin. destruct (asvalue a) eqn:Ea.
  - intro Z; injection Z as <- <-. pose proof (keeps_set a m (at_id a, v) Ha H12) as K. unfold bb_key in K. rewrite Ea in K. exact K.
  - destruct (get_child _ _ _ _ _) as [[[q|] tr1]|]; [|discriminate|discriminate]. destruct (mk_ref tr1 q) as [e|]; [|discriminate].
    intro Z; injection Z as <- <-. pose proof (keeps_set a m e Ha H12) as K. unfold bb_key in K. rewrite Ea in K. exact K.
Qed.
Lemma keeps_hset tr t a v m tr' m' : region_attr a = true \/ internal_attr a = true -> 12 <= at_id a -> handle_set tr t a v m = HOk tr' m' -> keeps a m m'.
Proof.
  intros Ha H12. unfold handle_set. destruct (asvalue a) eqn:Ea.
  - intro Z; injection Z as <- <-. pose proof (keeps_set a m (at_id a, v) Ha H12) as K. unfold bb_key in K. rewrite Ea in K. exact K.
  - destruct (replace_first_in_path _ _ _ _ _) as [[[q|] tr1]|]; [|discriminate|discriminate]. destruct (mk_ref tr1 q) as [e|]; [|discriminate].
    intro Z; injection Z as <- <-. pose proof (keeps_set a m e Ha H12) as K. unfold bb_key in K. rewrite Ea in K. exact K.
Qed.
Lemma keeps_end tr t a cur m tr' m' : region_attr a = true \/ internal_attr a = true -> 12 <= at_id a -> handle_end tr t a cur (bb_key a) m = HOk tr' m' -> keeps a m m'.
Proof.
  intros Ha H12. unfold handle_end. destruct (asvalue a) eqn:Ea.
  - intro Z; injection Z as <- <-. apply keeps_del.
  - destruct (fst cur) as [[i w0]|]; [|discriminate]. destruct (snd cur) as [[j0 v0]|]; [|discriminate].
    destruct (node_at _ i) as [nd|]; [|discriminate]. destruct (n_par nd) as [p|]; [|discriminate].
    destruct (p =? ROOT); [intro Z; injection Z as <- <-; apply keeps_del|].
    destruct (if i =? j0 then _ else _) as [[[q|] tr1]|]; [|discriminate|discriminate]. destruct (mk_ref tr1 q) as [e|]; [|discriminate].
    intro Z; injection Z as <- <-. apply keeps_set; auto.
Qed.
Lemma vis2_get s t a m' tr : region_attr a = true \/ internal_attr a = true -> vis2_st s -> keeps a (get_bb s t a) m' -> vis2_st (put_bb s t a tr m').
Proof.
  intros Ha (H1 & H2) (K1 & K2). unfold get_bb, put_bb in *. destruct (scope_of a) eqn:Es; split; cbn; auto.
  - intro u. unfold upd. destruct (u =? t); auto.
  - destruct Ha as [Ha|Ha]; auto. apply region_props in Ha as (E & _). congruence.
Qed.
Lemma vis2_fire s k t a v : vis2_st s -> vis2_st (fire s k t a v).
Proof. intro H. unfold fire. destruct (run_events a); auto. Qed.
Lemma vis2_step s t o s' x : vis2_st s -> rop_ok s o -> plain_op o -> rt_step s t o = SOk s' x -> vis2_st s'.
Proof.
  intros H Ho Hp E.
  assert (EC : forall s t a cur s3 y, vis2_st s -> region_attr a = true \/ internal_attr a = true -> 12 <= at_id a -> end_commit s t a cur = SOk s3 y -> vis2_st s3).
  { intros s0 t0 a cur s3 y H0 Ha H12. unfold end_commit. destruct (snd cur) as [[j0 v0]|] eqn:Ec; [|discriminate]. unfold commit.
    destruct (handle_end _ _ _ _ _ _) as [tr m|tr|] eqn:Eh; [|discriminate|discriminate]. intro Z; injection Z as <- <-.
    apply vis2_get; auto; [apply vis2_fire; auto|]. eapply keeps_end; eauto. }
  destruct o; cbn [rt_step] in E; cbn [plain_op] in Hp.
  - destruct Ho as (H12 & _). unfold rt_begin in E. destruct (r_err s t); [injection E as <- <-; auto|].
    cbn zeta in E. destruct (scope_of a) eqn:Es.
    3:{ injection E as <- <-. apply vis2_fire, vis2_fire; auto. }
    all: unfold commit in E; destruct (handle_begin _ _ _ _ _) as [tr m|tr|] eqn:Eh; [|discriminate|discriminate]; injection E as <- <-;
      apply vis2_fire; apply vis2_get; auto; [apply vis2_fire; auto|]; eapply keeps_begin; eauto.
  - destruct Ho as (H12 & _). unfold rt_end in E. destruct (r_err s t); [injection E as <- <-; auto|]. cbn zeta in E.
    destruct (scope_of a); try (destruct (snd (end_load s t a)) as [?|]; [exact (EC _ _ _ _ _ _ H Hp H12 E)|]); injection E as <- <-; auto.
  - destruct Ho as (H12 & _). unfold rt_end_check in E. destruct (r_err s t); [injection E as <- <-; auto|]. cbn zeta in E.
    destruct (scope_of a); try (destruct (snd (end_load s t a)) as [[? w]|]; [destruct (veqb v w); [exact (EC _ _ _ _ _ _ H Hp H12 E)|]|]); injection E as <- <-; auto.
  - destruct Ho as (H12 & _). unfold rt_set in E. destruct (r_err s t); [injection E as <- <-; auto|].
    cbn zeta in E. destruct (scope_of a) eqn:Es.
    3:{ injection E as <- <-. apply vis2_fire; auto. }
    all: unfold commit in E; destruct (handle_set _ _ _ _ _) as [tr m|tr|] eqn:Eh; [|discriminate|discriminate]; injection E as <- <-;
      apply vis2_get; auto; [apply vis2_fire; auto|]; eapply keeps_hset; eauto.
  - injection E as <- <-; auto.
  - injection E as <- <-; auto.
  - injection E as <- <-; auto.
  - destruct (TreeModel.tstep (r_tree s) t o) as [[? ?]|]; [|discriminate]. injection E as <- <-; auto.
Qed.
Lemma vis2_run ops : forall s s' xs, vis2_st s -> ops_ok s ops -> Forall (fun p => plain_op (snd p)) ops -> rt_run s ops = Some (s', xs) -> vis2_st s'.
Proof.
  induction ops as [|[t o] ops IH]; cbn [rt_run ops_ok]; intros s s' xs H Ho Hv E; [injection E as <- <-; auto|].
  destruct Ho as (Ho1 & Ho2). inversion Hv; subst. destruct (rt_step s t o) as [s1 x|?|] eqn:E1; [|discriminate|discriminate].
  destruct (rt_run s1 ops) as [[s2 ys]|] eqn:E2; [|discriminate]. injection E as <- <-. eapply IH; [|exact Ho2|exact H3|exact E2].
  eapply vis2_step; eauto.
Qed.
(* the visible entry of a thread is the region entry *)
Lemma vis2_visible m : NoDup (keys m) -> vis2 m -> bb_visible m = match bget m REGION_KEY with Some e => [e] | None => [] end.
Proof.
  intros Hn H. induction m as [|[k [[i v] b]] m IH]; [reflexivity|]. inversion Hn; subst. inversion H as [|? ? Hx Hm]; subst. cbn in Hx.
  assert (G : ~ In REGION_KEY (keys m) -> bb_visible m = []). { intro Z. rewrite IH by auto. rewrite bget_notin; auto. }
  destruct Hx as [(-> & ->)|(Hk & ->)].
  - cbn [bget]. rewrite N.eqb_refl. transitivity ((i, v) :: bb_visible m); [reflexivity|]. rewrite G; auto.
  - cbn [bget]. destruct (N.eqb_spec k REGION_KEY) as [Z|_]; [unfold REGION_KEY in Z; lia|]. transitivity (bb_visible m); [reflexivity|]. auto.
Qed.
Lemma visp_visible m : visp m -> bb_visible m = [].
Proof.
  intro H. unfold bb_visible. induction H as [|[k [[i v] b]] m (Hx & Hb) Hm IH]; [reflexivity|]. cbn in *. rewrite Hb. exact IH.
Qed.

(* ---- the tree keeps one node per path ---- *)
Lemma uniq_begin tr t a v m c tr' m' : inv tr -> bbrel tr m c -> attr_ok tr a -> handle_begin tr t a v m = HOk tr' m' -> uniq (t_nodes tr) -> uniq (t_nodes tr').
Proof.
  intros Hi Hb Ha E U. pose proof (attr_ok_ne _ _ Hi Ha) as Hne. unfold handle_begin in E. destruct (asvalue a); [injection E as <- <-; auto|].
  pose proof (br_lst _ _ _ a Hb) as Hr.
  destruct (get_child_yields tr t (at_id a) v (option_map fst (bget m (ref_key a))) (lst c a) Hi (ref_ptr _ _ _ Hi Hr) Hne (fun _ => ref_path _ _ _ Hr)) as (r & tr1 & E1 & Y1 & Y2 & Y3 & _).
  rewrite E1 in E. destruct r as [i|]; [|discriminate]. destruct (mk_ref tr1 i); [|discriminate]. injection E as <- <-. auto.
Qed.
Lemma uniq_hset tr t a v m c tr' m' : inv tr -> bbrel tr m c -> attr_ok tr a -> handle_set tr t a v m = HOk tr' m' -> uniq (t_nodes tr) -> uniq (t_nodes tr').
Proof.
  intros Hi Hb Ha E U. pose proof (attr_ok_ne _ _ Hi Ha) as Hne. unfold handle_set in E. destruct (asvalue a); [injection E as <- <-; auto|].
  pose proof (br_lst _ _ _ a Hb) as Hr.
  destruct (replace_first_yields tr t (option_map fst (bget m (ref_key a))) (at_id a) v (lst c a) Hi Hne (ref_ptr _ _ _ Hi Hr) (ref_path _ _ _ Hr)) as (r & tr1 & E1 & Y1 & Y2 & Y3 & _).
  rewrite E1 in E. destruct r as [i|]; [|discriminate]. destruct (mk_ref tr1 i); [|discriminate]. injection E as <- <-. auto.
Qed.
Lemma uniq_end tr t a m c cur tr' m' : inv tr -> bbrel tr m c -> attr_ok tr a -> fst cur = bget m (bb_key a) \/ fst cur = None -> handle_end tr t a cur (bb_key a) m = HOk tr' m' -> uniq (t_nodes tr) -> uniq (t_nodes tr').
Proof.
  intros Hi Hb Ha Hc E U. pose proof (attr_ok_ne _ _ Hi Ha) as Hne. unfold handle_end in E. destruct (asvalue a) eqn:Ea; [injection E as <- <-; auto|].
  unfold bb_key in Hc. rewrite Ea in Hc. pose proof (br_lst _ _ _ a Hb) as Hr.
  destruct (fst cur) as [[i w]|] eqn:Ef; [|discriminate]. destruct Hc as [Hc|Hc]; [|discriminate]. rewrite <- Hc in Hr.
  destruct (snd cur) as [[j v]|]; [|discriminate]. destruct (node_at tr i) as [n|]; [|discriminate]. destruct (n_par n) as [p|]; [|discriminate].
  destruct (p =? ROOT); [injection E as <- <-; auto|]. destruct (i =? j).
  - destruct (mk_ref tr p); [|discriminate]. injection E as <- <-; auto.
  - destruct (remove_first_yields tr t (Some i) (at_id a) (lst c a) Hi Hne (ref_ptr _ _ _ Hi Hr) (ref_path _ _ _ Hr)) as (r & tr1 & E1 & Y1 & Y2 & Y3 & _).
    rewrite E1 in E. destruct r as [q|]; [|discriminate]. destruct (mk_ref tr1 q); [|discriminate]. injection E as <- <-. auto.
Qed.
Lemma load_fst tr a k m : fst (load_current tr a k m) = bget m k \/ fst (load_current tr a k m) = None.
Proof.
  unfold load_current. destruct (_ =? _); [left; reflexivity|]. destruct (ent_get _ _ _); [|right; reflexivity]. destruct (_ =? _); [left|right]; reflexivity.
Qed.
Lemma put_uniq s t a tr m : uniq (t_nodes (r_tree s)) -> uniq (t_nodes tr) -> uniq (t_nodes (r_tree (put_bb s t a tr m))).
Proof. unfold put_bb. destruct (scope_of a); auto. Qed.
Lemma uniq_step s a t o s' x : rel s a -> rop_ok s o -> plain_op o -> rt_step s t o = SOk s' x -> uniq (t_nodes (r_tree s)) -> uniq (t_nodes (r_tree s')).
Proof.
  intros H Ho Hp E U.
  assert (EC : forall b s3 y, scope_of b <> ScOther -> attr_ok (r_tree s) b -> end_commit s t b (end_load s t b) = SOk s3 y -> uniq (t_nodes (r_tree s3))).
  { intros b s3 y Hs Hb. unfold end_commit. destruct (snd (end_load s t b)) as [[j0 v0]|] eqn:Ec; [|discriminate]. unfold commit.
    destruct (handle_end _ _ _ _ _ _) as [tr m|tr|] eqn:Eh; [|discriminate|discriminate]. intro Z; injection Z as <- <-.
    apply put_uniq; rewrite ?fire_tree; auto. rewrite fire_tree, fire_bb in Eh.
    eapply uniq_end; [apply H|apply (rel_bb _ _ t b H Hs)|exact Hb| |exact Eh|auto]. apply load_fst. }
  destruct o; cbn [rt_step] in E; cbn [plain_op] in Hp.
  - unfold rt_begin in E. destruct (r_err s t); [injection E as <- <-; auto|].
    cbn zeta in E. destruct (scope_of a0) eqn:Es.
    3:{ injection E as <- <-. rewrite !fire_tree; auto. }
    all: unfold commit in E; destruct (handle_begin _ _ _ _ _) as [tr m|tr|] eqn:Eh; [|discriminate|discriminate]; injection E as <- <-;
      rewrite fire_tree in *; rewrite fire_bb in Eh; apply put_uniq; rewrite ?fire_tree; auto;
      (eapply uniq_begin; [apply H| |exact Ho|exact Eh|auto]); apply (rel_bb _ _ t a0 H); congruence.
  - unfold rt_end in E. destruct (r_err s t); [injection E as <- <-; auto|]. cbn zeta in E.
    destruct (scope_of a0) eqn:Es; try (destruct (snd (end_load s t a0)) as [?|]; [apply (EC a0 s' x); auto; congruence|]); injection E as <- <-; auto.
  - unfold rt_end_check in E. destruct (r_err s t); [injection E as <- <-; auto|]. cbn zeta in E.
    destruct (scope_of a0) eqn:Es; try (destruct (snd (end_load s t a0)) as [[? w]|]; [destruct (veqb v w); [apply (EC a0 s' x); auto; congruence|]|]); injection E as <- <-; auto.
  - unfold rt_set in E. destruct (r_err s t); [injection E as <- <-; auto|].
    cbn zeta in E. destruct (scope_of a0) eqn:Es.
    3:{ injection E as <- <-. rewrite !fire_tree; auto. }
    all: unfold commit in E; destruct (handle_set _ _ _ _ _) as [tr m|tr|] eqn:Eh; [|discriminate|discriminate]; injection E as <- <-;
      rewrite fire_tree in *; rewrite fire_bb in Eh; apply put_uniq; rewrite ?fire_tree; auto;
      (eapply uniq_hset; [apply H| |exact Ho|exact Eh|auto]); apply (rel_bb _ _ t a0 H); congruence.
  - injection E as <- <-; auto.
  - injection E as <- <-; auto.
  - injection E as <- <-; auto.
  - destruct Ho as (Ho1 & Ho2). destruct (tstep_inv (r_tree s) t o (rl_inv _ _ H) Ho1 Ho2) as (r & s1 & E1 & _ & _ & U1). rewrite E1 in E. injection E as <- <-. cbn.
    apply U1; auto.
Qed.

Lemma history_ok ops s xs : rt_history ops s xs -> Forall (fun p => plain_op (snd p)) ops ->
  exists a, rel s a /\ vis2_st s /\ uniq (t_nodes (r_tree s)) /\ NoDup (r_act s) /\ not_full (r_tree s).
Proof.
  intros (npb & nblk & t0 & tr & Hc & Hi & Ho & Hr & Hnf) Hp. destruct (init_inv _ _ _ _ Hc Hi) as (I1 & I2).
  assert (G : forall ops s a s' xs, rel s a -> ops_ok s ops -> Forall (fun p => plain_op (snd p)) ops -> rt_run s ops = Some (s', xs) -> not_full (r_tree s') -> uniq (t_nodes (r_tree s)) -> uniq (t_nodes (r_tree s'))).
  { clear. induction ops as [|[t o] ops IH]; cbn [rt_run ops_ok]; intros s a s' xs H Ho Hp E Hnf U; [injection E as <- <-; auto|].
    destruct Ho as (Ho1 & Ho2). inversion Hp; subst. destruct (rt_step s t o) as [s1 x|?|] eqn:E1; [|discriminate|discriminate].
    destruct (rt_run s1 ops) as [[s2 ys]|] eqn:E2; [|discriminate]. injection E as <- <-.
    pose proof (step_sim s a t o H Ho1) as Hs. rewrite E1 in Hs. destruct Hs as (_ & Hs). destruct (Hs (mono_nf _ _ (run_mono _ _ _ _ E2) Hnf)) as (_ & R & _).
    refine (IH s1 _ s2 ys R Ho2 _ E2 Hnf _); [assumption|]. refine (uniq_step _ _ _ _ _ _ H Ho1 _ E1 U). assumption. }
  pose proof (rel_init _ I1) as R0. destruct (run_sim ops _ _ _ _ R0 Ho Hr Hnf) as (_ & R & _). eexists. split; [exact R|]. split; [|split; [|split; [|exact Hnf]]].
  - eapply vis2_run; [|exact Ho|exact Hp|exact Hr]. split; cbn; intros; constructor.
  - exact (G ops _ _ _ _ R0 Ho Hp Hr Hnf I2).
  - rewrite (rl_act _ _ R). apply run_act. constructor.
Qed.

(* ---- callbacks of a call ---- *)
Definition evs_of (k : evk) (t : N) (b : attr) (v : value) (ctx : list (N * value)) (act : list N) : list ev := map (fun c => mkev k c t (at_id b) v ctx) act.
(* kind of the callback of a region call *)
Definition kind_of (o : rop) : evk := match o with OBegin _ _ => PreBegin | OSet _ _ => PreSet | _ => PreEnd end.
Lemma a_step_quiet a t o : plain_op o -> moves o = false -> 
  a_log (fst (a_step a t o)) = a_log a /\ (forall u, c_reg (a_thr (fst (a_step a t o)) u) = c_reg (a_thr a u)).
Proof.
  intros Hp Hm.
  assert (F : forall b s k v, internal_attr b = true -> a_fire s k t b v = s). { intros b s k v Hb. unfold a_fire. apply internal_props in Hb as (_ & _ & ->). reflexivity. }
  assert (P : forall s b c, (forall t0, c_reg (c t0) = c_reg (a_thr s t0)) -> a_log (a_put s t b (c t)) = a_log s /\ forall u, c_reg (a_thr (a_put s t b (c t)) u) = c_reg (a_thr s u)).
  { intros s b c Hc. unfold a_put. destruct (scope_of b); cbn; auto. split; auto. intro u. unfold upd. destruct (N.eqb_spec u t); auto. subst; auto. }
  assert (CL : forall b ok, internal_attr b = true -> a_log (fst (a_close a t b ok)) = a_log a /\ forall u, c_reg (a_thr (fst (a_close a t b ok)) u) = c_reg (a_thr a u)).
  { intros b ok Hb. unfold a_close. destruct (a_err a t); [auto|]. destruct (is_other b) eqn:Eo; [auto|]. destruct (c_open (a_ctx a t b) b) as [w|]; [|auto].
    destruct (ok w); [|auto]. cbn [fst]. rewrite !F by auto. unfold a_put, a_ctx. unfold c_end. destruct (internal_props _ Hb) as (-> & _). unfold is_other in Eo.
    destruct (scope_of b); cbn; auto. split; auto. intro u. unfold upd. destruct (N.eqb_spec u t); subst; auto. }
  destruct o; cbn [moves plain_op] in *; try (split; [reflexivity|intro; reflexivity]).
  - destruct Hp as [Hp|Hp]; [congruence|]. cbn [a_step]. destruct (a_err a t); [auto|]. cbn [fst]. rewrite !F by auto. unfold c_begin. destruct (internal_props _ Hp) as (-> & _).
    unfold a_put, a_ctx. destruct (scope_of a0); cbn; auto. split; auto. intro u. unfold upd. destruct (N.eqb_spec u t); subst; auto.
  - destruct Hp as [Hp|Hp]; [congruence|]. apply CL; auto.
  - destruct Hp as [Hp|Hp]; [congruence|]. apply CL; auto.
  - destruct Hp as [Hp|Hp]; [congruence|]. cbn [a_step]. destruct (a_err a t); [auto|]. cbn [fst]. rewrite !F by auto. unfold c_set. destruct (internal_props _ Hp) as (-> & _).
    unfold a_put, a_ctx. destruct (scope_of a0); cbn; auto. split; auto. intro u. unfold upd. destruct (N.eqb_spec u t); subst; auto.
Qed.
(* calls of a thread with a stack error, and calls that raise one, do nothing *)
Lemma a_step_err a t o : moves o = true -> (a_err a t = true \/ a_err (fst (a_step a t o)) t = true) ->
  a_log (fst (a_step a t o)) = a_log a /\ (forall u, c_reg (a_thr (fst (a_step a t o)) u) = c_reg (a_thr a u)).
Proof.
  intros Hm H. destruct (a_err a t) eqn:Ee.
  - destruct o; cbn [moves] in Hm; try discriminate; cbn [a_step]; unfold a_close; rewrite Ee; auto.
  - destruct H as [H|H]; [discriminate|].
    assert (CL : forall b ok, a_err (fst (a_close a t b ok)) t = true -> a_log (fst (a_close a t b ok)) = a_log a /\ forall u, c_reg (a_thr (fst (a_close a t b ok)) u) = c_reg (a_thr a u)).
    { intros b ok. unfold a_close. rewrite Ee. destruct (is_other b); [cbn; congruence|]. destruct (c_open _ b) as [w|]; [|auto]. destruct (ok w); [|auto].
      cbn [fst]. rewrite put_err, fire_err. congruence. }
    destruct o; cbn [moves] in Hm; try discriminate; cbn [a_step] in *; auto.
    + rewrite Ee in H. cbn [fst] in H. rewrite fire_err, put_err, fire_err in H. congruence.
    + rewrite Ee in H. cbn [fst] in H. rewrite put_err, fire_err in H. congruence.
Qed.
Lemma a_put_thr s t a c : scope_of a = ScThread -> a_thr (a_put s t a c) = upd (a_thr s) t c.
Proof. unfold a_put. intros ->. reflexivity. Qed.
Lemma last_is_split k l : last_is k l = true -> exists l' v, l = l' ++ [(k, v)].
Proof.
  unfold last_is. intro H. destruct (rev l) as [|[b v] r] eqn:E; [discriminate|]. apply N.eqb_eq in H. subst b. exists (rev r), v.
  rewrite <- (rev_involutive l), E. reflexivity.
Qed.
Lemma a_step_region a t o : moves o = true -> a_err a t = false -> a_err (fst (a_step a t o)) t = false ->
  exists b v ctx1 ctx2, op_attr o = Some b /\ region_attr b = true /\
    a_log (fst (a_step a t o)) = a_log a ++ evs_of (kind_of o) t b v ctx1 (a_act a) ++ (if is_end o then [] else match o with OBegin _ _ => evs_of PostBegin t b v ctx2 (a_act a) | _ => [] end) /\
    (forall u, c_reg (a_thr (fst (a_step a t o)) u) = if u =? t then after (c_reg (a_thr a t)) o else c_reg (a_thr a u)) /\
    a_act (fst (a_step a t o)) = a_act a.
Proof.
  intros Hm Ee Ee'.
  assert (CL : forall b ok, region_attr b = true -> a_err (fst (a_close a t b ok)) t = false -> exists v ctx1,
     a_log (fst (a_close a t b ok)) = a_log a ++ evs_of PreEnd t b v ctx1 (a_act a) /\
     (forall u, c_reg (a_thr (fst (a_close a t b ok)) u) = if u =? t then removelast (c_reg (a_thr a t)) else c_reg (a_thr a u)) /\ a_act (fst (a_close a t b ok)) = a_act a).
  { intros b ok Hb. destruct (region_props _ Hb) as (P1 & P2 & P3 & P4 & P5). unfold a_close. rewrite Ee. unfold is_other. rewrite P1.
    assert (Ec : a_ctx a t b = a_thr a t) by (unfold a_ctx; rewrite P1; reflexivity). destruct (c_open (a_ctx a t b) b) as [w|] eqn:Eo; [|cbn; unfold upd; rewrite N.eqb_refl; discriminate].
    destruct (ok w) eqn:Eok; [|cbn; unfold upd; rewrite N.eqb_refl; discriminate]. intros _. cbn [fst]. exists w, (c_see (a_ctx a t b) b).
    rewrite put_log, put_act, fire_act, fire_ctx. unfold a_fire. rewrite P5. cbn [a_log]. split; [reflexivity|]. split; [|reflexivity].
    intro u. rewrite a_put_thr by auto. cbn [a_thr]. unfold upd. destruct (u =? t); [|reflexivity]. rewrite Ec in *.
    unfold c_end. rewrite P2. unfold with_lst, lst. rewrite P3. cbn [c_reg]. unfold c_open in Eo. rewrite P2, P3 in Eo.
    destruct (last_is (at_id b) (c_reg (a_thr a t))) eqn:El; [|discriminate]. apply last_is_split in El as (l' & v & El). rewrite El, removelast_last. apply last_is_rm. exact l'. }
  destruct o; cbn [moves] in Hm; try discriminate; cbn [a_step kind_of is_end op_attr after] in *.
  - destruct (region_props _ Hm) as (P1 & P2 & P3 & P4 & P5). rewrite Ee in *. cbn [fst] in *. 
    eexists a0, v, _, _. split; [reflexivity|]. split; [exact Hm|]. split; [|split].
    + unfold a_fire at 1. rewrite P5. cbn [a_log]. rewrite put_log. unfold a_fire at 1. rewrite P5. cbn [a_log]. rewrite <- app_assoc.
      rewrite put_act, fire_act. reflexivity.
    + intro u. rewrite fire_thr, a_put_thr by auto. rewrite fire_thr. unfold upd. destruct (u =? t); [|reflexivity]. rewrite fire_ctx. unfold a_ctx. rewrite P1.
      unfold c_begin. rewrite P2. unfold with_lst, lst. rewrite P3. reflexivity.
    + rewrite fire_act, put_act, fire_act. reflexivity.
  - destruct (CL a0 (fun _ => true) Hm Ee') as (v & ctx1 & L1 & L2 & L3). exists a0, v, ctx1, ctx1. split; [reflexivity|]. split; [exact Hm|]. rewrite app_nil_r. auto.
  - destruct (CL a0 (veqb v) Hm Ee') as (w & ctx1 & L1 & L2 & L3). exists a0, w, ctx1, ctx1. split; [reflexivity|]. split; [exact Hm|]. rewrite app_nil_r. auto.
  - destruct (region_props _ Hm) as (P1 & P2 & P3 & P4 & P5). rewrite Ee in *. cbn [fst] in *. 
    eexists a0, v, _, []. split; [reflexivity|]. split; [exact Hm|]. split; [|split].
    + rewrite put_log. unfold a_fire. rewrite P5. cbn [a_log]. rewrite app_nil_r. reflexivity.
    + intro u. rewrite a_put_thr by auto. rewrite fire_thr. unfold upd. destruct (u =? t); [|reflexivity]. rewrite fire_ctx. unfold a_ctx. rewrite P1.
      unfold c_set. rewrite P2. unfold with_lst, lst. rewrite P3. reflexivity.
    + rewrite put_act, fire_act. reflexivity.
Qed.
