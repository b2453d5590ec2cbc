(* C83: the tracer's tables mirror MPI's requests and communicators *)
From Verif Require Import Base MsgTraceModel MsgTraceSpec.
From Coq Require Import ZArith.
Open Scope Z_scope.

Lemma find_put {A} k (a : A) l : find k (put k a l) = Some a.
Proof. unfold put. cbn [find]. rewrite Z.eqb_refl. reflexivity. Qed.
Lemma find_del {A} k (l : list (Z * A)) : find k (del k l) = None.
Proof. induction l as [|(k', a) l IH]; cbn [del filter fst]; auto. destruct (Z.eqb_spec k' k); cbn [negb]; auto. cbn [find]. destruct (Z.eqb_spec k' k); [contradiction|]. exact IH. Qed.
Lemma find_del_o {A} k k' (l : list (Z * A)) : k <> k' -> find k (del k' l) = find k l.
Proof.
  intro H. induction l as [|(k2, a) l IH]; cbn [del filter fst]; auto. destruct (Z.eqb_spec k2 k') as [->|E]; cbn [negb find].
  - destruct (Z.eqb_spec k' k); [congruence|]. exact IH.
  - destruct (Z.eqb_spec k2 k); auto.
Qed.
Lemma find_put_o {A} k k' (a : A) l : k <> k' -> find k (put k' a l) = find k l.
Proof. intro H. unfold put. cbn [find]. destruct (Z.eqb_spec k' k); [congruence|]. apply find_del_o. exact H. Qed.
Lemma find_in {A} k (a : A) l : find k l = Some a -> In (k, a) l.
Proof. induction l as [|(k', b) l IH]; cbn [find]; [discriminate|]. destruct (Z.eqb_spec k' k) as [->|]; intro H; [injection H as ->; left; auto|right; auto]. Qed.
Lemma i32_id z : int_ok z -> i32 z = z.
Proof. unfold int_ok, i32. intro H. rewrite Z.mod_small; lia. Qed.

Section MPI.
Context (tysz : Z -> Z).
Notation bytes := (bytes tysz).

Definition matches (L : list (nat * nat)) (r : req) (i : rinfo) : Prop :=
  ri_send i = negb (rq_recv r) /\ ri_pers i = rq_pers r /\ shows_comm L (rq_comm r) (ri_node i) /\
  (rq_recv r = false -> ri_target i = rq_peer r /\ ri_tag i = rq_tag r /\ ri_size i = rq_bytes r) /\ (rq_recv r = true -> ri_type i = rq_ty r).
Definition req_inv (L : list (nat * nat)) (o : option req) (i : option rinfo) : Prop :=
  match o with
  | None => i = None
  | Some r => if rq_pers r || rq_recv r then exists x, i = Some x /\ matches L r x else i = None
  end.
(* sends are started to real peers only *)
Definition req_ok (r : req) : Prop := rq_recv r = false -> rq_peer r <> MPI_PROC_NULL.
Record inv (w : world) (t : tr) (L : list (nat * nat)) : Prop := mkinv {
  i_u : NoDup (map fst L); i_n : NoDup (map snd L); i_lt : Forall (fun p => (snd p < t_next t)%nat) L;
  i_on : t_on t = true;
  i_known : forall c n cm, find c (t_comms t) = Some n -> find c (w_comms w) = Some cm -> shows_comm L cm n;
  i_new : forall c cm, find c (t_comms t) = None -> find c (w_comms w) = Some cm -> ~ In (cm_uid cm) (map fst L);
  i_old : forall c cm, find c (w_comms w) = Some cm -> In (c, cm_uid cm) (w_old w);
  i_L : forall u, In u (map fst L) -> In u (map snd (w_old w));
  i_dist : forall c c' cm cm', find c (w_comms w) = Some cm -> find c' (w_comms w) = Some cm' -> cm_uid cm = cm_uid cm' -> c = c';
  i_used : forall c n, find c (t_comms t) = Some n -> In c (map fst (w_old w));
  i_req : forall h, req_inv L (find h (w_reqs w)) (find h (t_reqs t));
  i_ok : forall h r, find h (w_reqs w) = Some r -> req_ok r }.

Lemma shows_incl L L' cm n : incl L L' -> shows_comm L cm n -> shows_comm L' cm n.
Proof. intros H (A & B & C). split; auto. Qed.
Lemma matches_incl L L' r i : incl L L' -> matches L r i -> matches L' r i.
Proof. intros H (A & B & C & D). split; auto. split; auto. split; auto. eapply shows_incl; eauto. Qed.
Lemma req_incl L L' o i : incl L L' -> req_inv L o i -> req_inv L' o i.
Proof. intros H. destruct o as [r|]; cbn [req_inv]; auto. destruct (rq_pers r || rq_recv r); auto. intros (x & E & M). exists x. split; auto. eapply matches_incl; eauto. Qed.

Lemma lookup_ok w t L c cm n t1 : inv w t L -> find c (w_comms w) = Some cm -> lookup_comm t c cm = (n, t1) ->
  exists L', incl L L' /\ inv w t1 L' /\ shows_comm L' cm n.
Proof.
  intros I Hc H. unfold lookup_comm in H. destruct (find c (t_comms t)) as [n0|] eqn:E.
  - injection H as <- <-. exists L. split; [apply incl_refl|]. split; auto. eapply i_known; eauto.
  - unfold make_comm_entry in H. cbn [t_next t_comms t_reqs t_on] in H. injection H as <- <-.
    set (L' := (cm_uid cm, t_next t) :: L). assert (HL : incl L L') by (intros x Hx; right; auto).
    assert (Hs : shows_comm L' cm (mkcn (cm_size cm) (cm_ranks cm) (t_next t))) by (split; [reflexivity|split; [reflexivity|left; reflexivity]]).
    exists L'. split; auto. split; auto. destruct I as [u nn lt on kn nw old iL dist used rq ok]. constructor; cbn [t_next t_comms t_reqs t_on].
    + constructor; auto. apply (nw c cm); auto.
    + constructor; auto. intro X. apply in_map_iff in X as (p & Ep & Hp). rewrite Forall_forall in lt. specialize (lt p Hp). cbn [snd] in Ep. lia.
    + constructor; [cbn [snd]; lia|]. eapply Forall_impl; [|exact lt]. cbn beta. intros p Hp. lia.
    + exact on.
    + intros c' n' cm' H1 H2. destruct (Z.eq_dec c' c) as [->|Ne].
      * rewrite find_put in H1. injection H1 as <-. rewrite Hc in H2. injection H2 as <-. exact Hs.
      * rewrite find_put_o in H1 by auto. eapply shows_incl; [exact HL|]. eapply kn; eauto.
    + intros c' cm' H1 H2. destruct (Z.eq_dec c' c) as [->|Ne]; [rewrite find_put in H1; discriminate|]. rewrite find_put_o in H1 by auto.
      intros [X|X]; [apply Ne; apply (dist c' c cm' cm); auto|]. exact (nw c' cm' H1 H2 X).
    + exact old.
    + intros x [<-|X]; [apply in_map_iff; exists (c, cm_uid cm); split; auto|auto].
    + exact dist.
    + intros c' n' H1. destruct (Z.eq_dec c' c) as [->|Ne]; [apply in_map_iff; exists (c, cm_uid cm); split; auto|]. rewrite find_put_o in H1 by auto. eapply used; eauto.
    + intro h. eapply req_incl; [exact HL|]. apply rq.
    + exact ok.
Qed.
Lemma put_req w t L h r i : inv w t L -> req_inv L (Some r) (Some i) -> rq_pers r || rq_recv r = true -> req_ok r -> inv (with_reqs w (put h r (w_reqs w))) (set_req t h i) L.
Proof.
  intros I Hr Hp Hk. destruct I as [u nn lt on kn nw old iL dist used rq ok]. constructor; cbn [with_reqs set_req w_comms w_old w_reqs t_next t_comms t_reqs t_on]; auto; intros h'; (destruct (Z.eq_dec h' h) as [->|Ne]; [rewrite !find_put|rewrite !find_put_o by auto]); auto.
  - intros r0 E. injection E as <-. exact Hk.
  - apply ok.
Qed.
Lemma put_isend w t L h r : inv w t L -> find h (w_reqs w) = None -> rq_pers r || rq_recv r = false -> req_ok r -> inv (with_reqs w (put h r (w_reqs w))) t L.
Proof.
  intros I Hf Hp Hk. destruct I as [u nn lt on kn nw old iL dist used rq ok]. constructor; cbn [with_reqs w_comms w_old w_reqs]; auto; intros h'; (destruct (Z.eq_dec h' h) as [->|Ne]; [rewrite !find_put|rewrite !find_put_o by auto]); auto.
  - cbn [req_inv]. rewrite Hp. assert (X := rq h). rewrite Hf in X. exact X.
  - intros r0 E. injection E as <-. exact Hk.
  - apply ok.
Qed.
(* the activity of a request is not in the tracer's tables *)
Lemma put_active w t L h r a : inv w t L -> find h (w_reqs w) = Some r -> inv (with_reqs w (put h (mkreq (rq_recv r) (rq_pers r) a (rq_peer r) (rq_tag r) (rq_bytes r) (rq_ty r) (rq_comm r)) (w_reqs w))) t L.
Proof.
  intros I Hf. destruct I as [u nn lt on kn nw old iL dist used rq ok]. constructor; cbn [with_reqs w_comms w_old w_reqs]; auto; intros h'; (destruct (Z.eq_dec h' h) as [->|Ne]; [rewrite !find_put|rewrite !find_put_o by auto]); auto.
  - assert (X := rq h). rewrite Hf in X. exact X.
  - intros r0 E. injection E as <-. intro Hs. exact (ok h r Hf Hs).
  - apply ok.
Qed.
Lemma del_both w t L h : inv w t L -> inv (with_reqs w (del h (w_reqs w))) (del_req t h) L.
Proof.
  intros I. destruct I as [u nn lt on kn nw old iL dist used rq ok]. constructor; cbn [with_reqs del_req w_comms w_old w_reqs t_next t_comms t_reqs t_on]; auto; intros h'; (destruct (Z.eq_dec h' h) as [->|Ne]; [rewrite !find_del|rewrite !find_del_o by auto]); auto.
  - reflexivity.
  - discriminate.
  - apply ok.
Qed.
Lemma del_isend w t L h r : inv w t L -> find h (w_reqs w) = Some r -> rq_pers r || rq_recv r = false -> inv (with_reqs w (del h (w_reqs w))) t L.
Proof.
  intros I Hf Hp. destruct I as [u nn lt on kn nw old iL dist used rq ok]. constructor; cbn [with_reqs w_comms w_old w_reqs]; auto; intros h'; (destruct (Z.eq_dec h' h) as [->|Ne]; [rewrite !find_del|rewrite !find_del_o by auto]); auto.
  - cbn [req_inv]. assert (X := rq h). rewrite Hf in X. cbn [req_inv] in X. rewrite Hp in X. exact X.
  - discriminate.
  - apply ok.
Qed.
Lemma count_ok ty st : whole tysz ty st -> int_ok (st_bytes st) -> i32 (tysz ty * get_count tysz st ty) = st_bytes st.
Proof.
  intros (H0 & H1 & H2) Hi. unfold get_count. destruct (Z.eqb_spec (tysz ty) 0) as [E|E].
  - rewrite Z.mul_0_r, (H1 E). reflexivity.
  - specialize (H2 E). rewrite H2. cbn [Z.eqb]. rewrite <- (Z_div_exact_2 (st_bytes st) (tysz ty)) by lia. apply i32_id. exact Hi.
Qed.
Lemma real_id p m : p <> MPI_PROC_NULL -> real p m = [m].
Proof. intro H. unfold real. destruct (Z.eqb_spec p MPI_PROC_NULL); [contradiction|reflexivity]. Qed.

Definition both (L : list (nat * nat)) (w : world * list msg) (t : tr * list event) : Prop := inv (fst w) (fst t) L /\ Forall2 (shows L) (snd w) (snd t).
Lemma complete1_ok w t L h st : inv w t L ->
  (forall r, find h (w_reqs w) = Some r -> rq_recv r = true -> whole tysz (rq_ty r) st) -> (forall r, find h (w_reqs w) = Some r -> rq_recv r = true -> rq_active r = true /\ st_src st <> MPI_PROC_NULL) ->
  Forall small (snd (done1 w h st)) -> both L (done1 w h st) (complete1 tysz t h st).
Proof.
  intros I Hw Ha Hs. assert (R := i_req _ _ _ I h). unfold both, done1, complete1 in *. destruct (find h (w_reqs w)) as [r|] eqn:E; cbn [req_inv fst snd] in *.
  - destruct (rq_pers r || rq_recv r) eqn:Ep.
    + destruct R as (i & Ei & M). rewrite Ei. destruct M as (Ms & Mp & Mc & M1 & M2). cbn [fst snd]. rewrite Mp. split.
      * destruct (rq_pers r) eqn:Epp; [assert (X := put_active w t L h r false I E); rewrite Epp in X; exact X|apply del_both; exact I].
      * rewrite Ms. destruct (rq_recv r) eqn:Er; cbn [negb andb]; [|constructor]. destruct (Ha r eq_refl Er) as (Hact & Hn). rewrite Hact in *. cbn [andb] in *. rewrite real_id in * by auto. apply Forall_cons_iff in Hs as (Hs & _). cbn [small] in Hs.
        constructor; [|constructor]. unfold recv_event. rewrite (M2 eq_refl), count_ok; auto. constructor. exact Mc.
    + rewrite R. apply orb_false_iff in Ep as Ep2. destruct Ep2 as (E1 & E2). rewrite E1, E2. cbn [andb fst snd]. split; [eapply del_isend; eauto|constructor].
  - rewrite R. split; [exact I|constructor].
Qed.
Lemma complete_ok w t L l : inv w t L -> completions (fun r st => whole tysz (rq_ty r) st) w l -> completions (fun r st => rq_active r = true /\ st_src st <> MPI_PROC_NULL) w l ->
  Forall small (snd (done w l)) -> both L (done w l) (complete tysz t l).
Proof.
  revert w t. induction l as [|(h, st) l IH]; intros w t I H1 H2 Hs; cbn [done complete completions] in *.
  - split; [exact I|constructor].
  - destruct H1 as (H1 & H1'), H2 as (H2 & H2'). assert (X := complete1_ok w t L h st I H1 H2). destruct (done1 w h st) as (w1, m1) eqn:E1, (complete1 tysz t h st) as (t1, e1) eqn:E2. cbn [fst snd] in *.
    assert (Y := IH w1 t1). destruct (done w1 l) as (w2, m2) eqn:E3, (complete tysz t1 l) as (t2, e2) eqn:E4. cbn [fst snd] in *. apply Forall_app in Hs as (Hs1 & Hs2). destruct (X Hs1) as (I1 & F1). destruct (Y I1 H1' H2' Hs2) as (I2 & F2). cbn [fst snd] in *.
    split; [exact I2|]. apply Forall2_app; auto.
Qed.
Lemma started_ok w t L hs : inv w t L -> Forall (fun h => exists r, find h (w_reqs w) = Some r /\ rq_pers r = true) hs -> both L (started w hs) (t, flat_map (start1 t) hs).
Proof.
  revert w. induction hs as [|h hs IH]; intros w I F; cbn [started flat_map].
  - split; [exact I|constructor].
  - apply Forall_cons_iff in F as ((r & Er & Hp) & F). rewrite Er. set (w1 := with_reqs w _). assert (I1 : inv w1 t L) by (apply put_active; auto).
    assert (F1 : Forall (fun h => exists r, find h (w_reqs w1) = Some r /\ rq_pers r = true) hs).
    { eapply Forall_impl; [|exact F]. cbn beta. intros h' (r' & Er' & Hp'). subst w1. cbn [with_reqs w_reqs]. destruct (Z.eq_dec h' h) as [->|Ne]; [rewrite find_put; eexists; split; [reflexivity|]; exact Hp|rewrite find_put_o by auto; eauto]. }
    specialize (IH w1 I1 F1). destruct (started w1 hs) as (w2, m2). cbn [fst snd] in *. destruct IH as (I2 & F2). cbn [fst snd] in *. split; [exact I2|]. cbn [fst snd]. apply Forall2_app; auto.
    assert (R := i_req _ _ _ I h). rewrite Er in R. cbn [req_inv] in R. rewrite Hp in R. cbn [orb] in R. destruct R as (i & Ei & Ms & Mp & Mc & M1 & M2). unfold start1. rewrite Ei, Ms. destruct (rq_recv r) eqn:Err; cbn [negb]; [constructor|].
    destruct (M1 eq_refl) as (-> & -> & ->). rewrite real_id by (apply (i_ok _ _ _ I h r Er Err)). constructor; [|constructor]. constructor. exact Mc.
Qed.
Lemma arr_combine {A B} (l : list A) (m : list B) : length l = length m -> arr l m = Some (combine l m).
Proof. intro H. unfold arr. rewrite H, Nat.eqb_refl. reflexivity. Qed.
Lemma at_all_nth (hs : list Z) idx : Forall (fun i => (i < length hs)%nat) idx -> at_all hs idx = Some (map (fun i => nth i hs 0) idx).
Proof. induction 1 as [|i idx Hi F IH]; cbn [at_all map]; auto. rewrite (nth_error_nth' hs 0 Hi), IH. reflexivity. Qed.
Lemma at_all_map {A} (l : list A) idx idx' : map (nth_error l) idx = map (nth_error l) idx' -> at_all l idx = at_all l idx'.
Proof. revert idx'. induction idx as [|i idx IH]; intros [|j idx'] H; cbn [map] in H; try discriminate H; auto. injection H as H1 H2. cbn [at_all]. rewrite H1, (IH _ H2). reflexivity. Qed.
Lemma at_all_seq {A} (l : list A) k : (k <= length l)%nat -> at_all l (seq 0 k) = Some (firstn k l).
Proof.
  intro H. assert (G : forall m j, (j + m <= length l)%nat -> at_all l (seq j m) = Some (firstn m (skipn j l))).
  { induction m as [|m IH]; intros j Hj; cbn [seq at_all]; auto. rewrite IH by lia. destruct (nth_error l j) as [a|] eqn:E; [|apply nth_error_None in E; lia].
    assert (S : skipn j l = a :: skipn (S j) l). { clear - E. revert l E. induction j as [|j IH]; intros [|b l] E; try discriminate E; cbn [nth_error] in E; [injection E as ->; reflexivity|]. cbn [skipn] in *. apply IH. exact E. }
    rewrite S. reflexivity. }
  rewrite G by lia. reflexivity.
Qed.
Lemma combine_firstn_r {A B} (l : list A) (m : list B) : combine l (firstn (length l) m) = combine l m.
Proof. revert m. induction l as [|a l IH]; intros [|b m]; cbn [length firstn combine]; auto. rewrite IH. reflexivity. Qed.
Lemma nth_err (hs : list Z) i : (i < length hs)%nat -> nth_error hs i = Some (nth i hs 0).
Proof. apply nth_error_nth'. Qed.
Lemma complete_one t h st : complete tysz t [(h, st)] = complete1 tysz t h st.
Proof. cbn [complete]. destruct (complete1 tysz t h st) as (t1, e1). rewrite app_nil_r. reflexivity. Qed.

(* a call that looks up a communicator and pushes events that show the messages *)
Lemma comm_call w t L c (k : cnode -> comm -> tr -> option (tr * list event)) (f : comm -> list msg) : inv w t L -> find c (w_comms w) <> None ->
  (forall L' n cm t1, find c (w_comms w) = Some cm -> incl L L' -> inv w t1 L' -> shows_comm L' cm n -> exists t2 ev, k n cm t1 = Some (t2, ev) /\ both L' (w, f cm) (t2, ev)) ->
  exists L' t' ev, on_comm (w_comms w) t c k = Some (t', ev) /\ incl L L' /\ both L' (w, with_comm w c f) (t', ev).
Proof.
  intros I Hc H. unfold on_comm, with_comm. destruct (find c (w_comms w)) as [cm|] eqn:E; [|congruence]. destruct (lookup_comm t c cm) as (n, t1) eqn:El.
  destruct (lookup_ok w t L c cm n t1 I E El) as (L' & HL & I1 & Hs). destruct (H L' n cm t1 eq_refl HL I1 Hs) as (t2 & ev & Ek & B). eauto 8.
Qed.
Lemma req_call w t L c h i (r : comm -> req) ms mse : inv w t L -> find c (w_comms w) <> None -> find h (w_reqs w) = None ->
  (forall L' n cm t1, find c (w_comms w) = Some cm -> inv w t1 L' -> shows_comm L' cm n -> inv (with_reqs w (put h (r cm) (w_reqs w))) (i t1 n) L' /\ Forall2 (shows L') (ms cm) (mse n)) ->
  exists L' t' ev, on_comm (w_comms w) t c (fun n _ t => Some (i t n, mse n)) = Some (t', ev) /\ incl L L' /\ both L' (new_req w h c r, with_comm w c ms) (t', ev).
Proof.
  intros I Hc Hf H. unfold on_comm, with_comm, new_req. destruct (find c (w_comms w)) as [cm|] eqn:E; [|congruence]. destruct (lookup_comm t c cm) as (n, t1) eqn:El.
  destruct (lookup_ok w t L c cm n t1 I E El) as (L' & HL & I1 & Hs). destruct (H L' n cm t1 eq_refl I1 Hs) as (I2 & F2). exists L', (i t1 n), (mse n). split; auto. split; auto. split; auto.
Qed.
End MPI.
