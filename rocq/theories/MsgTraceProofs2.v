(* C83: one call of the process: the tracer's step against MPI's *)
From Verif Require Import Base MsgTraceModel MsgTraceSpec MsgTraceProofs.
From Coq Require Import ZArith.
Open Scope Z_scope.

Section MPI.
Context (tysz : Z -> Z).
Notation bytes := (bytes tysz).

Lemma lib_world w x : lib_step (w_comms w) x = w_comms (fst (mpi tysz w x)).
Proof.
  assert (D : forall l w, w_comms (fst (done w l)) = w_comms w).
  { induction l as [|(h, st) l IH]; intro w0; cbn [done fst]; auto. assert (X : w_comms (fst (done1 w0 h st)) = w_comms w0) by (unfold done1; destruct (find h (w_reqs w0)) as [r|]; cbn [fst with_reqs w_comms]; reflexivity).
    destruct (done1 w0 h st) as (w1, m1). specialize (IH w1). destruct (done w1 l) as (w2, m2). cbn [fst] in *. congruence. }
  assert (St : forall l w, w_comms (fst (started w l)) = w_comms w).
  { induction l as [|h l IH]; intro w0; cbn [started fst]; auto. destruct (find h (w_reqs w0)) as [r|]; [set (w1 := with_reqs w0 _)|set (w1 := w0)]; specialize (IH w1); destruct (started w1 l) as (w2, m2); cbn [fst] in *; rewrite IH; reflexivity. }
  assert (N : forall h c r, w_comms (new_req w h c r) = w_comms w) by (intros h c r; unfold new_req; destruct (find c (w_comms w)); reflexivity).
  destruct x; cbn [lib_step mpi fst w_comms with_reqs]; auto; rewrite ?N, ?D, ?St; reflexivity.
Qed.

Lemma small1 (w : world) c (f : comm -> msg) cm : find c (w_comms w) = Some cm -> Forall small (with_comm w c (fun cm => [f cm])) -> small (f cm).
Proof. intros E H. unfold with_comm in H. rewrite E in H. apply Forall_cons_iff in H as (H & _). exact H. Qed.
Lemma del_new {A} k (a : A) k' l x : find k (put k' a l) = Some x -> k = k' /\ x = a \/ k <> k' /\ find k l = Some x.
Proof. destruct (Z.eq_dec k k') as [->|N]; [rewrite find_put; intro H; injection H as <-; auto|rewrite find_put_o by auto; auto]. Qed.

Lemma new_comm w t L c cm : inv w t L -> find c (w_comms w) = None -> ~ In (cm_uid cm) (map snd (w_old w)) -> ~ In c (map fst (w_old w)) ->
  inv (mkw (put c cm (w_comms w)) ((c, cm_uid cm) :: w_old w) (w_reqs w)) t L.
Proof.
  intros I Hf Hu Hc. destruct I as [u nn lt on kn nw old iL dist used rq ok]. constructor; cbn [w_comms w_old w_reqs map fst snd]; auto.
  - intros c' n cm' H1 H2. apply del_new in H2 as [(-> & ->)|(Ne & H2)]; [exfalso; apply Hc; eapply used; eauto|eauto].
  - intros c' cm' H1 H2 X. apply del_new in H2 as [(-> & ->)|(Ne & H2)]; [apply Hu; auto|eapply nw; eauto].
  - intros c' cm' H2. apply del_new in H2 as [(-> & ->)|(Ne & H2)]; [left; auto|right; auto].
  - intros x H. right. auto.
  - intros c1 c2 cm1 cm2 H1 H2 Hq. apply del_new in H1 as [(-> & ->)|(N1 & H1)]; apply del_new in H2 as [(-> & ->)|(N2 & H2)]; auto.
    + exfalso. apply Hu. rewrite Hq. apply in_map_iff. exists (c2, cm_uid cm2). auto.
    + exfalso. apply Hu. rewrite <- Hq. apply in_map_iff. exists (c1, cm_uid cm1). auto.
    + eauto.
  - intros c' n H. right. eauto.
Qed.
Lemma free_comm w t L c : inv w t L -> inv (mkw (del c (w_comms w)) (w_old w) (w_reqs w)) t L.
Proof.
  intros I. assert (D : forall c' cm', find c' (del c (w_comms w)) = Some cm' -> find c' (w_comms w) = Some cm').
  { intros c' cm' H. destruct (Z.eq_dec c' c) as [->|N]; [rewrite find_del in H; discriminate|rewrite find_del_o in H; auto]. }
  destruct I as [u nn lt on kn nw old iL dist used rq ok]. constructor; cbn [w_comms w_old w_reqs]; auto; eauto.
Qed.

Lemma no_msg w c : with_comm w c (fun _ => []) = [].
Proof. unfold with_comm. destruct (find c (w_comms w)); reflexivity. Qed.
(* what has to be shown for one call *)
Definition goal (w : world) (t : tr) (L : list (nat * nat)) (r : option (tr * list event)) (m : world * list msg) : Prop :=
  exists L' t' ev, r = Some (t', ev) /\ incl L L' /\ both L' m (t', ev).
Lemma goal_same w t L r m t' ev : r = Some (t', ev) -> both L m (t', ev) -> goal w t L r m.
Proof. intros H B. exists L, t', ev. split; auto. split; auto. apply incl_refl. Qed.
Lemma goal_done w t L l r : inv w t L -> completions (fun r st => whole tysz (rq_ty r) st) w l -> completions (fun r st => rq_active r = true /\ st_src st <> MPI_PROC_NULL) w l ->
  Forall small (snd (done w l)) -> r = Some (complete tysz t l) -> goal w t L r (done w l).
Proof. intros I H1 H2 H3 ->. assert (X := complete_ok tysz w t L l I H1 H2 H3). destruct (complete tysz t l) as (t', ev). eapply goal_same; eauto. Qed.
Lemma goal_coll w t L c k size root fe : inv w t L -> find c (w_comms w) <> None ->
  (forall cm n t1, find c (w_comms w) = Some cm -> fe n cm t1 = Some (t1, [EColl n k (size cm) root])) ->
  goal w t L (on_comm (w_comms w) t c fe) (w, with_comm w c (fun cm => [MColl cm k (size cm) root])).
Proof.
  intros I Hc H. unfold goal. apply comm_call; auto. intros L' n cm t1 E HL I1 Hs. exists t1, [EColl n k (size cm) root]. split; [apply H; auto|]. split; [exact I1|]. cbn [snd]. constructor; [|constructor]. constructor. exact Hs.
Qed.

Lemma step_ok w t L x : inv w t L -> legal tysz w x -> plain_call tysz w x -> Forall small (snd (mpi tysz w x)) ->
  goal w t L (step tysz (w_comms w) t x) (mpi tysz w x).
Proof.
  intros I (Hl & Hw) (Hp & Ha) Hs. assert (On := i_on _ _ _ I).
  destruct x as [count ty dest tag c|h count ty dest tag c|h count ty dest tag c|ty c st|scount sty dest stag rty c st|h ty c|h ty c|hs|h st|hs sts|hs idx st|hs idx sts|h flag st|hs flag sts|hs flag idx st|h|c cm|c|c|count ty root c|counts displs ty root c|count ty root c|count ty c|counts ty c|count ty c|counts ty c|b];
    unfold step; rewrite ?On; cbn [traced mpi legal plain_call completed] in *.
  - (* Send *) unfold goal. apply comm_call; auto. intros L' n cm t1 E HL I1 Hn. rewrite (real_id _ _ Hp). eexists _, _. split; [reflexivity|]. split; [exact I1|].
    assert (X : int_ok (bytes ty count)). { cbn [snd] in Hs. unfold with_comm in Hs. rewrite E, real_id in Hs by exact Hp. apply Forall_cons_iff in Hs as (X & _). exact X. }
    cbn [snd]. unfold MsgTraceSpec.bytes in *. rewrite (i32_id _ X). constructor; [|constructor]. constructor. exact Hn.
  - (* Isend *) destruct Hl as (Hc & Hf). unfold goal.
    apply (req_call tysz w t L c h (fun t _ => t) (mkreq false false true dest tag (bytes ty count) ty) (fun cm => real dest (MSent cm dest tag (bytes ty count))) (fun n => [ESend n dest tag (i32 (tysz ty * count))])); auto.
    intros L' n cm t1 E I1 Hn. split; [apply put_isend; auto; intros _; exact Hp|]. rewrite (real_id _ _ Hp).
    assert (X : int_ok (bytes ty count)). { cbn [snd] in Hs. unfold with_comm in Hs. rewrite E, real_id in Hs by exact Hp. apply Forall_cons_iff in Hs as (X & _). exact X. }
    unfold MsgTraceSpec.bytes in *. rewrite (i32_id _ X). constructor; [|constructor]. constructor. exact Hn.
  - (* SendInit *) destruct Hl as (Hc & Hf), Hp as (Hd & Hi). unfold goal.
    assert (Y := req_call tysz w t L c h (fun t n => set_req t h (mkri true true dest tag ty (i32 (tysz ty * count)) n)) (mkreq false true false dest tag (bytes ty count) ty) (fun _ => []) (fun _ => []) I Hc Hf).
    rewrite no_msg in Y. apply Y.
    intros L' n cm t1 E I1 Hn. split; [|constructor]. apply put_req; auto; [|intros _; exact Hd]. cbn [req_inv rq_pers orb]. eexists. split; [reflexivity|]. split; [reflexivity|]. split; [reflexivity|]. split; [exact Hn|]. split; [|discriminate].
    intros _. split; [reflexivity|]. split; [reflexivity|]. apply i32_id. exact Hi.
  - (* Recv *) destruct Hl as (Hc & Hwh). unfold goal. apply comm_call; auto. intros L' n cm t1 E HL I1 Hn. rewrite (real_id _ _ Hp). eexists _, _. split; [reflexivity|]. split; [exact I1|].
    assert (X : int_ok (st_bytes st)). { cbn [snd] in Hs. unfold with_comm in Hs. rewrite E, real_id in Hs by exact Hp. apply Forall_cons_iff in Hs as (X & _). exact X. }
    cbn [snd]. unfold recv_event. rewrite count_ok by auto. constructor; [|constructor]. constructor. exact Hn.
  - (* Sendrecv *) destruct Hl as (Hc & Hwh), Hp as (Hd & Hsrc). unfold goal. apply comm_call; auto. intros L' n cm t1 E HL I1 Hn. rewrite (real_id _ _ Hd), (real_id _ _ Hsrc). eexists _, _. split; [reflexivity|]. split; [exact I1|].
    assert (X : int_ok (bytes sty scount) /\ int_ok (st_bytes st)). { cbn [snd] in Hs. unfold with_comm in Hs. rewrite E, (real_id _ _ Hd), (real_id _ _ Hsrc) in Hs. cbn [app] in Hs. apply Forall_cons_iff in Hs as (X & Y). apply Forall_cons_iff in Y as (Y & _). split; assumption. }
    destruct X as (X & Y). cbn [snd app]. unfold recv_event, MsgTraceSpec.bytes in *. rewrite count_ok, (i32_id _ X) by auto. constructor; [constructor; exact Hn|]. constructor; [constructor; exact Hn|constructor].
  - (* Irecv *) destruct Hl as (Hc & Hf). unfold goal.
    assert (Y := req_call tysz w t L c h (fun t n => set_req t h (mkri false false 0 0 ty 0 n)) (mkreq true false true 0 0 0 ty) (fun _ => []) (fun _ => []) I Hc Hf).
    rewrite no_msg in Y. apply Y.
    intros L' n cm t1 E I1 Hn. split; [|constructor]. apply put_req; auto; [|intro D; discriminate D]. cbn [req_inv rq_pers rq_recv orb]. eexists. split; [reflexivity|]. split; [reflexivity|]. split; [reflexivity|]. split; [exact Hn|]. split; [discriminate|reflexivity].
  - (* RecvInit *) destruct Hl as (Hc & Hf). unfold goal.
    assert (Y := req_call tysz w t L c h (fun t n => set_req t h (mkri false true 0 0 ty 0 n)) (mkreq true true false 0 0 0 ty) (fun _ => []) (fun _ => []) I Hc Hf).
    rewrite no_msg in Y. apply Y.
    intros L' n cm t1 E I1 Hn. split; [|constructor]. apply put_req; auto; [|intro D; discriminate D]. cbn [req_inv rq_pers rq_recv orb]. eexists. split; [reflexivity|]. split; [reflexivity|]. split; [reflexivity|]. split; [exact Hn|]. split; [discriminate|reflexivity].
  - (* Start *) eapply goal_same; [reflexivity|]. apply started_ok; auto.
  - (* Wait *) apply goal_done; auto. rewrite complete_one. reflexivity.
  - (* Waitall *) apply goal_done; auto. rewrite (arr_combine _ _ Hl). destruct hs; [destruct sts; reflexivity|reflexivity].
  - (* Waitany *) destruct hs as [|h0 hs].
    + destruct idx as [i|]; [cbn [length] in Hl; lia|]. apply goal_done; auto.
    + destruct idx as [i|]; [|contradiction]. apply goal_done; auto. rewrite (nth_err _ _ Hl), complete_one. reflexivity.
  - (* Waitsome *) destruct Hl as (Hi & Hlen & Hk). apply goal_done; auto. rewrite (at_all_nth _ _ Hi), (at_all_map _ _ _ Hp), at_all_seq by lia.
    rewrite <- (map_length (fun i => nth i hs 0) idx) at 1. rewrite combine_firstn_r. reflexivity.
  - (* Test *) destruct flag; apply goal_done; auto. rewrite complete_one. reflexivity.
  - (* Testall *) destruct flag; apply goal_done; auto. rewrite (arr_combine _ _ Hl). reflexivity.
  - (* Testany *) destruct flag; [|destruct idx; apply goal_done; auto]. destruct idx as [i|]; [|destruct hs; contradiction]. apply goal_done; auto. rewrite (nth_err _ _ Hl), complete_one. reflexivity.
  - (* ReqFree *) eapply goal_same; [reflexivity|]. split; [apply del_both; exact I|constructor].
  - (* CommNew *) destruct Hl as (Hf & Hu). eapply goal_same; [reflexivity|]. split; [apply new_comm; auto|constructor].
  - (* CommFree *) eapply goal_same; [reflexivity|]. split; [apply free_comm; auto|constructor].
  - (* Barrier *) apply goal_coll with (size := fun _ => None); auto.
  - (* OneToAll *) apply goal_coll with (size := fun cm => Some (if cm_rank cm =? root then bytes ty count else 0)); auto. intros cm n t1 E. cbn [snd] in Hs.
    assert (X := small1 w c (fun cm => MColl cm K12N (Some (if cm_rank cm =? root then bytes ty count else 0)) (Some root)) cm E Hs). cbn [small] in X. unfold MsgTraceSpec.bytes in *.
    destruct (cm_rank cm =? root); [rewrite (Z.mul_comm count), (i32_id _ X); reflexivity|reflexivity].
  - (* Scatterv *) destruct Hl as (cm0 & E0 & L1 & L2), Hp as (Hsum & Hint). apply goal_coll with (size := fun cm => Some (if cm_rank cm =? root then bytes ty (zsum counts) else 0)); [exact I|congruence|]. intros cm n t1 E. cbn [snd] in Hs.
    assert (cm = cm0) by congruence. subst cm0.
    assert (X := small1 w c (fun cm => MColl cm K12N (Some (if cm_rank cm =? root then bytes ty (zsum counts) else 0)) (Some root)) cm E Hs). cbn [small] in X. unfold MsgTraceSpec.bytes in *.
    rewrite L2, L1, Nat.ltb_irrefl, firstn_all2 by lia. rewrite Hsum, (i32_id _ Hint). destruct (cm_rank cm =? root); [rewrite (Z.mul_comm (zsum counts)), (i32_id _ X); reflexivity|reflexivity].
  - (* AllToOne *) apply goal_coll with (size := fun cm => Some (if cm_rank cm =? root then 0 else bytes ty count)); auto. intros cm n t1 E. cbn [snd] in Hs.
    assert (X := small1 w c (fun cm => MColl cm KN21 (Some (if cm_rank cm =? root then 0 else bytes ty count)) (Some root)) cm E Hs). cbn [small] in X. unfold MsgTraceSpec.bytes in *.
    destruct (cm_rank cm =? root); cbn [negb]; [reflexivity|rewrite (Z.mul_comm count), (i32_id _ X); reflexivity].
  - (* AllToAll *) apply goal_coll with (size := fun cm => Some (bytes ty count)); auto. intros cm n t1 E. cbn [snd] in Hs.
    assert (X := small1 w c (fun cm => MColl cm KNxN (Some (bytes ty count)) None) cm E Hs). cbn [small] in X. unfold MsgTraceSpec.bytes in *. rewrite (Z.mul_comm count), (i32_id _ X). reflexivity.
  - (* ReduceScatter *) destruct Hl as (cm0 & E0 & L1 & L2). apply goal_coll with (size := fun cm => Some (bytes ty (nth (Z.to_nat (cm_rank cm)) counts 0))); [exact I|congruence|]. intros cm n t1 E. cbn [snd] in Hs.
    assert (cm = cm0) by congruence. subst cm0.
    assert (X := small1 w c (fun cm => MColl cm KNxN (Some (bytes ty (nth (Z.to_nat (cm_rank cm)) counts 0))) None) cm E Hs). cbn [small] in X. unfold MsgTraceSpec.bytes in *.
    rewrite (nth_error_nth' counts 0) by lia. rewrite (Z.mul_comm (nth _ _ _)), (i32_id _ X). reflexivity.
  - (* Alltoall *) apply goal_coll with (size := fun cm => Some (bytes ty (cm_size cm * count))); auto. intros cm n t1 E. cbn [snd] in Hs.
    assert (X := small1 w c (fun cm => MColl cm KNxN (Some (bytes ty (cm_size cm * count))) None) cm E Hs). cbn [small] in X. unfold MsgTraceSpec.bytes in *.
    rewrite (i32_id _ (Hp cm E)), (Z.mul_comm (cm_size cm * count)), (i32_id _ X). reflexivity.
  - (* Alltoallv *) destruct Hl as (cm0 & E0 & L1). apply goal_coll with (size := fun cm => Some (bytes ty (zsum counts))); [exact I|congruence|]. intros cm n t1 E. cbn [snd] in Hs.
    assert (cm = cm0) by congruence. subst cm0.
    assert (X := small1 w c (fun cm => MColl cm KNxN (Some (bytes ty (zsum counts))) None) cm E Hs). cbn [small] in X. unfold MsgTraceSpec.bytes in *.
    rewrite L1, Nat.ltb_irrefl, firstn_all2 by lia. rewrite (i32_id _ Hp), (Z.mul_comm (zsum counts)), (i32_id _ X). reflexivity.
  - (* SetActive *) subst b. eapply goal_same; [reflexivity|]. split; [|constructor]. cbn [fst]. destruct I as [u nn lt on kn nw old iL dist used rq ok]. constructor; cbn [t_next t_comms t_reqs t_on]; auto.
Qed.

Lemma shows_event_incl L L' m e : incl L L' -> shows L m e -> shows L' m e.
Proof. intros H S. destruct S; constructor; eapply shows_incl; eauto. Qed.
Lemma f2_incl L L' ms es : incl L L' -> Forall2 (shows L) ms es -> Forall2 (shows L') ms es.
Proof. intros H F. induction F; constructor; auto. eapply shows_event_incl; eauto. Qed.

Lemma run_ok xs : forall w t L, inv w t L -> proper tysz w xs ->
  exists t' evs L', run tysz (w_comms w) t xs = Some (t', evs) /\ incl L L' /\ inv (fold_left (fun w x => fst (mpi tysz w x)) xs w) t' L' /\ Forall2 (shows L') (messages tysz w xs) evs.
Proof.
  induction xs as [|x xs IH]; intros w t L I P; cbn [run messages proper fold_left] in *.
  - exists t, [], L. split; auto. split; [apply incl_refl|]. split; auto.
  - destruct P as (P1 & P2 & P3 & P). destruct (step_ok w t L x I P1 P2 P3) as (L1 & t1 & e1 & E1 & HL & I1 & F1). rewrite E1, lib_world. cbn [fst snd] in I1, F1.
    destruct (IH _ _ _ I1 P) as (t2 & e2 & L2 & E2 & HL2 & I2 & F2). rewrite E2. exists t2, (e1 ++ e2), L2. split; auto. split; [eapply incl_tran; eauto|]. split; auto.
    destruct (mpi tysz w x) as (w1, m1). cbn [fst snd] in *. apply Forall2_app; auto. eapply f2_incl; eauto.
Qed.
Lemma start_inv comms : start_ok comms -> inv (start_world comms) tr_init [].
Proof.
  intros (H1 & H2). unfold start_world, tr_init. constructor; cbn [w_comms w_old w_reqs t_next t_comms t_reqs t_on]; try (constructor; fail); try discriminate; auto.
  - intros c cm H. apply find_in in H. apply in_map_iff. exists (c, cm). auto.
  - intros u Hu. destruct Hu.
  - intros c c' cm cm' E1 E2 Hu. apply find_in in E1, E2. clear H1. induction comms as [|(c0, cm0) l IH]; [destruct E1|].
    cbn [map] in H2. inversion H2 as [|? ? Hn Hd]; subst. cbn [snd] in *. destruct E1 as [X|E1], E2 as [Y|E2].
    + congruence.
    + injection X as -> ->. exfalso. apply Hn. rewrite Hu. apply (in_map (fun p => cm_uid (snd p)) l (c', cm')). exact E2.
    + injection Y as -> ->. exfalso. apply Hn. rewrite <- Hu. apply (in_map (fun p => cm_uid (snd p)) l (c, cm)). exact E1.
    + auto.
Qed.
End MPI.
