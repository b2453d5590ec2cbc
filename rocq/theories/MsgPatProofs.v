(* C84: the counters follow the messages *)
From Verif Require Import Base MsgTraceModel MsgTraceSpec MsgTraceProofs MsgTraceProofs2 MsgPatModel MsgPatSpec.
From Coq Require Import ZArith.
Open Scope Z_scope.

Lemma i32_mod a b : (a - b) mod 4294967296 = 0 -> i32 a = i32 b.
Proof. intro H. unfold i32. f_equal. apply Z.mod_divide in H; [|lia]. destruct H as (k & H). replace (a + 2147483648) with (b + 2147483648 + k * 4294967296) by lia. apply Z.mod_add. lia. Qed.
Lemma i32_diff z : exists k, i32 z = z + k * 4294967296.
Proof. unfold i32. exists (- ((z + 2147483648) / 4294967296)). assert (X := Z.div_mod (z + 2147483648) 4294967296). lia. Qed.
Lemma i32_add_r a b : i32 (a + i32 b) = i32 (a + b).
Proof. destruct (i32_diff b) as (k & ->). apply i32_mod. replace (a + (b + k * 4294967296) - (a + b)) with (k * 4294967296) by ring. apply Z.mod_mul. lia. Qed.
Lemma i32_add_l a b : i32 (i32 a + b) = i32 (a + b).
Proof. rewrite Z.add_comm, i32_add_r, Z.add_comm. reflexivity. Qed.
Lemma i32_mul_l a b : i32 (i32 a * b) = i32 (a * b).
Proof. destruct (i32_diff a) as (k & ->). apply i32_mod. replace ((a + k * 4294967296) * b - a * b) with (k * b * 4294967296) by ring. apply Z.mod_mul. lia. Qed.

Definition note (k : cnt) (m : msg) : cnt :=
  match m with
  | MSent _ dst _ b => push_send b dst k
  | MReceived _ src _ b => push_recv src b k
  | MColl _ _ b _ => push_coll (match b with Some b => b | None => 0 end) k
  end.
Lemma push_send_i s d k : push_send (i32 s) d k = push_send s d k.
Proof. unfold push_send. rewrite i32_add_r. reflexivity. Qed.
Lemma push_recv_i s d k : push_recv d (i32 s) k = push_recv d s k.
Proof. unfold push_recv. rewrite i32_add_r. reflexivity. Qed.
Lemma push_coll_i s k : push_coll (i32 s) k = push_coll s k.
Proof. unfold push_coll. rewrite i32_add_r. reflexivity. Qed.

(* the counters hold the totals of ms, reduced to 32 bits *)
Record holds (k : cnt) (ms : list msg) : Prop := mkholds {
  hs_s : k_sends k = i32 (number (sent ms)); hs_r : k_recvs k = i32 (number (received ms)); hs_c : k_colls k = i32 (number (collective ms));
  hs_ss : k_ssize k = i32 (zsum (map snd (sent ms))); hs_rs : k_rsize k = i32 (zsum (map snd (received ms))); hs_cs : k_csize k = i32 (zsum (collective ms));
  hs_d : NoDup (k_dests k) /\ forall x, In x (k_dests k) <-> In x (map fst (sent ms));
  hs_q : NoDup (k_srcs k) /\ forall x, In x (k_srcs k) <-> In x (map fst (received ms)) }.
Lemma holds0 : holds cnt0 [].
Proof. constructor; try reflexivity; (split; [constructor|intro x; cbn; tauto]). Qed.
Lemma zsum_app a b : zsum (a ++ b) = zsum a + zsum b.
Proof. unfold zsum. induction a as [|x a IH]; cbn [app fold_right]; lia. Qed.
Lemma number_snoc {A} (l : list A) x : number (l ++ [x]) = number l + 1.
Proof. unfold number. rewrite app_length. cbn [length]. lia. Qed.
Lemma sins_ok x l (P : Z -> Prop) : NoDup l /\ (forall y, In y l <-> P y) -> NoDup (sins x l) /\ (forall y, In y (sins x l) <-> P y \/ y = x).
Proof.
  intros (N & H). unfold sins. destruct (existsb (Z.eqb x) l) eqn:E.
  - split; auto. intro y. rewrite H. split; [tauto|]. intros [X|X]; [exact X|subst y]. apply H. apply existsb_exists in E as (z & Hz & Ez). apply Z.eqb_eq in Ez. subst z. exact Hz.
  - split.
    + assert (~ In x l). { intro X. assert (existsb (Z.eqb x) l = true) by (apply existsb_exists; exists x; split; [exact X|apply Z.eqb_refl]). congruence. }
      clear - N H0. induction N as [|a l Ha N IH]; cbn [app]; constructor; auto.
      * constructor.
      * rewrite in_app_iff. intros [X|[X|[]]]; [contradiction|]. subst. apply H0. left. reflexivity.
      * apply IH. intro X. apply H0. right. exact X.
    + intro y. rewrite in_app_iff, H. cbn [In]. intuition.
Qed.
Lemma note_holds k ms m : holds k ms -> holds (note k m) (ms ++ [m]).
Proof.
  intros [h1 h2 h3 h4 h5 h6 h7 h8].
  assert (E1 : sent (ms ++ [m]) = sent ms ++ match m with MSent _ dst _ b => [(dst, b)] | _ => [] end) by (unfold sent; rewrite flat_map_app; cbn [flat_map]; rewrite app_nil_r; reflexivity).
  assert (E2 : received (ms ++ [m]) = received ms ++ match m with MReceived _ src _ b => [(src, b)] | _ => [] end) by (unfold received; rewrite flat_map_app; cbn [flat_map]; rewrite app_nil_r; reflexivity).
  assert (E3 : collective (ms ++ [m]) = collective ms ++ match m with MColl _ _ b _ => [match b with Some b => b | None => 0 end] | _ => [] end) by (unfold collective; rewrite flat_map_app; cbn [flat_map]; rewrite app_nil_r; reflexivity).
  destruct m as [cm dst tag b|cm src tag b|cm kk b root]; constructor; rewrite ?E1, ?E2, ?E3, ?app_nil_r; cbn [note push_send push_recv push_coll k_sends k_recvs k_colls k_ssize k_rsize k_csize k_dests k_srcs]; auto;
    rewrite ?number_snoc, ?map_app; cbn [map fst snd]; rewrite ?zsum_app; cbn [zsum fold_right]; rewrite ?Z.add_0_r;
    try (rewrite ?h1, ?h2, ?h3, ?h4, ?h5, ?h6; rewrite i32_add_l; reflexivity).
  - destruct (sins_ok dst _ _ h7) as (A & B). split; auto. intro y. rewrite B, in_app_iff. cbn [In]. intuition.
  - destruct (sins_ok src _ _ h8) as (A & B). split; auto. intro y. rewrite B, in_app_iff. cbn [In]. intuition.
Qed.
Lemma fold_holds m2 : forall k ms, holds k ms -> holds (fold_left note m2 k) (ms ++ m2).
Proof. induction m2 as [|m m2 IH]; intros k ms H; cbn [fold_left]; [rewrite app_nil_r; exact H|]. replace (ms ++ m :: m2) with ((ms ++ [m]) ++ m2) by (rewrite <- app_assoc; reflexivity). apply IH. apply note_holds. exact H. Qed.
Lemma same_number l l' : NoDup l /\ (forall x, In x l <-> In x l') -> Z.of_nat (length l) = distinct l'.
Proof.
  intros (N & H). unfold distinct, number. f_equal. apply Nat.le_antisymm; apply NoDup_incl_length; auto.
  - intros x Hx. apply nodup_In, H, Hx.
  - apply NoDup_nodup.
  - intros x Hx. apply H. apply nodup_In in Hx. exact Hx.
Qed.
Lemma report_holds k ms : holds k ms -> fits (totals_of ms) -> report k = totals_of ms.
Proof.
  intros [h1 h2 h3 h4 h5 h6 h7 h8] F. unfold fits, totals_of in F. cbn [o_sends o_recvs o_colls o_rsize o_ssize o_csize] in F. repeat (apply Forall_cons_iff in F as (? & F)).
  unfold report, totals_of. rewrite h1, h2, h3, h4, h5, h6, !i32_id by assumption. rewrite (same_number _ _ h7), (same_number _ _ h8). reflexivity.
Qed.

Section MPI.
Context (tysz : Z -> Z).
Notation bytes := (bytes tysz).

Definition pmatches (r : req) (i : pinfo) : Prop :=
  pi_send i = negb (rq_recv r) /\ pi_pers i = rq_pers r /\
  (rq_recv r = false -> pi_target i = rq_peer r /\ pi_size i = i32 (rq_bytes r)) /\ (rq_recv r = true -> pi_type i = rq_ty r).
Definition preq_inv (o : option req) (i : option pinfo) : Prop :=
  match o with
  | None => i = None
  | Some r => if rq_pers r || rq_recv r then exists x, i = Some x /\ pmatches r x else i = None
  end.
Definition rinv (w : world) (l : list (Z * pinfo)) : Prop :=
  (forall h, preq_inv (find h (w_reqs w)) (find h l)) /\ (forall h r, find h (w_reqs w) = Some r -> req_ok r).
(* the state after messages ms *)
Definition pinv (w : world) (p : pat) : Prop := rinv w (p_reqs p) /\ p_on p = true.
Definition pok (w : world) (k : cnt) (m : world * list msg) (p : pat) : Prop := pinv (fst m) p /\ p_cnt p = fold_left note (snd m) k.

Lemma rput w l h r i : rinv w l -> preq_inv (Some r) (Some i) -> rq_pers r || rq_recv r = true -> req_ok r -> rinv (with_reqs w (put h r (w_reqs w))) (put h i l).
Proof.
  intros (rq & ok) Hr Hp Hk. split; cbn [with_reqs w_reqs]; intro h'; (destruct (Z.eq_dec h' h) as [->|Ne]; [rewrite !find_put|rewrite !find_put_o by auto]); auto.
  - intros r0 E. injection E as <-. exact Hk.
  - apply ok.
Qed.
Lemma rput_isend w l h r : rinv w l -> find h (w_reqs w) = None -> rq_pers r || rq_recv r = false -> req_ok r -> rinv (with_reqs w (put h r (w_reqs w))) l.
Proof.
  intros (rq & ok) Hf Hp Hk. split; cbn [with_reqs w_reqs]; intros h'; (destruct (Z.eq_dec h' h) as [->|Ne]; [rewrite !find_put|rewrite !find_put_o by auto]); auto.
  - cbn [preq_inv]. rewrite Hp. assert (X := rq h). rewrite Hf in X. exact X.
  - intros r0 E. injection E as <-. exact Hk.
  - apply ok.
Qed.
Lemma rput_active w l h r a : rinv w l -> find h (w_reqs w) = Some r -> rinv (with_reqs w (put h (mkreq (rq_recv r) (rq_pers r) a (rq_peer r) (rq_tag r) (rq_bytes r) (rq_ty r) (rq_comm r)) (w_reqs w))) l.
Proof.
  intros (rq & ok) Hf. split; cbn [with_reqs w_reqs]; intros h'; (destruct (Z.eq_dec h' h) as [->|Ne]; [rewrite !find_put|rewrite !find_put_o by auto]); auto.
  - assert (X := rq h). rewrite Hf in X. exact X.
  - intros r0 E. injection E as <-. intro Hs. exact (ok h r Hf Hs).
  - apply ok.
Qed.
Lemma rdel w l h : rinv w l -> rinv (with_reqs w (del h (w_reqs w))) (del h l).
Proof.
  intros (rq & ok). split; cbn [with_reqs w_reqs]; intros h'; (destruct (Z.eq_dec h' h) as [->|Ne]; [rewrite !find_del|rewrite !find_del_o by auto]); auto; [reflexivity|discriminate|apply ok].
Qed.
Lemma rdel_isend w l h r : rinv w l -> find h (w_reqs w) = Some r -> rq_pers r || rq_recv r = false -> rinv (with_reqs w (del h (w_reqs w))) l.
Proof.
  intros (rq & ok) Hf Hp. split; cbn [with_reqs w_reqs]; intros h'; (destruct (Z.eq_dec h' h) as [->|Ne]; [rewrite !find_del|rewrite !find_del_o by auto]); auto; [|discriminate|apply ok].
  cbn [preq_inv]. assert (X := rq h). rewrite Hf in X. cbn [preq_inv] in X. rewrite Hp in X. exact X.
Qed.
Lemma pcount_ok ty st : whole tysz ty st -> i32 (tysz ty * get_count tysz st ty) = i32 (st_bytes st).
Proof.
  intros (H0 & H1 & H2). unfold get_count. destruct (Z.eqb_spec (tysz ty) 0) as [E|E].
  - rewrite Z.mul_0_r, (H1 E). reflexivity.
  - specialize (H2 E). rewrite H2. cbn [Z.eqb]. rewrite <- (Z_div_exact_2 (st_bytes st) (tysz ty)) by lia. reflexivity.
Qed.
Lemma precv_note ty st cm p : whole tysz ty st -> p_cnt (precv tysz ty st p) = note (p_cnt p) (MReceived cm (st_src st) (st_tag st) (st_bytes st)).
Proof. intro H. unfold precv, on_cnt. cbn [p_cnt note]. rewrite (pcount_ok _ _ H), push_recv_i. reflexivity. Qed.

Lemma pcomplete1_ok w p h st : pinv w p ->
  (forall r, find h (w_reqs w) = Some r -> rq_recv r = true -> whole tysz (rq_ty r) st) -> (forall r, find h (w_reqs w) = Some r -> rq_recv r = true -> rq_active r = true /\ st_src st <> MPI_PROC_NULL) ->
  pok w (p_cnt p) (done1 w h st) (pcomplete1 tysz p h st).
Proof.
  intros (I & On) Hw Ha. assert (R := proj1 I h). unfold pok, pinv, done1, pcomplete1 in *. destruct (find h (w_reqs w)) as [r|] eqn:E; cbn [preq_inv fst snd] in *.
  - destruct (rq_pers r || rq_recv r) eqn:Ep.
    + destruct R as (i & Ei & Ms & Mp & M1 & M2). rewrite Ei, Mp, Ms. cbv zeta.
      assert (Ev : p_cnt (if negb (rq_recv r) then p else precv tysz (pi_type i) st p) = fold_left note (if rq_recv r && rq_active r then real (st_src st) (MReceived (rq_comm r) (st_src st) (st_tag st) (st_bytes st)) else []) (p_cnt p)).
      { destruct (rq_recv r) eqn:Er; cbn [negb andb]; [|reflexivity]. destruct (Ha r eq_refl Er) as (Hact & Hn). rewrite Hact, (real_id _ _ Hn), (M2 eq_refl). cbn [fold_left]. apply precv_note. auto. }
      assert (Er : forall b, p_reqs (if b : bool then p else precv tysz (pi_type i) st p) = p_reqs p /\ p_on (if b then p else precv tysz (pi_type i) st p) = p_on p) by (intros [|]; split; reflexivity).
      destruct (rq_pers r) eqn:Epp; (split; [split|]); cbn [del_preq p_reqs p_on p_cnt]; try exact Ev; rewrite ?(proj1 (Er _)), ?(proj2 (Er _)); auto.
      * assert (X := rput_active w _ h r false I E). rewrite Epp in X. exact X.
      * apply rdel. exact I.
    + rewrite R. apply orb_false_iff in Ep as Ep2. destruct Ep2 as (E1 & E2). rewrite E1, E2. cbn [andb fold_left]. split; [split; [eapply rdel_isend; eauto|exact On]|reflexivity].
  - rewrite R. split; [split; [exact I|exact On]|reflexivity].
Qed.
Lemma pcomplete_ok l : forall w p, pinv w p -> completions (fun r st => whole tysz (rq_ty r) st) w l -> completions (fun r st => rq_active r = true /\ st_src st <> MPI_PROC_NULL) w l ->
  pok w (p_cnt p) (done w l) (pcomplete tysz p l).
Proof.
  induction l as [|(h, st) l IH]; intros w p I H1 H2; cbn [done pcomplete completions] in *.
  - split; [exact I|reflexivity].
  - destruct H1 as (H1 & H1'), H2 as (H2 & H2'). assert (X := pcomplete1_ok w p h st I H1 H2). destruct (done1 w h st) as (w1, m1) eqn:E1. destruct X as (I1 & C1). cbn [fst snd] in *.
    assert (Y := IH w1 _ I1 H1' H2'). destruct (done w1 l) as (w2, m2). destruct Y as (I2 & C2). cbn [fst snd] in *. split; [exact I2|]. rewrite C2, C1. cbn [snd]. rewrite fold_left_app. reflexivity.
Qed.
Lemma pstart_ok hs : forall w p, pinv w p -> Forall (fun h => exists r, find h (w_reqs w) = Some r /\ rq_pers r = true) hs -> pok w (p_cnt p) (started w hs) (pstart p hs).
Proof.
  induction hs as [|h hs IH]; intros w p (I & On) F; cbn [started pstart].
  - split; [split; [exact I|exact On]|reflexivity].
  - apply Forall_cons_iff in F as ((r & Er & Hp) & F). rewrite Er. set (w1 := with_reqs w _). assert (I1 : rinv w1 (p_reqs p)) by (apply rput_active; auto).
    assert (F1 : Forall (fun h => exists r, find h (w_reqs w1) = Some r /\ rq_pers r = true) hs).
    { eapply Forall_impl; [|exact F]. cbn beta. intros h' (r' & Er' & Hp'). subst w1. cbn [with_reqs w_reqs]. destruct (Z.eq_dec h' h) as [->|Ne]; [rewrite find_put; eexists; split; [reflexivity|]; exact Hp|rewrite find_put_o by auto; eauto]. }
    assert (R := proj1 I h). rewrite Er in R. cbn [preq_inv] in R. rewrite Hp in R. cbn [orb] in R. destruct R as (i & Ei & Ms & Mp & M1 & M2). rewrite Ei, Ms.
    set (p1 := if negb (rq_recv r) then _ else p). assert (I2 : pinv w1 p1) by (subst p1; destruct (rq_recv r); split; auto).
    assert (Ev : p_cnt p1 = fold_left note (if rq_recv r then [] else real (rq_peer r) (MSent (rq_comm r) (rq_peer r) (rq_tag r) (rq_bytes r))) (p_cnt p)).
    { subst p1. destruct (rq_recv r) eqn:Err; cbn [negb]; [reflexivity|]. destruct (M1 eq_refl) as (E1 & E2). rewrite (real_id _ _ (proj2 I h r Er Err)), E1, E2. cbn [fold_left note on_cnt p_cnt]. apply push_send_i. }
    assert (Y := IH w1 p1 I2 F1). destruct (started w1 hs) as (w2, m2). destruct Y as (I3 & C3). cbn [fst snd] in *. split; [exact I3|]. rewrite C3, Ev. cbn [snd]. rewrite fold_left_app. reflexivity.
Qed.
Lemma pcomplete_one p h st : pcomplete tysz p [(h, st)] = pcomplete1 tysz p h st.
Proof. reflexivity. Qed.

Definition pgoal (w : world) (p : pat) (r : option pat) (m : world * list msg) : Prop := exists p', r = Some p' /\ pok w (p_cnt p) m p'.
Lemma pgoal_done w p l r : pinv w p -> completions (fun r st => whole tysz (rq_ty r) st) w l -> completions (fun r st => rq_active r = true /\ st_src st <> MPI_PROC_NULL) w l ->
  r = Some (pcomplete tysz p l) -> pgoal w p r (done w l).
Proof. intros I H1 H2 ->. eexists. split; [reflexivity|]. apply pcomplete_ok; auto. Qed.
Lemma pgoal_cnt w p c (f : comm -> list msg) p' cm : pinv w p -> find c (w_comms w) = Some cm -> p_reqs p' = p_reqs p -> p_on p' = p_on p -> p_cnt p' = fold_left note (f cm) (p_cnt p) -> pgoal w p (Some p') (w, with_comm w c f).
Proof. intros (I & On) E H1 H2 H3. exists p'. split; auto. unfold pok, pinv, with_comm. cbn [fst snd]. rewrite E, H1, H2. auto. Qed.
Lemma pgoal_coll w p c (f : comm -> msg) z cm : pinv w p -> find c (w_comms w) = Some cm -> note (p_cnt p) (f cm) = push_coll (i32 z) (p_cnt p) -> pgoal w p (coll z p) (w, with_comm w c (fun cm => [f cm])).
Proof. intros I E H. unfold coll. eapply pgoal_cnt; eauto; reflexivity || (cbn [fold_left]; rewrite H; reflexivity). Qed.
Lemma known_ex w c : known w c -> exists cm, find c (w_comms w) = Some cm.
Proof. unfold known. destruct (find c (w_comms w)); [eauto|congruence]. Qed.
Lemma pgoal_req w p h c i r (f : cnt -> cnt) ms cm : pinv w p -> find c (w_comms w) = Some cm ->
  rinv (with_reqs w (put h (r cm) (w_reqs w))) (i (p_reqs p)) -> f (p_cnt p) = fold_left note (ms cm) (p_cnt p) ->
  pgoal w p (Some (mkpat (i (p_reqs p)) (f (p_cnt p)) (p_on p))) (new_req w h c r, with_comm w c ms).
Proof. intros (I & On) E R C. eexists. split; [reflexivity|]. unfold pok, pinv, new_req, with_comm. rewrite E. cbn [fst snd p_reqs p_on p_cnt]. auto. Qed.

Lemma pstep_ok w p x : pinv w p -> legal tysz w x -> plain_pat tysz w x ->
  exists p', pstep tysz (w_comms w) p (Mpi x) = Some (p', []) /\ pok w (p_cnt p) (mpi tysz w x) p'.
Proof.
  intros I (Hl & Hw) Hp. assert (On := proj2 I). assert (G : (forall b, x <> SetActive b) -> pgoal w p (ptraced tysz (w_comms w) p x) (mpi tysz w x) -> exists p', pstep tysz (w_comms w) p (Mpi x) = Some (p', []) /\ pok w (p_cnt p) (mpi tysz w x) p').
  { intros Hx (p' & E & H). exists p'. split; [|exact H]. unfold pstep. rewrite On, E. destruct x; reflexivity || (exfalso; eapply Hx; reflexivity). }
  destruct x as [count ty dest tag c|h count ty dest tag c|h count ty dest tag c|ty c st|scount sty dest stag rty c st|h ty c|h ty c|hs|h st|hs sts|hs idx st|hs idx sts|h flag st|hs flag sts|hs flag idx st|h|c cm|c|c|count ty root c|counts displs ty root c|count ty root c|count ty c|counts ty c|count ty c|counts ty c|b];
    try (apply G; [intros; discriminate|]; clear G); cbn [ptraced mpi legal plain_pat plain_call completed] in *.
  - (* Send *) destruct Hp as (Hp & _), (known_ex _ _ Hl) as (cm & E). eapply pgoal_cnt; eauto. rewrite (real_id _ _ Hp). cbn [on_cnt p_cnt fold_left note]. apply push_send_i.
  - (* Isend *) destruct Hp as (Hp & _), Hl as (Hc & Hf), (known_ex _ _ Hc) as (cm & E).
    apply (pgoal_req w p h c (fun l => l) (mkreq false false true dest tag (bytes ty count) ty) (push_send (i32 (tysz ty * count)) dest) (fun cm => real dest (MSent cm dest tag (bytes ty count))) cm); auto.
    + apply rput_isend; auto; [apply I|intros _; exact Hp].
    + rewrite (real_id _ _ Hp). cbn [fold_left note]. apply push_send_i.
  - (* SendInit *) destruct Hl as (Hc & Hf), (known_ex _ _ Hc) as (cm & E).
    assert (Y := pgoal_req w p h c (put h (mkpi true true dest ty (i32 (tysz ty * count)))) (mkreq false true false dest tag (bytes ty count) ty) (fun k => k) (fun _ => []) cm I E). rewrite no_msg in Y. apply Y; [|reflexivity].
    apply rput; [apply I| |reflexivity|intros _; exact Hp]. cbn [preq_inv rq_pers orb]. eexists. split; [reflexivity|]. split; [reflexivity|]. split; [reflexivity|]. split; [|discriminate]. intros _. split; reflexivity.
  - (* Recv *) destruct Hp as (Hp & _), Hl as (Hc & Hwh), (known_ex _ _ Hc) as (cm & E). eapply pgoal_cnt; eauto. rewrite (real_id _ _ Hp). cbn [fold_left]. apply precv_note. exact Hwh.
  - (* Sendrecv *) destruct Hp as ((Hd & Hsrc) & _), Hl as (Hc & Hwh), (known_ex _ _ Hc) as (cm & E). eapply pgoal_cnt; eauto. rewrite (real_id _ _ Hd), (real_id _ _ Hsrc). cbn [fold_left app]. rewrite (precv_note _ _ cm) by exact Hwh. f_equal. cbn [on_cnt p_cnt note]. apply push_send_i.
  - (* Irecv *) destruct Hl as (Hc & Hf), (known_ex _ _ Hc) as (cm & E).
    assert (Y := pgoal_req w p h c (put h (mkpi false false 0 ty 0)) (mkreq true false true 0 0 0 ty) (fun k => k) (fun _ => []) cm I E). rewrite no_msg in Y. apply Y; [|reflexivity].
    apply rput; [apply I| |reflexivity|intro D; discriminate D]. cbn [preq_inv rq_pers rq_recv orb]. eexists. split; [reflexivity|]. split; [reflexivity|]. split; [reflexivity|]. split; [discriminate|reflexivity].
  - (* RecvInit *) destruct Hl as (Hc & Hf), (known_ex _ _ Hc) as (cm & E).
    assert (Y := pgoal_req w p h c (put h (mkpi false true 0 ty 0)) (mkreq true true false 0 0 0 ty) (fun k => k) (fun _ => []) cm I E). rewrite no_msg in Y. apply Y; [|reflexivity].
    apply rput; [apply I| |reflexivity|intro D; discriminate D]. cbn [preq_inv rq_pers rq_recv orb]. eexists. split; [reflexivity|]. split; [reflexivity|]. split; [reflexivity|]. split; [discriminate|reflexivity].
  - (* Start *) eexists. split; [reflexivity|]. apply pstart_ok; auto.
  - (* Wait *) destruct Hp as (_ & Ha). apply pgoal_done; auto.
  - (* Waitall *) destruct Hp as (_ & Ha). apply pgoal_done; auto. rewrite (arr_combine _ _ Hl). destruct hs; [destruct sts; reflexivity|reflexivity].
  - (* Waitany *) destruct Hp as (Hp & Ha). destruct hs as [|h0 hs].
    + destruct idx as [i|]; [cbn [length] in Hl; lia|]. apply pgoal_done; auto.
    + destruct idx as [i|]; [|contradiction]. apply pgoal_done; auto. rewrite (nth_err _ _ Hl). reflexivity.
  - (* Waitsome *) destruct Hp as (Hp & Ha), Hl as (Hi & Hlen & Hk). apply pgoal_done; auto. rewrite (at_all_nth _ _ Hi), (at_all_map _ _ _ Hp), at_all_seq by lia.
    rewrite <- (map_length (fun i => nth i hs 0) idx) at 1. rewrite combine_firstn_r. reflexivity.
  - (* Test *) destruct Hp as (_ & Ha). destruct flag; apply pgoal_done; auto.
  - (* Testall *) destruct Hp as (_ & Ha). destruct flag; apply pgoal_done; auto. rewrite (arr_combine _ _ Hl). reflexivity.
  - (* Testany *) destruct Hp as (Hp & Ha). destruct flag; [|destruct idx; apply pgoal_done; auto]. destruct idx as [i|]; [|destruct hs; contradiction]. apply pgoal_done; auto. rewrite (nth_err _ _ Hl). reflexivity.
  - (* ReqFree *) eexists. split; [reflexivity|]. split; [|reflexivity]. split; [apply rdel, I|exact On].
  - (* CommNew *) eexists. split; [reflexivity|]. split; [exact I|reflexivity].
  - (* CommFree *) eexists. split; [reflexivity|]. split; [exact I|reflexivity].
  - (* Barrier *) destruct (known_ex _ _ Hl) as (cm & E). eapply pgoal_coll; eauto.
  - (* OneToAll *) destruct (known_ex _ _ Hl) as (cm & E). unfold rank_of. rewrite E. eapply pgoal_coll; eauto. cbn [note]. rewrite push_coll_i. unfold MsgTraceSpec.bytes. destruct (cm_rank cm =? root); rewrite ?(Z.mul_comm count); reflexivity.
  - (* Scatterv *) destruct Hl as (cm & E & L1 & L2). unfold rank_of. rewrite E, L2, L1, Nat.ltb_irrefl, firstn_all2 by lia. eapply pgoal_coll; eauto. cbn [note]. unfold MsgTraceSpec.bytes. rewrite Hp.
    destruct (cm_rank cm =? root); [rewrite i32_mul_l|]; rewrite push_coll_i; rewrite ?(Z.mul_comm (zsum counts)); reflexivity.
  - (* AllToOne *) destruct (known_ex _ _ Hl) as (cm & E). unfold rank_of. rewrite E. eapply pgoal_coll; eauto. cbn [note]. rewrite push_coll_i. unfold MsgTraceSpec.bytes. destruct (cm_rank cm =? root); cbn [negb]; rewrite ?(Z.mul_comm count); reflexivity.
  - (* AllToAll *) destruct (known_ex _ _ Hl) as (cm & E). eapply pgoal_coll; eauto. cbn [note]. rewrite push_coll_i. unfold MsgTraceSpec.bytes. rewrite (Z.mul_comm count). reflexivity.
  - (* ReduceScatter *) destruct Hl as (cm & E & L1 & L2). unfold rank_of. rewrite E, (nth_error_nth' counts 0) by lia. eapply pgoal_coll; eauto. cbn [note]. rewrite push_coll_i. unfold MsgTraceSpec.bytes. rewrite (Z.mul_comm (nth _ _ _)). reflexivity.
  - (* Alltoall *) destruct (known_ex _ _ Hl) as (cm & E). unfold rank_of. rewrite E. eapply pgoal_coll; eauto. cbn [note]. rewrite i32_mul_l, push_coll_i. unfold MsgTraceSpec.bytes. rewrite (Z.mul_comm (_ * count)). reflexivity.
  - (* Alltoallv *) destruct Hl as (cm & E & L1). unfold rank_of. rewrite E, L1, Nat.ltb_irrefl, firstn_all2 by lia. eapply pgoal_coll; eauto. cbn [note]. rewrite i32_mul_l, push_coll_i. unfold MsgTraceSpec.bytes. rewrite (Z.mul_comm (zsum counts)). reflexivity.
  - (* SetActive *) destruct Hp as (-> & _). eexists. split; [reflexivity|]. split; [|reflexivity]. split; [apply I|reflexivity].
Qed.

Definition open_inv (k : cnt) (open : list region) : Prop := match open with (ms, true) :: _ => holds k ms | _ => True end /\ Forall (fun r => snd r = false) (tl open).
Definition reported (r : region) (o : totals) : Prop := snd r = true -> fits (totals_of (fst r)) -> o = totals_of (fst r).
Lemma prun_ok xs : forall w p open, pinv w p -> open_inv (p_cnt p) open -> proper_pat tysz w (length open) xs ->
  exists p' recs, prun tysz (w_comms w) p xs = Some (p', recs) /\ Forall2 reported (regions tysz w open xs) recs.
Proof.
  induction xs as [|x xs IH]; intros w p open I (O1 & O2) P; cbn [prun regions proper_pat] in *.
  - exists p, []. split; [reflexivity|constructor].
  - destruct x as [x| |].
    + destruct P as (P1 & P2 & P). destruct (pstep_ok w p x I P1 P2) as (p1 & E1 & I1 & C1). rewrite E1, (lib_world tysz). destruct (mpi tysz w x) as (w1, m). cbn [fst snd] in *.
      destruct (IH w1 p1 (map (fun r => (fst r ++ m, snd r)) open)) as (p2 & recs & E2 & F2); auto.
      * split.
        -- destruct open as [|(ms, [|]) open]; cbn [map fst snd]; auto. rewrite C1. apply fold_holds. exact O1.
        -- destruct open as [|r open]; cbn [map tl] in *; auto. apply Forall_map. eapply Forall_impl; [|exact O2]. cbn beta. intros a Ha. exact Ha.
      * rewrite map_length. exact P.
      * rewrite E2. exists p2, recs. split; auto.
    + cbn [pstep]. rewrite (proj2 I). destruct (IH w (mkpat (p_reqs p) cnt0 true) (([], true) :: map (fun r => (fst r, false)) open)) as (p2 & recs & E2 & F2).
      * split; [apply I|reflexivity].
      * split; [exact holds0|]. cbn [tl]. apply Forall_map. apply Forall_forall. reflexivity.
      * cbn [length]. rewrite map_length. exact P.
      * rewrite E2. exists p2, recs. split; auto.
    + destruct open as [|(ms, b) open]; cbn [length] in P; [contradiction|]. cbn [pstep]. rewrite (proj2 I). destruct (IH w p open I) as (p2 & recs & E2 & F2); auto.
      * cbn [tl] in O2. split; [|destruct open as [|r open]; [constructor|apply Forall_cons_iff in O2 as (_ & O2); exact O2]]. destruct open as [|(ms', b') open]; auto. apply Forall_cons_iff in O2 as (O2 & _). cbn [snd] in O2. subst b'. exact Logic.I.
      * rewrite E2. exists p2, (report (p_cnt p) :: recs). split; auto. constructor; auto. unfold reported. cbn [fst snd]. intros Hb Hf. subst b. apply report_holds; auto.
Qed.
End MPI.
