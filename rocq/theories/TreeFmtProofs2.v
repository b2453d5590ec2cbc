(* Proofs about the order of the printed tree and about the column widths (TreeFmtModel) *)
From Coq Require Import Permutation Sorted.
From Verif Require Import Base VariantModel VariantSpec VariantOrderProofs FilterSpec FilterProofs NamesModel TextModel TreeModel CaliFileModel AggModel FilterModel FmtModel FmtProofs TreeFmtModel TreeFmtProofs.

(* ---------------- the values in a subtree ---------------- *)
Inductive sval (a : N) : snode -> value -> Prop :=
  | sv_own n r v : In r (sn_recs n) -> rfind a r = Some v -> sval a n v
  | sv_kid n k v : In k (sn_kids n) -> sval a k v -> sval a n v.
Lemma sval_eqv a n m v : eqv n m -> sval a n v -> sval a m v.
Proof. intros (E1 & E2 & E3) H. inversion H as [? r ? Hr Hf|? k ? Hk Hv]; subst; [eapply sv_own; eauto; eapply Permutation_in; eauto|eapply sv_kid; eauto; rewrite <- E2; auto]. Qed.
Lemma eqv_sym n m : eqv n m -> eqv m n. Proof. intros (E1 & E2 & E3). repeat split; auto. apply Permutation_sym. auto. Qed.
Lemma fnd_in f n : uniq f -> In n f -> fnd (sn_lab n) f = Some n.
Proof.
  intros (U & _) H. destruct (in_split n f H) as (l1 & l2 & ->). apply fnd_mid; auto. intros k Hk Ek. rewrite map_app in U. cbn [map] in U. apply NoDup_remove_2 in U. apply U. apply in_or_app. left. rewrite <- Ek. apply in_map. auto.
Qed.
Lemma node_at_app : forall p f n x, node_at p f = Some n -> node_at (p ++ [x]) f = fnd x (sn_kids n).
Proof.
  induction p as [|y p IH]; intros f n x H; [discriminate|]. cbn [app]. rewrite node_at_cons in *. destruct (fnd y f) as [m|]; [|discriminate]. destruct p as [|z p].
  - injection H as <-. cbn [app]. rewrite node_at_cons. destruct (fnd x (sn_kids m)); auto.
  - cbn [app]. rewrite <- (IH (sn_kids m) n x H). reflexivity.
Qed.
Lemma node_uniq : forall p f n, node_at p f = Some n -> uniq f -> uniq (sn_kids n).
Proof.
  induction p as [|y p IH]; intros f n H U; [discriminate|]. rewrite node_at_cons in H. destruct (fnd y f) as [m|] eqn:E; [|discriminate]. unfold fnd in E. apply find_some in E. destruct E as (E & _).
  assert (Um : uniq (sn_kids m)) by (apply uniq_kids; destruct U as (_ & U); rewrite Forall_forall in U; auto). destruct p; [injection H as <-; auto|]. eapply IH; eauto.
Qed.
Lemma sval_paths a n v : sval a n v -> forall f p, uniq f -> node_at p f = Some n -> exists t l r, recs_at (p ++ t) f = Some l /\ In r l /\ rfind a r = Some v.
Proof.
  induction 1 as [n r v Hr Hf|n k v Hk Hv IH]; intros f p U Hn.
  - exists [], (sn_recs n), r. rewrite app_nil_r. unfold recs_at. rewrite Hn. auto.
  - pose proof (node_uniq p f n Hn U) as Uk. destruct (IH f (p ++ [sn_lab k]) U) as (t & l & r & H1 & H2 & H3).
    + rewrite (node_at_app p f n (sn_lab k) Hn). apply fnd_in; auto.
    + exists (sn_lab k :: t), l, r. rewrite <- app_assoc in H1. auto.
Qed.
Lemma paths_sval a v : forall t p f n l r, node_at p f = Some n -> recs_at (p ++ t) f = Some l -> In r l -> rfind a r = Some v -> sval a n v.
Proof.
  induction t as [|x t IH]; intros p f n l r Hn Hl Hr Hv.
  - rewrite app_nil_r in Hl. unfold recs_at in Hl. rewrite Hn in Hl. injection Hl as <-. eapply sv_own; eauto.
  - pose proof (node_at_app p f n x Hn) as E. destruct (fnd x (sn_kids n)) as [k|] eqn:Ek.
    + unfold fnd in Ek. apply find_some in Ek. destruct Ek as (Ek & _). eapply sv_kid; eauto. apply (IH (p ++ [x]) f k l r); auto. rewrite <- app_assoc. auto.
    + exfalso. assert (X : node_at (p ++ x :: t) f = None).
      { clear - E. revert f E. induction p as [|y p IHp]; intros f E; cbn [app] in *.
        - rewrite node_at_cons in *. destruct (fnd x f); [discriminate|auto].
        - rewrite node_at_cons in *. destruct (fnd y f) as [m|]; auto. specialize (IHp (sn_kids m)). destruct (p ++ [x]) eqn:Ep; [destruct p; discriminate|]. destruct (p ++ x :: t) eqn:Ep2; [destruct p; discriminate|]. exact (IHp E). }
      unfold recs_at in Hl. rewrite X in Hl. discriminate.
Qed.

(* ---------------- the extreme values ---------------- *)
Section EXT.
Variable V : value -> Prop.
Hypothesis HV : forall v w, V v -> V w -> in_range v /\ not_nan v /\ cmp_exact v w /\ nonempty v = true.
Definition V' (v : value) : Prop := v = VInv \/ V v.
Lemma V_ne v : V v -> v <> VInv. Proof. intros H ->. destruct (HV VInv VInv H H) as (_ & _ & _ & K). discriminate. Qed.
Lemma V'_ok v w : V' v -> V' w -> in_range v /\ not_nan v /\ cmp_exact v w.
Proof.
  intros [->|Hv] Hw; [cbn; destruct w; auto|]. destruct Hw as [->|Hw]; [|destruct (HV v w Hv Hw) as (? & ? & ? & _); auto]. destruct (HV v v Hv Hv) as (? & ? & _). repeat split; auto. destruct v; exact Logic.I.
Qed.
Lemma V'_lt v w : V' v -> V' w -> (vltb v w = true <-> vorder v w = Lt).
Proof. intros Hv Hw. apply vltb_order; [apply (V'_ok v w)|apply (V'_ok w v)|apply (V'_ok v w)]; auto. Qed.
Lemma V'_gt v w : V' v -> V' w -> (vgtb v w = true <-> vorder v w = Gt).
Proof. intros Hv Hw. apply vgtb_order; [apply (V'_ok v w)|apply (V'_ok w v)|apply (V'_ok v w)]; auto. Qed.
Lemma V'_anti v w : V' v -> V' w -> vorder w v = CompOpp (vorder v w).
Proof. intros Hv Hw. apply vorder_antisym; [apply (V'_ok v w)|apply (V'_ok w v)]; auto. Qed.
Lemma V'_eq a b c : V' a -> V' b -> V' c -> vorder a b = Eq -> vorder a c = vorder b c.
Proof. intros Ha Hb Hc. apply vorder_eq_l; [apply (V'_ok a b)|apply (V'_ok b a)|apply (V'_ok c a)]; auto. Qed.
Lemma V'_trans a b c : V' a -> V' b -> V' c -> vorder a b = Lt -> vorder b c = Lt -> vorder a c = Lt.
Proof. intros Ha Hb Hc. apply vorder_trans; [apply (V'_ok a b)|apply (V'_ok b a)|apply (V'_ok c a)]; auto. Qed.
Lemma inv_lt v : V v -> vorder VInv v = Lt.
Proof. intro H. pose proof (V_ne v H). destruct v; cbn; try reflexivity; congruence. Qed.
Lemma V'_refl v : V' v -> vorder v v = Eq.
Proof. intro H. pose proof (V'_anti v v H H) as E. destruct (vorder v v); cbn in E; auto; discriminate. Qed.
(* u is at least w *)
Definition ge (u w : value) : Prop := vorder u w <> Lt.
Lemma ge_trans a b c : V' a -> V' b -> V' c -> ge a b -> ge b c -> ge a c.
Proof.
  intros Ha Hb Hc H1 H2 E. unfold ge in *. destruct (vorder a b) eqn:E1; [rewrite (V'_eq a b c) in E by auto; auto|congruence|].
  assert (E1' : vorder b a = Lt) by (rewrite (V'_anti a b), E1; auto). apply H2. exact (V'_trans b a c Hb Ha Hc E1' E).
Qed.
Lemma vmax_spec v x : V' v -> V' x -> V' (vmax v x) /\ ge (vmax v x) v /\ ge (vmax v x) x /\ (vmax v x = v \/ vmax v x = x).
Proof.
  intros Hv Hx. unfold vmax, ge. destruct (vltb v x) eqn:E.
  - apply (V'_lt v x) in E; auto. repeat split; auto; [rewrite (V'_anti v x), E by auto; discriminate|rewrite V'_refl by auto; discriminate].
  - repeat split; auto; [rewrite V'_refl by auto; discriminate|]. intro K. apply (V'_lt v x) in K; auto. congruence.
Qed.
Lemma vmin_spec v x : V v -> V x -> V (vmin v x) /\ ge v (vmin v x) /\ ge x (vmin v x) /\ (vmin v x = v \/ vmin v x = x).
Proof.
  intros Hv Hx. assert (Hv' : V' v) by (right; auto). assert (Hx' : V' x) by (right; auto). unfold vmin, ge. destruct (vltb x v) eqn:E.
  - apply (V'_lt x v) in E; auto. repeat split; auto; [rewrite (V'_anti x v), E by auto; discriminate|rewrite V'_refl by auto; discriminate].
  - repeat split; auto; [rewrite V'_refl by auto; discriminate|]. intro K. apply (V'_lt x v) in K; auto. congruence.
Qed.
Lemma comb_max v x : V' v -> V' x -> V' (comb vmax v x) /\ ge (comb vmax v x) v /\ ge (comb vmax v x) x /\ (comb vmax v x = v \/ comb vmax v x = x).
Proof.
  intros Hv Hx. unfold comb. destruct (nonempty v) eqn:E; [apply vmax_spec; auto|]. assert (v = VInv) by (destruct v; auto; discriminate). subst v. repeat split; auto; [|unfold ge; rewrite V'_refl by auto; discriminate].
  unfold ge. destruct Hx as [->|Hx]; [cbn; discriminate|]. rewrite (V'_anti VInv x), (inv_lt x Hx) by (unfold V'; auto). discriminate.
Qed.
Section MAXV.
Variable a : N.
Lemma recs_max : forall rs, (forall r v, In r rs -> rfind a r = Some v -> V v) -> forall v0, V' v0 ->
  let m := fold_left (fun v r => match rfind a r with Some x => comb vmax v x | None => v end) rs v0 in
  V' m /\ ge m v0 /\ (forall r v, In r rs -> rfind a r = Some v -> ge m v) /\ (m = v0 \/ exists r, In r rs /\ rfind a r = Some m).
Proof.
  induction rs as [|r rs IH]; intros Hr v0 H0; cbn [fold_left].
  - repeat split; auto; [unfold ge; rewrite V'_refl by auto; discriminate|intros r v []].
  - assert (Hx : V' (match rfind a r with Some x => comb vmax v0 x | None => v0 end) /\ ge (match rfind a r with Some x => comb vmax v0 x | None => v0 end) v0 /\ (forall v, rfind a r = Some v -> ge (match rfind a r with Some x => comb vmax v0 x | None => v0 end) v) /\ (match rfind a r with Some x => comb vmax v0 x | None => v0 end = v0 \/ rfind a r = Some (match rfind a r with Some x => comb vmax v0 x | None => v0 end))).
    { destruct (rfind a r) as [x|] eqn:E.
      - assert (Vx : V' x) by (right; eapply Hr; [left|]; eauto). destruct (comb_max v0 x H0 Vx) as (C1 & C2 & C3 & C4). repeat split; auto; [intros v Ev; injection Ev as <-; auto|]. destruct C4 as [C4|C4]; [left|right; rewrite C4]; auto.
      - repeat split; auto; [unfold ge; rewrite V'_refl by auto; discriminate|discriminate]. }
    destruct Hx as (X1 & X2 & X3 & X4). set (v1 := match rfind a r with Some x => comb vmax v0 x | None => v0 end) in *.
    destruct (IH (fun r' v H => Hr r' v (or_intror H)) v1 X1) as (I1 & I2 & I3 & I4). split; [exact I1|]. split; [eapply ge_trans; [| | |exact I2|]; auto|]. split.
    + intros r' v [<-|Hin] Hf; [|eauto]. assert (Vv : V' v) by (right; eapply Hr; [left|]; eauto). eapply ge_trans; [| | |exact I2|]; auto.
    + destruct I4 as [I4|(r' & J1 & J2)]; [|right; exists r'; split; [right|]; auto]. rewrite I4. destruct X4 as [X4|X4]; [left; auto|right; exists r; split; [left|]; auto].
Qed.
Lemma max_spec : forall k n, (depth n <= k)%nat -> (forall v, sval a n v -> V v) ->
  V' (max_val a n) /\ (forall v, sval a n v -> ge (max_val a n) v) /\ (max_val a n = VInv \/ sval a n (max_val a n)).
Proof.
  induction k as [|k IH]; intros n Hk HVn; [destruct n; cbn [depth] in Hk; lia|]. destruct n as [l rs ks]. change (max_val a (SNode l rs ks)) with (fold_left (fun v c => comb vmax v (node_val vmax a c)) ks (recs_val vmax a rs)).
  destruct (recs_max rs (fun r v H1 H2 => HVn v (sv_own a (SNode l rs ks) r v H1 H2)) VInv (or_introl eq_refl)) as (R1 & R2 & R3 & R4). fold (recs_val vmax a rs) in R1, R2, R3, R4.
  assert (K : forall ks', incl ks' ks -> forall v0, V' v0 -> let m := fold_left (fun v c => comb vmax v (node_val vmax a c)) ks' v0 in V' m /\ ge m v0 /\ (forall c v, In c ks' -> sval a c v -> ge m v) /\ (m = v0 \/ m = VInv \/ exists c, In c ks' /\ sval a c m)).
  { induction ks' as [|c ks' IHk]; intros Hi v0 H0; cbn [fold_left]; [repeat split; auto; [unfold ge; rewrite V'_refl by auto; discriminate|intros c v []]|].
    assert (Hc : In c ks) by (apply Hi; left; auto). assert (HVc : forall v, sval a c v -> V v) by (intros v Hv; apply HVn; eapply sv_kid; eauto). pose proof (kid_depth (SNode l rs ks) c Hc) as Dc.
    destruct (IH c ltac:(lia) HVc) as (C1 & C2 & C3). change (node_val vmax a c) with (max_val a c) in *. destruct (comb_max v0 (max_val a c) H0 C1) as (M1 & M2 & M3 & M4).
    destruct (IHk (fun x H => Hi x (or_intror H)) _ M1) as (I1 & I2 & I3 & I4). split; [exact I1|]. split; [eapply ge_trans; [| | |exact I2|]; auto|]. split.
    - intros c' v [<-|Hin] Hf; [|eauto]. assert (Vv : V' v) by (right; auto). eapply ge_trans; [| | |exact I2|]; auto. eapply ge_trans; [| | |exact M3|]; auto.
    - destruct I4 as [I4|[I4|(c' & J1 & J2)]]; [|auto|right; right; exists c'; split; [right|]; auto]. rewrite I4. destruct M4 as [->| ->]; auto. destruct C3 as [->|C3]; auto. right. right. exists c. split; [left|]; auto. }
  destruct (K ks (incl_refl ks) _ R1) as (K1 & K2 & K3 & K4). split; [exact K1|]. split.
  - intros v Hv. inversion Hv as [? r ? Hr Hf|? c ? Hc Hs]; subst; cbn [sn_recs sn_kids] in *; [|eauto]. assert (Vv : V' v) by (right; auto). eapply ge_trans; [| | |exact K2|]; eauto.
  - destruct K4 as [K4|[K4|(c & J1 & J2)]]; [|auto|right; eapply sv_kid; eauto]. rewrite K4. destruct R4 as [->|(r & Q1 & Q2)]; auto. right. eapply sv_own; eauto.
Qed.
(* the minimum, when every node of the subtree has a value below it *)
Inductive full : snode -> Prop := full_c n : (exists v, sval a n v) -> Forall full (sn_kids n) -> full n.
Lemma recs_min : forall rs, (forall r v, In r rs -> rfind a r = Some v -> V v) -> forall v0, V' v0 ->
  let m := fold_left (fun v r => match rfind a r with Some x => comb vmin v x | None => v end) rs v0 in
  V' m /\ (v0 <> VInv -> m <> VInv /\ ge v0 m) /\ (forall r v, In r rs -> rfind a r = Some v -> m <> VInv /\ ge v m) /\ (m = v0 \/ exists r, In r rs /\ rfind a r = Some m).
Proof.
  induction rs as [|r rs IH]; intros Hr v0 H0; cbn [fold_left].
  - split; [auto|]. split; [intro K; split; auto; unfold ge; rewrite V'_refl by auto; discriminate|]. split; [intros r v []|auto].
  - set (v1 := match rfind a r with Some x => comb vmin v0 x | None => v0 end) in *.
    assert (Hx : V' v1 /\ (v0 <> VInv -> v1 <> VInv /\ ge v0 v1) /\ (forall v, rfind a r = Some v -> v1 <> VInv /\ ge v v1) /\ (v1 = v0 \/ rfind a r = Some v1)).
    { unfold v1. destruct (rfind a r) as [x|] eqn:E.
      - assert (Vx : V x) by (eapply Hr; [left|]; eauto). unfold comb. destruct H0 as [->|H0]; cbn [nonempty].
        + split; [right; auto|]. split; [congruence|]. split; [intros v Ev; injection Ev as <-; split; [apply V_ne; auto|unfold ge; rewrite V'_refl by (right; auto); discriminate]|right; auto].
        + assert (Ne : nonempty v0 = true) by (destruct (HV v0 v0 H0 H0) as (_ & _ & _ & K); auto). rewrite Ne. destruct (vmin_spec v0 x H0 Vx) as (C1 & C2 & C3 & C4).
          split; [right; auto|]. split; [intros _; split; [apply V_ne; auto|auto]|]. split; [intros v Ev; injection Ev as <-; split; [apply V_ne; auto|auto]|]. destruct C4 as [C4|C4]; rewrite C4; auto.
      - split; auto. split; [intro K; split; auto; unfold ge; rewrite V'_refl by auto; discriminate|]. split; [discriminate|auto]. }
    destruct Hx as (X1 & X2 & X3 & X4). destruct (IH (fun r' v H => Hr r' v (or_intror H)) v1 X1) as (I1 & I2 & I3 & I4). split; [exact I1|]. split; [|split].
    + intro K. destruct (X2 K) as (Y1 & Y2). destruct (I2 Y1) as (Y3 & Y4). split; auto. eapply ge_trans; [| | |exact Y2|]; auto.
    + intros r' v [<-|Hin] Hf; [|eauto]. assert (Vv : V' v) by (right; eapply Hr; [left|]; eauto). destruct (X3 v Hf) as (Y1 & Y2). destruct (I2 Y1) as (Y3 & Y4). split; auto. eapply ge_trans; [| | |exact Y2|]; auto.
    + destruct I4 as [I4|(r' & J1 & J2)]; [|right; exists r'; split; [right|]; auto]. rewrite I4. destruct X4 as [X4|X4]; [left; auto|right; exists r; split; [left|]; auto].
Qed.
Lemma min_spec : forall k n, (depth n <= k)%nat -> (forall v, sval a n v -> V v) -> full n ->
  V (min_val a n) /\ (forall v, sval a n v -> ge v (min_val a n)) /\ sval a n (min_val a n).
Proof.
  induction k as [|k IH]; intros n Hk HVn Fn; [destruct n; cbn [depth] in Hk; lia|]. destruct n as [l rs ks]. change (min_val a (SNode l rs ks)) with (fold_left (fun v c => comb vmin v (node_val vmin a c)) ks (recs_val vmin a rs)). inversion Fn as [? (w & Hw) Fk]; subst. cbn [sn_kids] in Fk.
  destruct (recs_min rs (fun r v H1 H2 => HVn v (sv_own a (SNode l rs ks) r v H1 H2)) VInv (or_introl eq_refl)) as (R1 & _ & R3 & R4). fold (recs_val vmin a rs) in R1, R3, R4.
  assert (K : forall ks', incl ks' ks -> forall v0, V' v0 -> let m := fold_left (fun v c => comb vmin v (node_val vmin a c)) ks' v0 in V' m /\ (v0 <> VInv -> m <> VInv /\ ge v0 m) /\ (forall c v, In c ks' -> sval a c v -> m <> VInv /\ ge v m) /\ (m = v0 \/ exists c, In c ks' /\ sval a c m)).
  { induction ks' as [|c ks' IHk]; intros Hi v0 H0; cbn [fold_left].
    - split; [auto|]. split; [intro K; split; auto; unfold ge; rewrite V'_refl by auto; discriminate|]. split; [intros c v []|auto].
    - assert (Hc : In c ks) by (apply Hi; left; auto). assert (HVc : forall v, sval a c v -> V v) by (intros v Hv; apply HVn; eapply sv_kid; eauto). pose proof (kid_depth (SNode l rs ks) c Hc) as Dc.
      destruct (IH c ltac:(lia) HVc) as (C1 & C2 & C3); [rewrite Forall_forall in Fk; auto|]. change (node_val vmin a c) with (min_val a c) in *.
      set (v1 := comb vmin v0 (min_val a c)) in *.
      assert (X : V v1 /\ (v0 <> VInv -> ge v0 v1) /\ ge (min_val a c) v1 /\ (v1 = v0 \/ v1 = min_val a c)).
      { unfold v1, comb. destruct H0 as [->|H0]; cbn [nonempty].
        - split; auto. split; [congruence|]. split; [unfold ge; rewrite V'_refl by (right; auto); discriminate|auto].
        - assert (Ne : nonempty v0 = true) by (destruct (HV v0 v0 H0 H0) as (_ & _ & _ & K); auto). rewrite Ne. destruct (vmin_spec v0 (min_val a c) H0 C1) as (D1 & D2 & D3 & D4). auto. }
      destruct X as (X1 & X2 & X3 & X4). destruct (IHk (fun x H => Hi x (or_intror H)) v1 (or_intror X1)) as (I1 & I2 & I3 & I4). destruct (I2 (V_ne v1 X1)) as (Y1 & Y2). split; [exact I1|]. split; [|split].
      + intro K0. split; auto. assert (V' v1) by (right; auto). eapply ge_trans; [| | |exact (X2 K0)|]; auto.
      + intros c' v [<-|Hin] Hf; [|eauto]. assert (Vv : V' v) by (right; auto). assert (V1 : V' v1) by (right; auto). assert (V2 : V' (min_val a c)) by (right; auto). split; auto. eapply ge_trans; [| | |exact (C2 v Hf)|]; auto. eapply ge_trans; [| | |exact X3|]; auto.
      + destruct I4 as [I4|(c' & J1 & J2)]; [|right; exists c'; split; [right|]; auto]. rewrite I4. destruct X4 as [->| ->]; auto. right. exists c. split; [left|]; auto. }
  destruct (K ks (incl_refl ks) _ R1) as (K1 & K2 & K3 & K4).
  set (m := fold_left (fun v c => comb vmin v (node_val vmin a c)) ks (recs_val vmin a rs)) in *.
  assert (G : forall v, sval a (SNode l rs ks) v -> m <> VInv /\ ge v m).
  { intros v Hv. inversion Hv as [? r ? Hr Hf|? c ? Hc Hs]; subst; cbn [sn_recs sn_kids] in *; [|eauto]. destruct (R3 r v Hr Hf) as (Y1 & Y2). destruct (K2 Y1) as (Y3 & Y4). split; auto. assert (Vv : V' v) by (right; auto). eapply ge_trans; [| | |exact Y2|]; auto. }
  destruct (G w Hw) as (G1 & _). assert (Vm : V m) by (destruct K1 as [K1|K1]; [contradiction|auto]). split; auto. split; [intros v Hv; apply G; auto|].
  destruct K4 as [K4|(c & J1 & J2)]; [|eapply sv_kid; eauto]. rewrite K4 in *. destruct R4 as [R4|(r & Q1 & Q2)]; [rewrite R4 in G1; congruence|]. eapply sv_own; eauto.
Qed.
End MAXV.
End EXT.

(* ---------------- the order of siblings in the listing ---------------- *)
Lemma SS_app {A} (R : A -> A -> Prop) l m : StronglySorted R l -> StronglySorted R m -> (forall x y, In x l -> In y m -> R x y) -> StronglySorted R (l ++ m).
Proof.
  intros S1 S2 H. induction S1 as [|x l S1 IH F]; cbn [app]; auto. constructor; [apply IH; intros; apply H; [right|]; auto|]. apply Forall_app. split; auto. apply Forall_forall. intros y Hy. apply H; [left|]; auto.
Qed.
Definition sibl (G : snode -> snode -> Prop) (x y : list label * snode) : Prop := forall p lx ly, fst x = p ++ [lx] -> fst y = p ++ [ly] -> G (snd x) (snd y).
Lemma porder_sorted (Q : snode -> Prop) (G : snode -> snode -> Prop) si :
  (forall n, Q n -> Forall Q (sn_kids n)) -> (forall n m, eqv n m -> Q n -> Q m) -> (forall l, Forall Q l -> StronglySorted G (sorted_nodes si l)) ->
  forall fuel pre f, Forall Q f -> uniq f -> StronglySorted (sibl G) (porder fuel pre si f).
Proof.
  intros Qk Qe HG. induction fuel as [|fu IH]; intros pre f Qf U; [constructor|]. cbn [porder].
  assert (U1 : NoDup (map sn_lab (sorted_nodes si f))) by (eapply Permutation_NoDup; [apply leqv_labs; apply sorted_leqv|apply U]).
  assert (U2 : Forall (fun n => uniq (sn_kids n) /\ Q n) (sorted_nodes si f)).
  { apply Forall_forall. intros m Hm. destruct (leqv_in_r _ _ m (sorted_leqv si f) Hm) as (m0 & H0 & E). split; [|eapply Qe; eauto; rewrite Forall_forall in Qf; auto]. destruct E as (_ & E2 & _). rewrite <- E2. apply uniq_kids. destruct U as (_ & U). rewrite Forall_forall in U. auto. }
  pose proof (HG f Qf) as HS. revert HS U1 U2. generalize (sorted_nodes si f). clear U Qf f. intros ns HS. induction HS as [|n ns HS IHn HF]; intros U1 U2; [constructor|].
  change (flat_map ?g (n :: ns)) with (((pre ++ [sn_lab n], n) :: porder fu (pre ++ [sn_lab n]) si (sn_kids n)) ++ flat_map g ns). cbn [map] in U1. inversion U1 as [|? ? N1 N2]; inversion U2 as [|? ? (V1 & V2) V3]; subst. apply SS_app; auto.
  - constructor; [apply IH; auto|]. apply Forall_forall. intros (p', m) Hin. destruct (porder_pre _ _ _ _ _ _ Hin) as (x & t & ->). intros p lx ly E1 E2. cbn [fst] in *. exfalso. apply (f_equal (@length label)) in E1. apply (f_equal (@length label)) in E2. rewrite !app_length in E1. rewrite !app_length in E2. cbn [length] in *. lia.
  - intros (p1, n1) (p2, n2) H1 H2. apply in_flat_map in H2. destruct H2 as (m & Hm & H2). assert (Hne : sn_lab n <> sn_lab m) by (intro E; apply N1; rewrite E; apply in_map; auto).
    assert (K1 : (p1 = pre ++ [sn_lab n] /\ n1 = n) \/ exists x t, p1 = pre ++ sn_lab n :: x :: t) by (destruct H1 as [H1|H1]; [injection H1 as <- <-; auto|right; destruct (porder_pre _ _ _ _ _ _ H1) as (x & t & ->); exists x, t; rewrite <- app_assoc; reflexivity]).
    assert (K2 : (p2 = pre ++ [sn_lab m] /\ n2 = m) \/ exists x t, p2 = pre ++ sn_lab m :: x :: t) by (destruct H2 as [H2|H2]; [injection H2 as <- <-; auto|right; destruct (porder_pre _ _ _ _ _ _ H2) as (x & t & ->); exists x, t; rewrite <- app_assoc; reflexivity]).
    intros p lx ly E1 E2. cbn [fst snd] in *.
    assert (X : forall s (a b : label) t, s ++ a :: b :: t = p ++ [lx] \/ s ++ a :: b :: t = p ++ [ly] -> exists t', p = s ++ a :: t').
    { intros s a b t E. assert (E' : exists z, s ++ a :: b :: t = p ++ [z]) by (destruct E as [E|E]; eauto). destruct E' as (z & E'). destruct (exists_last (l := b :: t) ltac:(discriminate)) as (t0 & z0 & E0). rewrite E0 in E'. change (a :: t0 ++ [z0]) with ((a :: t0) ++ [z0]) in E'. rewrite app_assoc in E'. apply app_inj_tail in E'. destruct E' as (E' & _). exists t0. auto. }
    destruct K1 as [(K1 & ->)|(x1 & t1 & K1)], K2 as [(K2 & ->)|(x2 & t2 & K2)].
    + rewrite Forall_forall in HF. auto.
    + exfalso. rewrite K1 in E1. apply app_inj_tail in E1. destruct E1 as (<- & _). rewrite K2 in E2. apply (f_equal (@length label)) in E2. rewrite !app_length in E2. cbn [length] in E2. lia.
    + exfalso. rewrite K2 in E2. apply app_inj_tail in E2. destruct E2 as (<- & _). rewrite K1 in E1. apply (f_equal (@length label)) in E1. rewrite !app_length in E1. cbn [length] in E1. lia.
    + exfalso. rewrite K1 in E1. rewrite K2 in E2. destruct (X _ _ _ _ (or_introl E1)) as (t' & P1). destruct (X _ _ _ _ (or_intror E2)) as (t'' & P2). rewrite P1 in P2. apply app_inv_head in P2. injection P2 as P2 _. contradiction.
Qed.
(* the last sort attribute decides *)
Lemma sorted_last si a o l : sorted_nodes (si ++ [(a, o)]) l = let ns := map (sort_node a (is_asc o)) (sorted_nodes si l) in match o with SNone => ns | _ => ssort (node_lt a o) ns end.
Proof. unfold sorted_nodes. rewrite fold_left_app. destruct o; reflexivity. Qed.
Lemma sorted_from si a o l m : In m (sorted_nodes (si ++ [(a, o)]) l) -> exists m0, In m0 l /\ eqv m0 m /\ exists rs, sn_recs m = ssort (rec_lt a (is_asc o)) rs.
Proof.
  rewrite sorted_last. cbv zeta. intro H. assert (H' : In m (map (sort_node a (is_asc o)) (sorted_nodes si l))) by (destruct o; auto; apply ssort_in in H; auto). apply in_map_iff in H'. destruct H' as (k & <- & Hk).
  destruct (leqv_in_r _ _ k (sorted_leqv si l) Hk) as (m0 & H0 & E). exists m0. split; auto. split; [eapply eqv_trans; eauto; apply sort_node_eqv|]. exists (sn_recs k). reflexivity.
Qed.
