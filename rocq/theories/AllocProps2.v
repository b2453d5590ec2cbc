From Coq Require Import Permutation Sorted.
From Verif Require Import Base SplayModel SplaySpec SplayProofs SplayProofs2 SplayProofs3 SplayProps AllocModel AllocSpec AllocProps.
Open Scope N_scope.

Lemma nsum_app : forall a b, nsum (a ++ b) = nsum a + nsum b.
Proof. induction a; intros; cbn [app]; auto. change (nsum (a :: a0 ++ b)) with (a + nsum (a0 ++ b)). rewrite IHa. change (nsum (a :: a0)) with (a + nsum a0). lia. Qed.
Lemma nsum_remove : forall l k x, nth_error l k = Some x -> nsum l = x + nsum (remove_nth k l).
Proof.
  induction l; intros [|k] x E; cbn [nth_error] in E; try discriminate.
  - injection E as ->. reflexivity.
  - specialize (IHl _ _ E). change (nsum (a :: l)) with (a + nsum l). change (nsum (remove_nth (S k) (a :: l))) with (a + nsum (remove_nth k l)). lia.
Qed.
Lemma map_remove : forall (l : list ainf) k, map ai_size (remove_nth k l) = remove_nth k (map ai_size l).
Proof. intros. unfold remove_nth. rewrite map_app, firstn_map, skipn_map. reflexivity. Qed.
Definition szs (l : list ainf) : N := nsum (map ai_size l).
Lemma szs_app : forall a b, szs (a ++ b) = szs a + szs b.
Proof. intros. unfold szs. rewrite map_app. apply nsum_app. Qed.
Lemma szs_cons : forall a b, szs (a :: b) = ai_size a + szs b.
Proof. reflexivity. Qed.
Lemma tins_szs : forall nx v (t : @tr ainf), (forall w, In w (vals t) -> ai_cmp v w <> 0%Z) ->
  szs (vals (tins ai_cmp nx v t)) = ai_size v + szs (vals t).
Proof.
  induction t as [|n l IHl w r IHr]; intros H; cbn [tins vals].
  - reflexivity.
  - assert (Hw : ai_cmp v w <> 0%Z) by (apply H; cbn; apply in_or_app; right; left; auto).
    assert (Hl : forall x, In x (vals l) -> ai_cmp v x <> 0%Z) by (intros; apply H; cbn; apply in_or_app; auto).
    assert (Hr : forall x, In x (vals r) -> ai_cmp v x <> 0%Z) by (intros; apply H; cbn; apply in_or_app; right; right; auto).
    destruct (Z.ltb_spec (ai_cmp v w) 0); [|destruct (Z.gtb_spec (ai_cmp v w) 0)]; cbn [vals]; rewrite ?szs_app, ?szs_cons, ?IHl, ?IHr by auto; lia.
Qed.
Lemma total_lt : forall dims e, e < W64 -> total_size e dims < W64.
Proof. induction dims; intros e L; cbn [total_size fold_left]; auto. apply IHdims. apply N.mod_lt. discriminate. Qed.

Record binv (s : asvc) (T : @tr ainf) : Prop := mkbinv {
  bv_a : ainv s T;
  bv_sum : al_active s = (szs (vals T) + szs (al_pins s) + nsum (al_psub s)) mod W64;
  bv_pins : Forall (fun a => ai_size a < W64) (al_pins s);
  bv_vals : Forall (fun a => ai_size a < W64) (vals T);
  bv_psub : Forall (fun n => n < W64) (al_psub s)
}.
Lemma Forall_remove : forall A (P : A -> Prop) l k, Forall P l -> Forall P (remove_nth k l).
Proof. intros A P l k F. rewrite Forall_forall in *. intros x H. apply F. eapply in_remove_nth; eauto. Qed.
Lemma al_step_bin : forall s T o x s', binv s T -> elem_ok o ->
  (match o with ATrackB k => forall i a, nth_error (al_pins s) k = Some i -> live s a -> ai_start a <> ai_start i | _ => True end) ->
  al_step s o = Some (x, s') -> exists T', binv s' T'.
Proof.
  intros s T o x s' [I SU FP FV FS] EO FR E. pose proof (ainv_live _ _ I) as LV.
  destruct o as [ptr elem dims|k|ptr|k|addr| |]; cbn [al_step elem_ok] in *.
  - destruct EO as (EO & EL64). apply N.eqb_neq in EO as EO'. rewrite EO' in E. injection E as <- <-. exists T.
    destruct I. constructor; cbn [al_active al_pins al_psub].
    + constructor; cbn [al_tree al_pins]; auto. intros a H. apply in_app_or in H. destruct H as [H|[<-|[]]]; auto.
    + rewrite SU, szs_app. unfold wrap64. rewrite N.add_mod_idemp_l by discriminate. f_equal.
      rewrite (szs_cons _ []). cbn [ai_size]. change (szs []) with 0. lia.
    + apply Forall_app. split; auto. constructor; [|constructor]. apply total_lt; auto.
    + auto.
    + auto.
  - destruct (nth_error (al_pins s) k) as [info|] eqn:NE; [|injection E as <- <-; exists T; constructor; auto].
    destruct I as [SI_ SO EL EP].
    destruct (insert_si ai_cmp (al_tree s) T info SI_) as (t & T' & E1 & S1 & V1). rewrite E1 in E. injection E as <- <-.
    destruct (tins_vals ai_cmp ai_cmp_ok (st_next (al_tree s)) info T SO) as (A & B).
    assert (NI := nth_error_In _ _ NE).
    exists T'. constructor; cbn [al_active al_pins al_psub].
    + constructor; cbn [al_tree al_pins]; auto.
      * rewrite V1. auto.
      * intros a H. rewrite V1 in H. apply B in H. destruct H as [->|(H & _)]; auto.
      * intros a H. apply EP. eapply in_remove_nth; eauto.
    + rewrite SU, V1, tins_szs.
      * f_equal. unfold szs at 2 4. rewrite map_remove. rewrite (nsum_remove (map ai_size (al_pins s)) k (ai_size info)); [lia|].
        apply map_nth_error. auto.
      * intros w W Q. apply ai_cmp_eq in Q. apply (FR info w eq_refl); [apply LV; auto|congruence].
    + apply Forall_remove; auto.
    + rewrite V1. rewrite Forall_forall in *. intros a H. apply B in H. destruct H as [->|(H & _)]; auto.
    + auto.
  - destruct I as [SI_ SO EL EP]. destruct (find_si (al_tree s) T (has_start ptr) SI_) as (F & D). rewrite F in E.
    destruct (tfind (has_start ptr) T) as [[i v]|] eqn:TF; cbn [option_map fst] in E.
    + rewrite (D _ _ eq_refl) in E. destruct (tfind_in _ _ _ _ TF) as (Ii & _).
      destruct (remove_si (al_tree s) T i SI_ Ii) as (t & T' & v' & a & b & E1 & S1 & DV & V1 & V2). rewrite E1 in E.
      rewrite (D _ _ eq_refl) in DV. injection DV as <-. injection E as <- <-.
      exists T'. rewrite V1 in FV. apply Forall_app in FV. destruct FV as (FV1 & FV2). inversion FV2; subst.
      constructor; cbn [al_active al_pins al_psub].
      * constructor; cbn [al_tree al_pins]; auto.
        -- rewrite V1 in SO. apply (sorted_mid ai_cmp ai_cmp_ok) in SO. destruct SO as (Sa & Sb & La & Lb). rewrite V2. apply sorted_app. split; auto. split; auto.
           intros p q X Y. unfold lt_. eapply (cmp_trans _ ai_cmp_ok); [apply La|apply Lb]; auto.
        -- intros p H. apply EL. rewrite V1. rewrite V2 in H. apply in_app_or in H. apply in_or_app. cbn; tauto.
      * rewrite SU, V1, V2, nsum_app, !szs_app, szs_cons. f_equal. change (nsum [ai_size v]) with (ai_size v + 0). lia.
      * auto.
      * rewrite V2. apply Forall_app; auto.
      * apply Forall_app. auto.
    + injection E as <- <-. exists T. constructor; cbn [al_active al_pins al_psub]; auto. constructor; auto.
  - destruct (nth_error (al_psub s) k) as [z|] eqn:NE; [|injection E as <- <-; exists T; constructor; auto]. injection E as <- <-. exists T.
    constructor; cbn [al_active al_pins al_psub]; auto.
    + destruct I; constructor; auto.
    + rewrite SU. rewrite (nsum_remove _ _ _ NE). unfold sub_wrap. assert (z < W64) by (rewrite Forall_forall in FS; apply FS; eapply nth_error_In; eauto).
      set (A := szs (vals T) + szs (al_pins s)). set (B := nsum (remove_nth k (al_psub s))).
      assert (EQ : (A + (z + B)) mod W64 + W64 - z = (A + (z + B)) mod W64 + (W64 - z)) by lia. rewrite EQ.
      rewrite N.add_mod_idemp_l by discriminate. assert (A + (z + B) + (W64 - z) = A + B + 1 * W64) as -> by lia. rewrite N.mod_add by discriminate. reflexivity.
    + apply Forall_remove; auto.
  - destruct I as [SI_ SO EL EP]. destruct (find_si (al_tree s) T (contains_addr addr) SI_) as (F & D). rewrite F in E.
    assert (s' = s) as ->.
    { destruct (tfind (contains_addr addr) T) as [[i v]|] eqn:TF; cbn [option_map fst] in E; [|congruence].
      rewrite (D _ _ eq_refl) in E. destruct (ai_elem v =? 0); congruence. }
    exists T. constructor; auto. constructor; auto.
  - injection E as <- <-. exists T. constructor; auto. destruct I; constructor; auto.
  - injection E as <- <-. exists T. constructor; auto.
Qed.
Lemma al_run_bin : forall l s T xs s', binv s T -> Forall elem_ok l -> fresh_tracks s l -> al_run s l = Some (xs, s') -> exists T', binv s' T'.
Proof.
  induction l as [|o l IH]; intros s T xs s' B F FR R; cbn [al_run] in R.
  - injection R as <- <-. eauto.
  - inversion F; subst. cbn [fresh_tracks] in FR. destruct FR as (FR1 & FR2). destruct (al_step s o) as [[x s1]|] eqn:E; [|discriminate].
    destruct (al_run s1 l) as [[ys s2]|] eqn:R2; [|discriminate]. injection R as <- <-.
    destruct (al_step_bin s T o x s1 B H1 FR1 E) as (T1 & B1). eapply IH; eauto.
Qed.
Lemma sorted_nodup : forall l, sorted ai_cmp l -> NoDup l.
Proof.
  induction 1; constructor; auto. intro X. rewrite Forall_forall in H0. specialize (H0 _ X). unfold lt_ in H0. rewrite (cmp_refl _ ai_cmp_ok) in H0. lia.
Qed.
(* If no address is tracked again while it is live, the active memory is the total size of the live
   allocations plus what threads are just about to track or have just untracked (as a 64-bit number) *)
Theorem C48_active : forall l xs s, Forall elem_ok l -> fresh_tracks al_init l -> al_run al_init l = Some (xs, s) ->
  exists S, NoDup S /\ (forall a, In a S <-> live s a) /\
    al_active s = (nsum (map ai_size S) + nsum (map ai_size (al_pins s)) + nsum (al_psub s)) mod W64.
Proof.
  intros l xs s F FR R. destruct (al_run_bin l al_init Lf xs s) as (T & B); auto.
  - constructor; cbn; auto. apply ainv_init.
  - exists (vals T). destruct B as [I SU _ _ _]. split; [apply sorted_nodup; apply I|]. split; [|exact SU]. intros a. symmetry. apply ainv_live; auto.
Qed.

(* high-water marks *)
Lemma tins_szs_le : forall nx v (t : @tr ainf), szs (vals (tins ai_cmp nx v t)) <= ai_size v + szs (vals t).
Proof.
  induction t as [|n l IHl w r IHr]; cbn [tins vals].
  - cbn. lia.
  - destruct (ai_cmp v w <? 0)%Z; [|destruct (ai_cmp v w >? 0)%Z]; cbn [vals]; rewrite !szs_app, !szs_cons; lia.
Qed.
Record cinv (s : asvc) (T : @tr ainf) (tot : N) : Prop := mkcinv {
  cv_a : ainv s T;
  cv_lo : szs (vals T) + szs (al_pins s) + nsum (al_psub s) <= al_active s;
  cv_hi : al_active s <= tot;
  cv_r : al_active s <= al_rhwm s;
  cv_h : al_active s <= al_hwm s
}.
Lemma al_step_cin : forall s T tot o x s', cinv s T tot -> elem_ok o -> tot + tracked_total [o] < W64 -> al_step s o = Some (x, s') ->
  (exists T', cinv s' T' (tot + tracked_total [o])) /\ al_hwm s' = N.max (al_hwm s) (al_active s') /\
  al_rhwm s' = (if is_record o then al_active s else N.max (al_rhwm s) (al_active s')) /\
  (if is_record o then x = AoMem (al_rhwm s) else True).
Proof.
  intros s T tot o x s' [I LO HI RL HL] EO TT E. destruct (al_step_inv s T o I EO) as (x0 & s0 & T0 & E0 & I0). rewrite E in E0. injection E0 as <- <-.
  destruct o as [ptr elem dims|k|ptr|k|addr| |]; cbn [al_step elem_ok is_record] in *.
  - destruct EO as (EO & EL64). apply N.eqb_neq in EO as EO'. rewrite EO' in E. injection E as <- <-.
    change (tracked_total _) with (total_size elem dims + 0) in *. rewrite N.add_0_r in *.
    assert (WR : wrap64 (al_active s + total_size elem dims) = al_active s + total_size elem dims) by (apply N.mod_small; lia).
    split; [|cbn; auto]. exists T. destruct I. constructor; cbn [al_active al_pins al_psub al_rhwm al_hwm]; try rewrite WR.
    + constructor; cbn [al_tree al_pins]; auto. intros a H. apply in_app_or in H. destruct H as [H|[<-|[]]]; auto.
    + rewrite szs_app, szs_cons. cbn [ai_size]. change (szs []) with 0. lia.
    + lia.
    + lia.
    + lia.
  - change (tracked_total _) with 0 in *. destruct (nth_error (al_pins s) k) as [info|] eqn:NE; [|injection E as <- <-; split; [exists T; constructor; auto; lia|split; [lia|split; auto; lia]]].
    destruct I as [SI_ SO EL EP].
    destruct (insert_si ai_cmp (al_tree s) T info SI_) as (t & T' & E1 & S1 & V1). rewrite E1 in E. injection E as <- <-.
    destruct (tins_vals ai_cmp ai_cmp_ok (st_next (al_tree s)) info T SO) as (A & B).
    assert (NI := nth_error_In _ _ NE). split; [|cbn; split; [lia|split; auto; lia]].
    exists T'. constructor; cbn [al_active al_pins al_psub al_rhwm al_hwm]; try lia.
    + constructor; cbn [al_tree al_pins]; auto.
      * rewrite V1. auto.
      * intros a H. rewrite V1 in H. apply B in H. destruct H as [->|(H & _)]; auto.
      * intros a H. apply EP. eapply in_remove_nth; eauto.
    + rewrite V1. pose proof (tins_szs_le (st_next (al_tree s)) info T).
      unfold szs at 2. rewrite map_remove. pose proof (nsum_remove (map ai_size (al_pins s)) k (ai_size info) (map_nth_error _ _ _ NE)). unfold szs at 2 in LO. lia.
  - change (tracked_total _) with 0 in *. destruct I as [SI_ SO EL EP]. destruct (find_si (al_tree s) T (has_start ptr) SI_) as (F & D). rewrite F in E.
    destruct (tfind (has_start ptr) T) as [[i v]|] eqn:TF; cbn [option_map fst] in E.
    + rewrite (D _ _ eq_refl) in E. destruct (tfind_in _ _ _ _ TF) as (Ii & _).
      destruct (remove_si (al_tree s) T i SI_ Ii) as (t & T' & v' & a & b & E1 & S1 & DV & V1 & V2). rewrite E1 in E.
      rewrite (D _ _ eq_refl) in DV. injection DV as <-. injection E as <- <-. split; [|cbn; split; [lia|split; auto; lia]].
      exists T'. constructor; cbn [al_active al_pins al_psub al_rhwm al_hwm]; try lia.
      * constructor; cbn [al_tree al_pins]; auto.
        -- rewrite V1 in SO. apply (sorted_mid ai_cmp ai_cmp_ok) in SO. destruct SO as (Sa & Sb & La & Lb). rewrite V2. apply sorted_app. split; auto. split; auto.
           intros p q X Y. unfold lt_. eapply (cmp_trans _ ai_cmp_ok); [apply La|apply Lb]; auto.
        -- intros p H. apply EL. rewrite V1. rewrite V2 in H. apply in_app_or in H. apply in_or_app. cbn; tauto.
      * rewrite V1, szs_app, szs_cons in LO. rewrite V2, nsum_app, szs_app. change (nsum [ai_size v]) with (ai_size v + 0). lia.
    + injection E as <- <-. split; [|cbn; split; [lia|split; auto; lia]]. exists T. constructor; cbn [al_active al_pins al_psub al_rhwm al_hwm]; try lia. constructor; auto.
  - change (tracked_total _) with 0 in *. destruct (nth_error (al_psub s) k) as [z|] eqn:NE; [|injection E as <- <-; split; [exists T; constructor; auto; lia|split; [lia|split; auto; lia]]].
    injection E as <- <-. pose proof (nsum_remove _ _ _ NE) as NR.
    assert (SW : sub_wrap (al_active s) z = al_active s - z).
    { unfold sub_wrap. assert (al_active s + W64 - z = al_active s - z + 1 * W64) as -> by lia. rewrite N.mod_add by discriminate. apply N.mod_small. lia. }
    cbn [al_hwm al_active al_rhwm]. rewrite SW. split; [|split; [lia|split; auto; lia]]. exists T. constructor; cbn [al_active al_pins al_psub al_rhwm al_hwm]; rewrite ?SW; try lia.
    destruct I; constructor; auto.
  - change (tracked_total _) with 0 in *. assert (s' = s) as ->.
    { destruct I as [SI_ SO EL EP]. destruct (find_si (al_tree s) T (contains_addr addr) SI_) as (F & D). rewrite F in E.
      destruct (tfind (contains_addr addr) T) as [[i v]|] eqn:TF; cbn [option_map fst] in E; [|congruence].
      rewrite (D _ _ eq_refl) in E. destruct (ai_elem v =? 0); congruence. }
    split; [exists T; constructor; auto; lia|split; [lia|split; auto; lia]].
  - change (tracked_total _) with 0 in *. injection E as <- <-. split; [|cbn; split; [lia|split; auto]]. exists T. constructor; cbn [al_active al_pins al_psub al_rhwm al_hwm]; try lia. destruct I; constructor; auto.
  - change (tracked_total _) with 0 in *. injection E as <- <-. split; [exists T; constructor; auto; lia|split; [lia|split; auto; lia]].
Qed.
Lemma tt_cons : forall o l, tracked_total (o :: l) = tracked_total [o] + tracked_total l.
Proof. intros. unfold tracked_total. cbn [flat_map]. rewrite app_nil_r, nsum_app. reflexivity. Qed.
Lemma tt_app : forall a b, tracked_total (a ++ b) = tracked_total a + tracked_total b.
Proof. intros. unfold tracked_total. rewrite flat_map_app. apply nsum_app. Qed.
Lemma al_run_cin : forall l s T tot xs s', cinv s T tot -> Forall elem_ok l -> tot + tracked_total l < W64 -> al_run s l = Some (xs, s') ->
  (exists T', cinv s' T' (tot + tracked_total l)) /\ al_hwm s' = max_of (al_hwm s) (actives s l) /\
  (existsb is_record l = false -> al_rhwm s' = max_of (al_rhwm s) (actives s l)).
Proof.
  induction l as [|o l IH]; intros s T tot xs s' C F TT R; cbn [al_run] in R.
  - injection R as <- <-. rewrite N.add_0_r. split; [eauto|]. cbn. auto.
  - inversion F; subst. rewrite tt_cons in *. destruct (al_step s o) as [[x s1]|] eqn:E; [|discriminate].
    destruct (al_run s1 l) as [[ys s2]|] eqn:R2; [|discriminate]. injection R as <- <-.
    destruct (al_step_cin s T tot o x s1 C H1 ltac:(lia) E) as ((T1 & C1) & HH & HR & _).
    destruct (IH s1 T1 _ ys s2 C1 H2 ltac:(lia) R2) as ((T2 & C2) & A & B). rewrite N.add_assoc. split; [eauto|].
    cbn [actives]. rewrite E. cbn [max_of fold_left existsb]. rewrite <- HH. split; [exact A|].
    intros X. apply orb_false_iff in X. destruct X as (X1 & X2). rewrite X1 in HR. rewrite <- HR. auto.
Qed.
Lemma cinv_init : cinv al_init Lf 0.
Proof. constructor; cbn; try lia. apply ainv_init. Qed.
Lemma al_run_app : forall a b s, al_run s (a ++ b) = match al_run s a with
  | Some (xs, s1) => match al_run s1 b with Some (ys, s2) => Some (xs ++ ys, s2) | None => None end | None => None end.
Proof.
  induction a; intros b s; cbn [al_run app]. { destruct (al_run s b) as [[? ?]|]; auto. }
  destruct (al_step s a) as [[x s1]|]; auto. rewrite IHa. destruct (al_run s1 a0) as [[xs s2]|]; auto. destruct (al_run s2 b) as [[ys s3]|]; auto.
Qed.
(* The total high-water mark is the largest value the counter of active memory ever had *)
Theorem C48_high_water_mark : forall l xs s, Forall elem_ok l -> tracked_total l < W64 -> al_run al_init l = Some (xs, s) ->
  al_hwm s = max_of 0 (actives al_init l).
Proof. intros l xs s F TT R. destruct (al_run_cin l al_init Lf 0 xs s cinv_init F ltac:(lia) R) as (_ & A & _). exact A. Qed.
(* A region high-water mark reported by a snapshot is the largest value of the counter since the previous
   report, including its value at that time *)
Theorem C48_region_high_water_mark : forall l1 l2 xs1 xs2 s1 s2,
  Forall elem_ok (l1 ++ ARecord :: l2) -> tracked_total (l1 ++ ARecord :: l2) < W64 -> existsb is_record l2 = false ->
  al_run al_init (l1 ++ [ARecord]) = Some (xs1, s1) -> al_run s1 l2 = Some (xs2, s2) ->
  exists s3, al_step s2 ARecord = Some (AoMem (max_of (al_active s1) (actives s1 l2)), s3).
Proof.
  intros l1 l2 xs1 xs2 s1 s2 F TT NR R1 R2.
  assert (F1 : Forall elem_ok (l1 ++ [ARecord])).
  { apply Forall_app in F. destruct F as (A & B). apply Forall_app. split; auto. constructor; [exact Logic.I|constructor]. }
  assert (F2 : Forall elem_ok l2). { apply Forall_app in F. destruct F as (A & B). inversion B; auto. }
  rewrite tt_app in TT. rewrite tt_cons in TT. change (tracked_total [ARecord]) with 0 in TT.
  assert (T1 : tracked_total (l1 ++ [ARecord]) = tracked_total l1) by (rewrite tt_app; change (tracked_total [ARecord]) with 0; lia).
  destruct (al_run_cin _ al_init Lf 0 xs1 s1 cinv_init F1 ltac:(lia) R1) as ((T & C) & _).
  destruct (al_run_cin l2 s1 T _ xs2 s2 C F2 ltac:(lia) R2) as (_ & _ & B). specialize (B NR).
  assert (RA : al_rhwm s1 = al_active s1).
  { rewrite al_run_app in R1. destruct (al_run al_init l1) as [[ys s0]|]; [|discriminate]. cbn in R1. injection R1 as <- <-. reflexivity. }
  rewrite RA in B. cbn [al_step]. rewrite B. eexists. reflexivity.
Qed.

Ltac el_ok := repeat match goal with |- Forall _ (_ :: _) => apply Forall_cons; [first [exact Logic.I | split; [discriminate|reflexivity]]|] | |- Forall _ [] => apply Forall_nil end.
(* three allocations, an interior pointer, removal, an unknown address, high-water marks *)
Definition al_hist : list aop :=
  [ATrackA 4096 8 [10; 2]; ATrackB 0; ATrackA 8192 4 [5]; ATrackA 100 1 [16]; ATrackB 1; ATrackB 0; AResolve 4200; AResolve 8211;
   AResolve 8212; ARecord; AUntrackA 4096; AUntrackB 0; AUntrackA 4096; ARecord; ATrackA 0 2 [1]; AActive; ARecord].
Example C48_ex : option_map fst (al_run al_init al_hist) =
  Some [AoTrack 160 1 4096; AoNone; AoTrack 20 2 8192; AoTrack 16 3 100; AoNone; AoNone; AoResolved 1 13; AoResolved 2 4; AoNone; AoMem 196;
        AoTrack (-160) 1 4096; AoNone; AoNone; AoMem 196; AoTrack 2 4 0; AoMem 38; AoMem 38].
Proof. vm_compute. reflexivity. Qed.
Example C48_ex_ok : Forall elem_ok al_hist /\ tracked_total al_hist < W64.
Proof. split; [|vm_compute; reflexivity]. unfold al_hist. el_ok. Qed.

(* Tracking an address again before it is untracked: the tree replaces the old allocation but its size
   stays in the counter for good *)
Theorem C48_active_refuted : exists l xs s, Forall elem_ok l /\ al_run al_init l = Some (xs, s) /\
  al_pins s = [] /\ al_psub s = [] /\ (forall i, st_heap (al_tree s) i = None) /\ al_active s = 100.
Proof.
  exists [ATrackA 4096 1 [100]; ATrackB 0; ATrackA 4096 1 [50]; ATrackB 0; AUntrackA 4096; AUntrackB 0].
  eexists _, _. split; [el_ok|].
  split; [vm_compute; reflexivity|]. split; [reflexivity|]. split; [reflexivity|]. split; [|reflexivity].
  intros [|i]; reflexivity.
Qed.
(* With overlapping live allocations an address inside of one may not be found *)
Theorem C48_overlap_refuted : exists l xs s addr, Forall elem_ok l /\ al_run al_init l = Some (xs, s) /\
  (exists a, live s a /\ covers a addr) /\ al_step s (AResolve addr) = Some (AoNone, s).
Proof.
  exists [ATrackA 1000 1 [500]; ATrackB 0; ATrackA 1200 1 [10]; ATrackB 0]. eexists _, _, 1300.
  split; [el_ok|].
  split; [vm_compute; reflexivity|]. split; [|vm_compute; reflexivity].
  exists (mkai 1000 500 1 1 500). split; [|split; [discriminate|reflexivity]]. exists 0%nat. eexists. split; reflexivity.
Qed.
(* The size in the alloc and free records is an int: a 3 GiB allocation is reported as -1 GiB *)
Theorem C48_size_refuted : exists s, al_step al_init (ATrackA 4096 1024 [3145728]) = Some (AoTrack (-1073741824) 1 4096, s) /\
  total_size 1024 [3145728] = 3221225472.
Proof. eexists. split; vm_compute; reflexivity. Qed.
Definition al_s6 : asvc := Eval vm_compute in match al_run al_init (firstn 6 al_hist) with Some (_, s) => s | None => al_init end.
Example C48_ex_disjoint : (exists xs, al_run al_init (firstn 6 al_hist) = Some (xs, al_s6)) /\ disjoint al_s6 /\ live al_s6 (mkai 4096 160 1 8 20) /\
  fresh_tracks al_init (firstn 6 al_hist).
Proof.
  assert (X : forall a, live al_s6 a -> a = mkai 4096 160 1 8 20 \/ a = mkai 8192 20 2 4 5 \/ a = mkai 100 16 3 1 16).
  { intros a (i & n & H & <-). destruct i as [|[|[|i]]]; cbn in H; try discriminate; injection H as <-; auto. }
  split; [|split; [|split]].
  - eexists. vm_compute. reflexivity.
  - split.
    + intros a H. apply X in H. destruct H as [->|[->| ->]]; reflexivity.
    + intros a b Ha Hb. apply X in Ha, Hb. destruct Ha as [->|[->| ->]]; destruct Hb as [->|[->| ->]]; cbn; lia.
  - exists 0%nat. eexists. split; reflexivity.
  - vm_compute. repeat split; intros; try discriminate;
    match goal with H : Some _ = Some ?i |- _ => injection H as <- end;
    match goal with H : exists _ _, _ |- _ => destruct H as (j & nd & Hj & <-) end;
    destruct j as [|[|[|j]]]; try discriminate; injection Hj as <-; discriminate.
Qed.
(* C41: insertions in and against order, lookups of present and absent keys, removals *)
Definition sp_cmp (a b : N) : Z := (Z.of_N a - Z.of_N b)%Z.
Definition sp_key (k : N) (v : N) : Z := (Z.of_N k - Z.of_N v)%Z.
Definition sp_hist : list (sop N) :=
  map SIns [5; 9; 1; 7; 3; 8; 2] ++ [SFind (sp_key 7); SFind (sp_key 6); SDel (sp_key 5); SFind (sp_key 5); SDel (sp_key 9); SDel (sp_key 1); SFind (sp_key 8)].
Example C41_ex : option_map fst (srun sp_cmp st_init sp_hist) =
  Some [None; None; None; None; None; None; None; Some 7; None; Some 5; None; Some 9; Some 1; Some 8].
Proof. vm_compute. reflexivity. Qed.
Example C41_ex_ok : cmp_ok sp_cmp /\ Forall (op_ok sp_cmp) sp_hist.
Proof.
  split; [constructor; unfold sp_cmp; intros; lia|].
  assert (K : forall k, pred_ok sp_cmp (sp_key k)). { intros k a b _ _ L. unfold sp_cmp, sp_key in *. lia. }
  unfold sp_hist. cbn [map app]. repeat (apply Forall_cons; [first [exact Logic.I | apply K]|]). constructor.
Qed.

(* Every tracked allocation gets a new id: the ids of successive track calls are 1, 2, 3, ... *)
Fixpoint track_uids (l : list aop) (xs : list aout) : list N :=
  match l, xs with
  | ATrackA _ _ _ :: r, AoTrack _ u _ :: ys => u :: track_uids r ys
  | _ :: r, _ :: ys => track_uids r ys
  | _, _ => []
  end.
Definition tracks (l : list aop) : nat := length (filter (fun o => match o with ATrackA _ _ _ => true | _ => false end) l).
Lemma uid_step s o x s1 : al_step s o = Some (x, s1) ->
  match o with ATrackA p _ _ => al_uid s1 = wrap64 (al_uid s + 1) /\ exists z, x = AoTrack z (wrap64 (al_uid s + 1)) p | _ => al_uid s1 = al_uid s end.
Proof.
  destruct o; cbn [al_step]; intro H.
  - destruct (elem =? 0); [discriminate|]. injection H as <- <-. cbn [al_uid]. split; [reflexivity|]. eexists. reflexivity.
  - destruct (nth_error (al_pins s) k); [|injection H as _ <-; reflexivity]. destruct (insert ai_cmp (al_tree s) a); [|discriminate]. injection H as _ <-. reflexivity.
  - destruct (find (al_tree s) (has_start ptr)) as [[i|]|]; [|injection H as _ <-; reflexivity|discriminate]. destruct (deref (al_tree s) i), (remove (al_tree s) i); try discriminate. injection H as _ <-. reflexivity.
  - destruct (nth_error (al_psub s) k); injection H as _ <-; reflexivity.
  - destruct (find (al_tree s) (contains_addr addr)) as [[i|]|]; [|injection H as _ <-; reflexivity|discriminate]. destruct (deref (al_tree s) i) as [info|]; [|discriminate]. destruct (ai_elem info =? 0); [discriminate|]. injection H as _ <-. reflexivity.
  - injection H as _ <-. reflexivity.
  - injection H as _ <-. reflexivity.
Qed.
Lemma uids_from l : forall s xs s', al_run s l = Some (xs, s') -> al_uid s + N.of_nat (tracks l) < W64 ->
  track_uids l xs = map (fun k => al_uid s + N.of_nat k) (seq 1 (tracks l)).
Proof.
  induction l as [|o l IH]; intros s xs s' H Hu; cbn [al_run] in H; [injection H as <- <-; reflexivity|].
  destruct (al_step s o) as [(x, s1)|] eqn:E; [|discriminate]. destruct (al_run s1 l) as [(ys, s2)|] eqn:E2; [|discriminate]. injection H as <- <-.
  assert (U := uid_step _ _ _ _ E). destruct o; try (cbn [track_uids]; rewrite <- U; apply (IH _ _ _ E2); rewrite U; exact Hu).
  destruct U as (U & z & ->). unfold tracks in *. cbn [filter length] in *. fold (tracks l) in *. rewrite Nat2N.inj_succ in Hu.
  assert (W : wrap64 (al_uid s + 1) = al_uid s + 1) by (unfold wrap64; apply N.mod_small; lia). rewrite W in *.
  cbn [track_uids seq map]. f_equal. rewrite (IH _ _ _ E2) by lia. rewrite U, <- (seq_shift (tracks l) 1), map_map. apply map_ext. intro k. lia.
Qed.
Theorem C48_uid : forall l xs s, al_run al_init l = Some (xs, s) -> N.of_nat (tracks l) < W64 -> track_uids l xs = map N.of_nat (seq 1 (tracks l)) /\ NoDup (track_uids l xs).
Proof.
  intros l xs s H Hu. assert (E := uids_from l al_init xs s H Hu). cbn [al_uid al_init] in E. assert (E2 : track_uids l xs = map N.of_nat (seq 1 (tracks l))) by (rewrite E; apply map_ext; intro; lia).
  split; [exact E2|]. rewrite E2. apply FinFun.Injective_map_NoDup; [intros a b; apply Nat2N.inj|apply seq_NoDup].
Qed.
