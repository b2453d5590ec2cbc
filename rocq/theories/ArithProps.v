(* C46: Variant arithmetic *)
From Verif Require Import Base VariantModel VariantSpec VariantProofs VariantOrderProofs FloatModel ArithModel ArithSpec ArithProofs.
From Coq Require Import Program.Tactics.
Open Scope N_scope.

(* operands for which a += b is defined behaviour: no signed overflow, no conversion of an
   unrepresentable double *)
Definition add_safe (a b : value) : Prop :=
  match a with
  | VInt x => conv_ok LLONG_MIN LLONG_MAX b /\ s64_ok (x + v_i64 b)
  | VUint _ => conv_ok 0 ULLONG_MAX b
  | _ => True
  end.
Definition cmp_safe (a b : value) : Prop :=
  match a with VInt _ => conv_ok LLONG_MIN LLONG_MAX b | VUint _ => conv_ok 0 ULLONG_MAX b | _ => True end.

Theorem C46_add m a b va vb : built m a va -> built m b vb -> add_safe va vb ->
  exists c, cv_add a b = Some c /\ built m c (vadd va vb).
Proof.
  intros Ha Hb Hs. unfold cv_add, vadd. eapply arith_ok; eauto.
  - intros x y Hx Hy c E. apply s64_res_ok in E as (E & ->). exists (x + y)%Z. rewrite swrap_id; auto.
  - intros x y _ _. unfold u64_ok, wrap64. apply N.mod_lt. discriminate.
  - intros. apply dadd_ok.
  - destruct va; auto. destruct Hs as (H1 & H2). split; auto. rewrite (s64_res_some _ H2). discriminate.
Qed.
(* on integers it is exact addition (UINT: modulo 2^64) *)
Theorem C46_add_values : (forall x y, s64_ok y -> s64_ok (x + y) -> vadd (VInt x) (VInt y) = VInt (x + y)) /\
  (forall x y, u64_ok y -> vadd (VUint x) (VUint y) = VUint ((x + y) mod 2 ^ 64)) /\
  (forall x y, vadd (VDouble x) (VDouble y) = VDouble (dadd x y)) /\ (forall v, vadd VInv v = v).
Proof.
  repeat split.
  - intros x y Hy H. cbn [vadd vop]. assert (E : v_i64 (VInt y) = y).
    { unfold v_i64, int_range, num_of, LLONG_MIN, LLONG_MAX. unfold s64_ok in Hy. destruct (Z.leb_spec (-9223372036854775808) y); [|lia]. destruct (Z.leb_spec y 9223372036854775807); [reflexivity|lia]. }
    unfold vadd, vop. rewrite E, swrap_id; auto.
  - intros x y Hy. assert (E : v_u64 (VUint y) = y).
    { unfold v_u64, int_range, num_of, ULLONG_MAX. unfold u64_ok, W64 in Hy. destruct (Z.leb_spec 0 (Z.of_N y)); [|lia]. destruct (Z.leb_spec (Z.of_N y) 18446744073709551615); [apply N2Z.id|lia]. }
    unfold vadd, vop. rewrite E. reflexivity.
Qed.
Theorem C46_min m a b va vb : built m a va -> built m b vb -> cmp_safe va vb -> exists c, cv_min a b = Some c /\ built m c (vmin va vb).
Proof.
  intros Ha Hb Hs. unfold cv_min, vmin.
  destruct (arith_ok m (fun x y => Some (of_s64 (if (y <? x)%Z then y else x))) Z.min (fun x y => if y <? x then y else x) (fun x y => if dltb y x then y else x) a b va vb) as (c & E & B); auto.
  - intros x y Hx Hy c E. inversion E. exists (Z.min x y). split; auto. unfold s64_ok in *. split; [lia|]. f_equal. destruct (Z.ltb_spec y x); lia.
  - intros x y Hx Hy. destruct (y <? x); auto.
  - intros x y Hx Hy. destruct (dltb y x); auto.
  - destruct va; auto. split; auto. discriminate.
  - exists c. split; auto. destruct va; auto. cbn [vop] in *. replace (N.min n (v_u64 vb)) with (if v_u64 vb <? n then v_u64 vb else n); auto. destruct (N.ltb_spec (v_u64 vb) n); lia.
Qed.
Theorem C46_max m a b va vb : built m a va -> built m b vb -> cmp_safe va vb -> exists c, cv_max a b = Some c /\ built m c (vmax va vb).
Proof.
  intros Ha Hb Hs. unfold cv_max, vmax.
  destruct (arith_ok m (fun x y => Some (of_s64 (if (x <? y)%Z then y else x))) Z.max (fun x y => if x <? y then y else x) (fun x y => if dltb x y then y else x) a b va vb) as (c & E & B); auto.
  - intros x y Hx Hy c E. inversion E. exists (Z.max x y). split; auto. unfold s64_ok in *. split; [lia|]. f_equal. destruct (Z.ltb_spec x y); lia.
  - intros x y Hx Hy. destruct (x <? y); auto.
  - intros x y Hx Hy. destruct (dltb x y); auto.
  - destruct va; auto. split; auto. discriminate.
  - exists c. split; auto. destruct va; auto. cbn [vop] in *. replace (N.max n (v_u64 vb)) with (if n <? v_u64 vb then v_u64 vb else n); auto. destruct (N.ltb_spec n (v_u64 vb)); lia.
Qed.
(* division by a count: exact truncating division as long as the count fits the parameter type *)
Theorem C46_div m a va count : built m a va -> 0 < count < 4294967296 -> exists c, cv_div a count = Some c /\ built m c (vdiv va count).
Proof.
  intros Ha Hc. destruct (built_type _ _ _ Ha) as (_ & T). unfold cv_div. rewrite T, (N.mod_small count) by lia.
  destruct (N.eqb_spec count 0) as [E|_]; [lia|].
  destruct va; cbn [val_type vdiv]; try (eexists; split; [reflexivity|constructor]; fail).
  - apply built_int in Ha as (-> & Hz). cbn [word make_int]. eexists; split; [reflexivity|]. rewrite s64_of by auto. constructor. unfold s64_ok in *.
    assert (Z.abs (Z.quot z (Z.of_N count)) <= Z.abs z)%Z. { rewrite <- Z.quot_abs by lia. apply Z.quot_le_upper_bound; nia. }
    destruct (Z.le_gt_cases z 0) as [Hle|Hgt]; [|lia]. assert (Z.quot z (Z.of_N count) <= 0)%Z; [|lia].
    replace z with (- - z)%Z by lia. rewrite Z.quot_opp_l by lia. assert (0 <= Z.quot (- z) (Z.of_N count))%Z by (apply Z.quot_pos; lia). lia.
  - apply built_uint in Ha as (-> & Hz). eexists; split; [reflexivity|]. constructor. cbn [word make_uint]. unfold u64_ok in *. eapply N.le_lt_trans; [apply N.div_le_upper_bound with (q := n); nia|exact Hz].
  - apply built_double in Ha as (-> & Hz). eexists; split; [reflexivity|]. constructor. apply ddiv_ok.
Qed.
(* the count is truncated to 32 bits: 2^32 samples make the average divide by zero *)
Theorem C46_div_count_refuted : cv_div (make_uint 12884901888) 4294967296 = None /\ cv_div (make_uint 12884901891) 4294967297 = Some (make_uint 12884901891).
Proof. split; reflexivity. Qed.

(* ---- update_minmaxsum ---- *)
Definition numeric (t : N) (v : value) : Prop :=
  match v with VInt _ => t = T_INT | VUint _ => t = T_UINT | VDouble b => t = T_DOUBLE /\ dbl b <> DNan | _ => False end.
Fixpoint mms (l : list cvar) (s : cvar * cvar * cvar) : option (cvar * cvar * cvar) :=
  match l with [] => Some s | v :: r => match cv_minmaxsum v (fst (fst s)) (snd (fst s)) (snd s) with Some s1 => mms r s1 | None => None end end.
(* no signed overflow in any prefix sum *)
Fixpoint sums_safe (acc : value) (l : list value) : Prop := match l with [] => True | v :: r => add_safe acc v /\ sums_safe (vadd acc v) r end.
Definition le (a b : value) : Prop := vorder a b <> Gt.

Lemma dltb_lt a b : dbl a <> DNan -> dbl b <> DNan -> dltb a b = true <-> dorder (dbl a) (dbl b) = Lt.
Proof.
  intros Ha Hb. unfold dltb. rewrite <- (dcmp_order _ _ Ha Hb). unfold sgn. rewrite Z.ltb_lt. reflexivity.
Qed.
Lemma dorder_trans_le a b c : a <> DNan -> b <> DNan -> c <> DNan -> dorder a b <> Gt -> dorder b c <> Gt -> dorder a c <> Gt.
Proof.
  destruct a as [|na|na ma ea], b as [|nb|nb mb eb], c as [|nc|nc mc ec]; try congruence; intros _ _ _;
    try (destruct na; try destruct nb; try destruct nc; simpl; congruence);
    try (destruct nb; try destruct nc; simpl; congruence); try (destruct nc; simpl; congruence).
  cbn [dorder]. rewrite <- !QArith_base.Qle_alt. apply QArith_base.Qle_trans.
Qed.
Lemma dorder_refl a : a <> DNan -> dorder a a = Eq.
Proof. destruct a as [|[]|na ma ea]; try congruence; intros _; cbn [dorder]; auto. rewrite <- QArith_base.Qeq_alt. apply QArith_base.Qeq_refl. Qed.

(* comparison of two numeric values of one type *)
Lemma num_le_refl t v : numeric t v -> le v v.
Proof. unfold le. destruct v; cbn [numeric vorder]; try tauto; intros H. - rewrite Z.compare_refl; discriminate. - rewrite N.compare_refl; discriminate. - rewrite dorder_refl by apply H. discriminate. Qed.
Lemma num_le_trans t u v w : numeric t u -> numeric t v -> numeric t w -> le u v -> le v w -> le u w.
Proof.
  unfold le. destruct u, v, w; cbn [numeric]; intros H H0 H1 H2 H3; try contradiction; try (destruct_conjs; subst; discriminate).
  - cbn [vorder] in *. change (z <= z0)%Z in H2. change (z0 <= z1)%Z in H3. change (z <= z1)%Z. lia.
  - cbn [vorder] in *. change (n <= n0) in H2. change (n0 <= n1) in H3. change (n <= n1). lia.
  - cbn [vorder] in *. destruct_conjs. eapply dorder_trans_le; [| | |eassumption|eassumption]; auto.
Qed.
Lemma num_total t u v : numeric t u -> numeric t v -> vorder u v = Lt \/ le v u.
Proof.
  unfold le. destruct u, v; cbn [numeric]; intros; try contradiction; try (destruct_conjs; subst; discriminate).
  - cbn [vorder]. destruct (Z.compare_spec z z0); auto; right; change (z0 <= z)%Z; lia.
  - cbn [vorder]. destruct (N.compare_spec n n0); auto; right; change (n0 <= n); lia.
  - cbn [vorder]. destruct_conjs. rewrite (dorder_antisym (dbl bits) (dbl bits0)) by auto. destruct (dorder (dbl bits) (dbl bits0)); auto; right; discriminate.
Qed.
Lemma num_lt_le u v : vorder u v = Lt -> le u v. Proof. unfold le. congruence. Qed.

Definition mms_inv (m : memory) (t : N) (P : list value) (acc : value) (s : cvar * cvar * cvar) : Prop :=
  exists vmn vmx, built m (fst (fst s)) vmn /\ built m (snd (fst s)) vmx /\ built m (snd s) acc /\ numeric t acc /\
  In vmn P /\ In vmx P /\ Forall (numeric t) P /\ (forall w, In w P -> le vmn w /\ le w vmx).
(* words of numeric values: the comparison the code makes *)
Definition wlt (t : N) (a b : cvar) : bool :=
  if t =? T_DOUBLE then dltb (word a) (word b) else if t =? T_INT then (s64 (word a) <? s64 (word b))%Z else word a <? word b.
Lemma wlt_spec m t a b va vb : built m a va -> built m b vb -> numeric t va -> numeric t vb -> wlt t a b = true <-> vorder va vb = Lt.
Proof.
  intros Ha Hb Na Nb. unfold wlt. destruct va, vb; cbn [numeric] in Na, Nb; try contradiction; try (destruct_conjs; subst; discriminate).
  - subst t. apply built_int in Ha as (-> & Hx). apply built_int in Hb as (-> & Hy). change ((s64 (of_s64 z) <? s64 (of_s64 z0))%Z = true <-> (z ?= z0)%Z = Lt). rewrite !s64_of by auto. rewrite Z.ltb_lt. reflexivity.
  - subst t. apply built_uint in Ha as (-> & Hx). apply built_uint in Hb as (-> & Hy). change ((n <? n0) = true <-> (n ?= n0) = Lt). rewrite N.ltb_lt. reflexivity.
  - destruct Na as (-> & Na), Nb as (_ & Nb). apply built_double in Ha as (-> & Hx). apply built_double in Hb as (-> & Hy). change (dltb bits bits0 = true <-> dorder (dbl bits) (dbl bits0) = Lt). apply dltb_lt; auto.
Qed.
Lemma setw_built m t a b va vb : built m a va -> built m b vb -> numeric t va -> numeric t vb -> setw a (word b) = b.
Proof.
  intros Ha Hb Na Nb. destruct va, vb; cbn [numeric] in Na, Nb; try contradiction; try (destruct_conjs; subst; discriminate).
  - apply built_int in Ha as (-> & Hx). apply built_int in Hb as (-> & Hy). reflexivity.
  - apply built_uint in Ha as (-> & Hx). apply built_uint in Hb as (-> & Hy). reflexivity.
  - apply built_double in Ha as (-> & Hx). apply built_double in Hb as (-> & Hy). reflexivity.
Qed.
Lemma numeric_add t a b : numeric t a -> numeric t b -> (forall x y, vadd a b = VDouble x -> a = VDouble y -> dbl x <> DNan) -> numeric t (vadd a b).
Proof. destruct a, b; cbn [numeric vadd vop]; try contradiction; intros; try (destruct_conjs; subst; discriminate); auto. destruct H as (-> & _). split; auto. eapply H1; reflexivity. Qed.
Lemma mms_step m t P acc s v vv : mms_inv m t P acc s -> built m v vv -> numeric t vv -> add_safe acc vv -> (forall x, vadd acc vv = VDouble x -> dbl x <> DNan) ->
  exists s', cv_minmaxsum v (fst (fst s)) (snd (fst s)) (snd s) = Some s' /\ mms_inv m t (vv :: P) (vadd acc vv) s'.
Proof.
  intros (vmn & vmx & Bmn & Bmx & Bsm & Na & Imn & Imx & HP & Hb) Bv Nv Hs Hn.
  assert (Nmn : numeric t vmn) by (rewrite Forall_forall in HP; auto). assert (Nmx : numeric t vmx) by (rewrite Forall_forall in HP; auto).
  destruct s as [[mn mx] sm]; cbn [fst snd] in *.
  assert (Ne : is_empty mn = false). { destruct vmn; cbn [numeric] in Nmn; try contradiction; inversion Bmn; subst; reflexivity. }
  set (mn' := if wlt t v mn then v else mn). set (mx' := if wlt t v mn then mx else if wlt t mx v then v else mx).
  destruct (C46_add m sm v acc vv Bsm Bv Hs) as (sm' & Esm & Bsm').
  assert (E : cv_minmaxsum v mn mx sm = Some (mn', mx', sm')).
  { unfold cv_minmaxsum. rewrite Ne. destruct (built_type _ _ _ Bv) as (Tv & _). rewrite Tv.
    assert (Smn := setw_built m t mn v _ _ Bmn Bv Nmn Nv). assert (Smx := setw_built m t mx v _ _ Bmx Bv Nmx Nv). rewrite Smn, Smx.
    unfold mn', mx', wlt. unfold cv_add, arith in Esm. destruct (built_type _ _ _ Bv) as (_ & Tv'). destruct (built_type _ _ _ Bsm) as (_ & Ts). rewrite Tv', Ts in Esm.
    destruct vv, acc; cbn [numeric] in Nv, Na; try contradiction; try (destruct_conjs; subst; discriminate).
    - subst t. cbn [val_type T_DOUBLE T_INT N.eqb Pos.eqb] in *. destruct (s64_res _) as [w|]; cbn [option_map] in Esm; [|discriminate]. inversion Esm; subst. reflexivity.
    - subst t. cbn [val_type T_DOUBLE T_INT T_UINT N.eqb Pos.eqb] in *. inversion Esm; subst. reflexivity.
    - destruct Nv as (-> & _). cbn [val_type T_DOUBLE N.eqb Pos.eqb] in *. inversion Esm; subst. reflexivity. }
  exists (mn', mx', sm'). split; auto.
  assert (L1 := wlt_spec m t v mn _ _ Bv Bmn Nv Nmn). assert (L2 := wlt_spec m t mx v _ _ Bmx Bv Nmx Nv).
  exists (if wlt t v mn then vv else vmn), (if wlt t v mn then vmx else if wlt t mx v then vv else vmx). cbn [fst snd].
  assert (Lmm : le vmn vmx) by (apply Hb; auto).
  assert (Hlo : forall w, In w P -> numeric t w) by (rewrite Forall_forall in HP; auto).
  split; [unfold mn'; destruct (wlt t v mn); auto|]. split; [unfold mx'; destruct (wlt t v mn); auto; destruct (wlt t mx v); auto|]. split; auto.
  split; [apply numeric_add; auto; intros x y E1 _; apply (Hn x E1)|].
  split; [destruct (wlt t v mn); cbn; auto|]. split; [destruct (wlt t v mn); cbn; auto; destruct (wlt t mx v); cbn; auto|].
  split; [constructor; auto|].
  intros w [<-|Iw].
  - destruct (wlt t v mn) eqn:W1.
    + split; [eapply num_le_refl; eauto|]. assert (vorder vv vmn = Lt) by (apply L1; auto). eapply num_le_trans with (v := vmn); eauto. apply num_lt_le; auto.
    + split. { destruct (num_total t vv vmn Nv Nmn) as [A|A]; auto. apply L1 in A. discriminate. }
      destruct (wlt t mx v) eqn:W2; [eapply num_le_refl; eauto|]. destruct (num_total t vmx vv Nmx Nv) as [A|A]; auto. apply L2 in A. discriminate.
  - destruct (Hb w Iw) as (B1 & B2). destruct (wlt t v mn) eqn:W1.
    + split; auto. eapply num_le_trans with (v := vmn); eauto. apply num_lt_le. apply L1; auto.
    + split; auto. destruct (wlt t mx v) eqn:W2; auto. eapply num_le_trans with (v := vmx); eauto. apply num_lt_le. apply L2; auto.
Qed.
(* all partial sums of doubles are numbers *)
Fixpoint sums_numbers (acc : value) (l : list value) : Prop :=
  match l with [] => True | v :: r => (forall x, vadd acc v = VDouble x -> dbl x <> DNan) /\ sums_numbers (vadd acc v) r end.
Lemma mms_run m t vs : forall l P acc s, mms_inv m t P acc s -> Forall2 (built m) l vs -> Forall (numeric t) vs -> sums_safe acc vs -> sums_numbers acc vs ->
  exists s', mms l s = Some s' /\ mms_inv m t (rev vs ++ P) (fold_left vadd vs acc) s'.
Proof.
  induction vs as [|v r IH]; intros l P acc s H F Nu Hs Hn; inversion F as [|x y l0 r0 Hx Hr]; subst; cbn [mms].
  - eexists; split; [reflexivity|exact H].
  - apply Forall_cons_iff in Nu as (Nu1 & Nu2). destruct Hs as (Hs1 & Hs2), Hn as (Hn1 & Hn2). destruct (mms_step m t P acc s x v H Hx Nu1 Hs1 Hn1) as (s1 & E & I1). rewrite E.
    destruct (IH l0 (v :: P) _ s1 I1 Hr Nu2 Hs2 Hn2) as (s' & E' & I2). exists s'. split; auto. cbn [rev fold_left]. rewrite <- app_assoc. exact I2.
Qed.
(* feeding the values of one numeric type (doubles: no NaN) one by one into update_minmaxsum yields their
   minimum, maximum and sum *)
Theorem C46_minmaxsum m t l v vs : Forall2 (built m) l (v :: vs) -> Forall (numeric t) (v :: vs) -> sums_safe v vs -> sums_numbers v vs ->
  exists mn mx sm vmn vmx, mms l (empty_var, empty_var, empty_var) = Some (mn, mx, sm) /\
    built m mn vmn /\ built m mx vmx /\ built m sm (fold_left vadd vs v) /\
    In vmn (v :: vs) /\ In vmx (v :: vs) /\ (forall w, In w (v :: vs) -> le vmn w /\ le w vmx).
Proof.
  intros F Nu Hs Hn. inversion F as [|x y l0 r0 H1 H3]; subst. apply Forall_cons_iff in Nu as (H2 & H4).
  assert (I0 : mms_inv m t [v] v (x, x, x)).
  { exists v, v. cbn [fst snd]. split; [exact H1|]. split; [exact H1|]. split; [exact H1|]. split; [exact H2|]. split; [left; auto|]. split; [left; auto|]. split; [constructor; auto|].
    intros w [<-|[]]. split; eapply num_le_refl; eauto. }
  destruct (mms_run m t vs l0 [v] v _ I0 H3 H4 Hs Hn) as ([[mn mx] sm] & E & (vmn & vmx & B1 & B2 & B3 & _ & I1 & I2 & _ & Hb)).
  assert (Hin : forall w, In w (rev vs ++ [v]) <-> In w (v :: vs)). { intro w. rewrite in_app_iff, <- in_rev. cbn. tauto. }
  exists mn, mx, sm, vmn, vmx. cbn [fst snd] in *.
  split; [cbn [mms fst snd]; unfold cv_minmaxsum at 1; cbn [is_empty empty_var ts N.eqb]; exact E|].
  split; [exact B1|]. split; [exact B2|]. split; [exact B3|]. rewrite Hin in I1, I2. split; [exact I1|]. split; [exact I2|]. intros w Iw. apply Hb. apply Hin. exact Iw.
Qed.
Example C46_ex : Forall2 (built (fun _ => 0)) [make_int 5; make_int (-3); make_int 9] [VInt 5; VInt (-3); VInt 9] /\
  Forall (numeric T_INT) [VInt 5; VInt (-3); VInt 9] /\ sums_safe (VInt 5) [VInt (-3); VInt 9] /\ sums_numbers (VInt 5) [VInt (-3); VInt 9] /\
  mms [make_int 5; make_int (-3); make_int 9] (empty_var, empty_var, empty_var) = Some (make_int (-3), make_int 9, make_int 11).
Proof.
  split. { constructor; [apply b_int; split; lia|]. constructor; [apply b_int; split; lia|]. constructor; [apply b_int; split; lia|]. constructor. }
  split. { constructor; [reflexivity|]. constructor; [reflexivity|]. constructor; [reflexivity|]. constructor. }
  split. { cbn [sums_safe]. split; [split; [exact Logic.I|split; vm_compute; congruence]|]. split; [split; [exact Logic.I|split; vm_compute; congruence]|exact Logic.I]. }
  split. { cbn [sums_numbers]. split; [intros x H; vm_compute in H; discriminate|]. split; [intros x H; vm_compute in H; discriminate|exact Logic.I]. }
  vm_compute. reflexivity.
Qed.
(* mixing types: the words are reinterpreted (a double's bit pattern is added to an integer sum as a double) *)
Theorem C46_minmaxsum_mixed_refuted : exists s, mms [make_int 1; make_double 4607182418800017408] (empty_var, empty_var, empty_var) = Some s /\
  snd s = make_int 4607182418800017408 /\ snd s <> make_int 2.
Proof. eexists. split; [vm_compute; reflexivity|]. split; [vm_compute; reflexivity|vm_compute; congruence]. Qed.
Print Assumptions C46_add.
Print Assumptions C46_minmaxsum.
