(* Ordering and conversions of variants *)
From Verif Require Import Base VlencModel VlencProofs VariantModel VariantSpec VariantProofs.
From Coq Require Import QArith Qpower.
Open Scope N_scope.

(* ---- conversions ---- *)
Lemma land_lt_small w k : w < 2 ^ k -> N.land w (N.ones k) = w.
Proof. intro. rewrite N.land_ones. apply N.mod_small. exact H. Qed.

(* [built_num m c v z]: uniform facts used by the conversion proofs *)
Lemma built_word m c v : built m c v ->
  match v with
  | VInt z => s64_ok z /\ word c = of_s64 z
  | VUint n | VAddr n | VDouble n | VPtr n => word c = n
  | VType n => n <= MAXTYPE /\ word c = n
  | VBool b => word c = (if b then 1 else 0)
  | VInv => word c = 0
  | VUsr s | VStr s => holds m (word c) s
  end.
Proof.
  intro H. apply built_shape in H.
  destruct H as [t p s H Hb Hl Hp Ht|t w v H1 H2 Ht Hw Hv Hm]; simpl.
  - destruct Ht; subst t; simpl; exact H.
  - destruct v; auto; contradiction.
Qed.




Lemma v_bool_of c (b : bool) : word c = (if b then 1 else 0) -> v_bool c = b.
Proof. unfold v_bool. intros ->. destruct b; reflexivity. Qed.

Lemma v_type_of c n : n <= MAXTYPE -> word c = n -> v_type c = n.
Proof.
  intros H E. unfold v_type. rewrite E. apply (land_lt_small n 32). unfold MAXTYPE in H.
  change (2^32) with 4294967296. lia.
Qed.



Lemma built_u64 m c n : built m c (VUint n) \/ built m c (VAddr n) -> u64_ok n.
Proof. intros [H|H]; inversion H; assumption. Qed.

Lemma to_int_ok m c v : built m c v -> is_double v = false ->
  to_int c = match int_range INT_MIN INT_MAX v with Some z => CRes z true | None => CRes 0%Z false end.
Proof.
  intros H Hd. assert (Ht := proj2 (built_type m c v H)). assert (Hw := built_word m c v H).
  unfold to_int, int_range. rewrite Ht.
  destruct v; simpl in *; try discriminate Hd; try reflexivity.
  - destruct Hw as [Hz ->]. rewrite s64_of by exact Hz. 
    destruct ((INT_MIN <=? z)%Z && (z <=? INT_MAX)%Z); reflexivity.
  - rewrite Hw. change ((3 =? 5) || (3 =? 3)) with true. cbv iota.
    destruct (Z.leb_spec INT_MIN (Z.of_N n)); [|unfold INT_MIN in *; lia].
    destruct (Z.of_N n <=? INT_MAX)%Z; reflexivity.
  - rewrite Hw. change ((5 =? 5) || (5 =? 3)) with true. cbv iota.
    destruct (Z.leb_spec INT_MIN (Z.of_N n)); [|unfold INT_MIN in *; lia].
    destruct (Z.of_N n <=? INT_MAX)%Z; reflexivity.
  - rewrite (v_bool_of c b Hw). destruct b; reflexivity.
  - destruct Hw as [Hn Hw]. rewrite (v_type_of c t Hn Hw).
    assert (Z.of_N t <= 9)%Z by (unfold MAXTYPE in Hn; lia).
    destruct (Z.leb_spec INT_MIN (Z.of_N t)); [|unfold INT_MIN in *; lia].
    destruct (Z.leb_spec (Z.of_N t) INT_MAX); [|unfold INT_MAX in *; lia]. reflexivity.
Qed.

Lemma to_int64_ok m c v : built m c v -> is_double v = false ->
  to_int64 c = match int_range LLONG_MIN LLONG_MAX v with Some z => CRes z true | None => CRes 0%Z false end.
Proof.
  intros H Hd. assert (Ht := proj2 (built_type m c v H)). assert (Hw := built_word m c v H).
  unfold to_int64, int_range. rewrite Ht.
  destruct v; simpl in *; try discriminate Hd; try reflexivity.
  - destruct Hw as [Hz ->]. rewrite s64_of by exact Hz. unfold s64_ok in Hz.
    destruct (Z.leb_spec LLONG_MIN z); [|unfold LLONG_MIN in *; lia].
    destruct (Z.leb_spec z LLONG_MAX); [|unfold LLONG_MAX in *; lia]. reflexivity.
  - rewrite Hw. change ((3 =? 5) || (3 =? 3)) with true. cbv iota.
    destruct (Z.leb_spec LLONG_MIN (Z.of_N n)); [|unfold LLONG_MIN in *; lia].
    destruct (Z.of_N n <=? LLONG_MAX)%Z; reflexivity.
  - rewrite Hw. change ((5 =? 5) || (5 =? 3)) with true. cbv iota.
    destruct (Z.leb_spec LLONG_MIN (Z.of_N n)); [|unfold LLONG_MIN in *; lia].
    destruct (Z.of_N n <=? LLONG_MAX)%Z; reflexivity.
  - rewrite (v_bool_of c b Hw). destruct b; reflexivity.
  - destruct Hw as [Hn Hw]. rewrite (v_type_of c t Hn Hw).
    assert (Z.of_N t <= 9)%Z by (unfold MAXTYPE in Hn; lia).
    destruct (Z.leb_spec LLONG_MIN (Z.of_N t)); [|unfold LLONG_MIN in *; lia].
    destruct (Z.leb_spec (Z.of_N t) LLONG_MAX); [|unfold LLONG_MAX in *; lia]. reflexivity.
Qed.

Lemma to_uint_ok m c v : built m c v -> is_double v = false ->
  to_uint c = match int_range 0 ULLONG_MAX v with Some z => CRes z true | None => CRes 0%Z false end.
Proof.
  intros H Hd. assert (Ht := proj2 (built_type m c v H)). assert (Hw := built_word m c v H).
  unfold to_uint, int_range. rewrite Ht.
  destruct v; simpl in *; try discriminate Hd; try reflexivity.
  - destruct Hw as [Hz ->]. rewrite s64_of by exact Hz. unfold s64_ok in Hz.
    destruct (Z.leb_spec 0 z); [|reflexivity].
    destruct (Z.leb_spec z ULLONG_MAX); [reflexivity|unfold ULLONG_MAX in *; lia].
  - rewrite Hw. change ((3 =? 5) || (3 =? 3)) with true. cbv iota.
    assert (Hn := built_u64 m c n (or_introl H)). unfold u64_ok, W64 in Hn.
    destruct (Z.leb_spec 0 (Z.of_N n)); [|lia].
    destruct (Z.leb_spec (Z.of_N n) ULLONG_MAX); [reflexivity|unfold ULLONG_MAX in *; lia].
  - rewrite Hw. change ((5 =? 5) || (5 =? 3)) with true. cbv iota.
    assert (Hn := built_u64 m c n (or_intror H)). unfold u64_ok, W64 in Hn.
    destruct (Z.leb_spec 0 (Z.of_N n)); [|lia].
    destruct (Z.leb_spec (Z.of_N n) ULLONG_MAX); [reflexivity|unfold ULLONG_MAX in *; lia].
  - rewrite (v_bool_of c b Hw). destruct b; reflexivity.
  - destruct Hw as [Hn Hw]. rewrite (v_type_of c t Hn Hw).
    assert (Z.of_N t <= 9)%Z by (unfold MAXTYPE in Hn; lia).
    destruct (Z.leb_spec 0 (Z.of_N t)); [|lia].
    destruct (Z.leb_spec (Z.of_N t) ULLONG_MAX); [reflexivity|unfold ULLONG_MAX in *; lia].
Qed.

Lemma to_bool_ok m c v : built m c v ->
  to_bool c = match v with
              | VInt z => (negb (z =? 0)%Z, true)
              | VUint n | VAddr n => (negb (n =? 0), true)
              | VBool b => (b, true)
              | _ => (false, false)
              end.
Proof.
  intro H. assert (Ht := proj2 (built_type m c v H)). assert (Hw := built_word m c v H).
  unfold to_bool. rewrite Ht. destruct v; simpl in *; try reflexivity.
  - destruct Hw as [Hz ->]. rewrite s64_of by exact Hz. reflexivity.
  - rewrite Hw. reflexivity.
  - rewrite Hw. reflexivity.
  - rewrite (v_bool_of c b Hw). reflexivity.
Qed.

Lemma to_type_ok m c v : built m c v ->
  to_type c = match v with VType t => (t, true) | _ => (T_INV, false) end.
Proof.
  intro H. assert (Ht := proj2 (built_type m c v H)). assert (Hw := built_word m c v H).
  unfold to_type. rewrite Ht. destruct v; simpl in *; try reflexivity.
  destruct Hw as [Hn Hw]. rewrite (v_type_of c t Hn Hw). reflexivity.
Qed.

(* doubles: the C conversion is defined exactly if the truncated value fits *)
Lemma to_int_double m c bits : built m c (VDouble bits) ->
  to_int c = dconv INT_MIN INT_MAX bits /\ to_int64 c = dconv LLONG_MIN LLONG_MAX bits /\
  to_uint c = dconv 0 ULLONG_MAX bits.
Proof.
  intro H. assert (Ht := proj2 (built_type m c _ H)). assert (Hw := built_word m c _ H).
  unfold to_int, to_int64, to_uint. rewrite Ht. simpl in *. rewrite Hw. auto.
Qed.

Local Opaque dbl.
(* ---- comparison ---- *)
Lemma sgn_trunc32 z : (- 2147483648 <= z <= 2147483647)%Z -> trunc32 z = z.
Proof. intro H. unfold trunc32. rewrite Z.mod_small by lia. lia. Qed.

Lemma sgn_sub x y : sgn (x - y) = (x ?= y)%Z.
Proof. unfold sgn. symmetry. apply Z.compare_sub. Qed.

Lemma memcmp_lex s : forall t,
  let n := Nat.min (length s) (length t) in
  let c := memcmp_l (firstn n s) (firstn n t) in
  sgn (if (c =? 0)%Z then Z.of_nat (length s) - Z.of_nat (length t) else c)%Z = lex s t.
Proof.
  induction s as [|x s IH]; intros [|y t]; simpl; try reflexivity.
  destruct (N.compare_spec x y) as [E|E|E].
  - subst y. destruct (N.ltb_spec x x); [lia|]. specialize (IH t). simpl in IH. rewrite <- IH.
    destruct (memcmp_l _ _ =? 0)%Z; [|reflexivity]. f_equal. lia.
  - destruct (N.ltb_spec x y); [|lia]. reflexivity.
  - destruct (N.ltb_spec x y); [lia|]. destruct (N.ltb_spec y x); [|lia]. reflexivity.
Qed.

Lemma strncmp_memcmp s : forall t, ~ In 0 s -> strncmp_l s t = memcmp_l s t.
Proof.
  induction s as [|x s IH]; intros [|y t] H; simpl; try reflexivity.
  destruct (x <? y); [reflexivity|]. destruct (y <? x); [reflexivity|].
  destruct (N.eqb_spec x 0) as [->|Hx].
  - exfalso. apply H. left. reflexivity.
  - apply IH. intro. apply H. right. assumption.
Qed.

Lemma In_firstn {A} (x : A) n l : In x (firstn n l) -> In x l.
Proof. revert n. induction l; intros [|n]; simpl; intuition. eauto. Qed.

Lemma strncmp_lex s t : ~ In 0 s ->
  let n := Nat.min (length s) (length t) in
  let c := strncmp_l (firstn n s) (firstn n t) in
  sgn (if (c =? 0)%Z then Z.of_nat (length s) - Z.of_nat (length t) else c)%Z = lex s t.
Proof.
  intros H n c. unfold c. rewrite strncmp_memcmp; [apply memcmp_lex|].
  intro Hin. apply H. eapply In_firstn; eauto.
Qed.

Lemma u64_diff_cmp x y : u64_ok x -> u64_ok y ->
  let diff := wrap64 (x + W64 - y) in
  sgn (if diff =? 0 then 0%Z else if x <? diff then (-1)%Z else 1%Z) = (x ?= y).
Proof.
  intros Hx Hy diff. unfold u64_ok in *.
  destruct (N.lt_ge_cases x y) as [H|H].
  - assert (diff = x + W64 - y). { unfold diff, wrap64. apply N.mod_small. lia. }
    rewrite H0. destruct (N.eqb_spec (x + W64 - y) 0); [lia|].
    destruct (N.ltb_spec x (x + W64 - y)); [|lia].
    symmetry. unfold sgn. simpl. apply N.compare_lt_iff. exact H.
  - assert (diff = x - y).
    { unfold diff, wrap64. replace (x + W64 - y) with ((x - y) + 1 * W64) by lia.
      rewrite N.mod_add by discriminate. apply N.mod_small. lia. }
    rewrite H0. destruct (N.eqb_spec (x - y) 0).
    + assert (x = y) by lia. subst y. rewrite N.compare_refl. reflexivity.
    + destruct (N.ltb_spec x (x - y)); [lia|].
      symmetry. unfold sgn. simpl. apply N.compare_gt_iff. lia.
Qed.

Lemma Qcompare_scale p q r s : (0 < r)%Q -> (p == inject_Z s * r)%Q -> forall t, (q == inject_Z t * r)%Q ->
  Qcompare p q = (s ?= t)%Z.
Proof.
  intros Hr Hp t Hq. rewrite Hp, Hq.
  destruct (Z.compare_spec s t) as [E|E|E].
  - subst. apply Qeq_alt. reflexivity.
  - apply Qlt_alt. apply Qmult_lt_r; [exact Hr|]. rewrite <- Zlt_Qlt. exact E.
  - apply Qgt_alt. apply Qmult_lt_r; [exact Hr|]. rewrite <- Zlt_Qlt. exact E.
Qed.

Lemma Qpower2_pos e : (0 < Qpower 2 e)%Q.
Proof. apply Qpower_0_lt. reflexivity. Qed.

Lemma Qpower2_split k e : (0 <= k)%Z -> (Qpower 2 (k + e) == inject_Z (2 ^ k) * Qpower 2 e)%Q.
Proof.
  intro Hk. rewrite Qpower_plus by discriminate.
  assert (E : (Qpower 2 k == inject_Z (2 ^ k))%Q).
  { rewrite Zpower_Qpower by exact Hk. reflexivity. }
  rewrite E. reflexivity.
Qed.

Lemma dq_scaled neg m e e0 : (e0 <= e)%Z ->
  (dq neg m e == inject_Z (dsign neg m * 2 ^ (e - e0)) * Qpower 2 e0)%Q.
Proof.
  intro H. unfold dq, dsign. replace e with ((e - e0) + e0)%Z at 1 by lia.
  rewrite Qpower2_split by lia. rewrite inject_Z_mult. ring.
Qed.

Lemma dcmp_order a b : a <> DNan -> b <> DNan -> sgn (dcmp a b) = dorder a b.
Proof.
  destruct a as [|na|na ma ea], b as [|nb|nb mb eb]; try congruence; intros _ _.
  - destruct na, nb; reflexivity.
  - destruct na; reflexivity.
  - destruct nb; reflexivity.
  - unfold dcmp, dorder.
    rewrite (Qcompare_scale (dq na ma ea) (dq nb mb eb) (Qpower 2 (Z.min ea eb))
       (dsign na ma * 2 ^ (ea - Z.min ea eb)) (Qpower2_pos _) (dq_scaled _ _ _ _ (Z.le_min_l _ _))
       (dsign nb mb * 2 ^ (eb - Z.min ea eb)) (dq_scaled _ _ _ _ (Z.le_min_r _ _))).
    rewrite (Z.compare_sub (_ * _)). 
    generalize (dsign na ma * 2 ^ (ea - Z.min ea eb) - dsign nb mb * 2 ^ (eb - Z.min ea eb))%Z.
    intro z. unfold sgn. destruct z; reflexivity.
Qed.



Lemma built_u64' m c v : built m c v ->
  match v with VUint n | VAddr n | VPtr n | VDouble n => u64_ok n | VInt z => s64_ok z | VType n => n <= MAXTYPE | _ => True end.
Proof. intro H; inversion H; auto. Qed.

Lemma compare_spec m a b va vb : built m a va -> built m b vb -> cmp_exact va vb ->
  exists c, compare m a b = Some c /\ sgn c = vorder va vb.
Proof.
  intros Ha Hb Hc.
  assert (Ta := proj2 (built_type m a va Ha)). assert (Tb := proj2 (built_type m b vb Hb)).
  assert (Wa := built_word m a va Ha). assert (Wb := built_word m b vb Hb).
  assert (Ua := built_u64' m a va Ha). assert (Ub := built_u64' m b vb Hb).
  assert (Sa := built_size m a va Ha). assert (Sb := built_size m b vb Hb).
  unfold compare. rewrite Ta, Tb.
  destruct (N.eqb_spec (val_type va) (val_type vb)) as [E|E].
  - destruct va, vb; try discriminate E; simpl val_type; cbn [N.eqb] in *; simpl in Wa, Wb, Ua, Ub, Sa, Sb, Hc.
    + exists 0%Z. rewrite Wa, Wb. split; reflexivity.
    + change ((1 =? T_INV) || (1 =? T_INT)) with false. change (1 =? T_USR) with true. cbv iota.
      eexists; split; [reflexivity|]. rewrite Sa, Sb, !Nat2N.id.
      rewrite (read_mem_prefix m (word a) s) by (assumption || lia).
      rewrite (read_mem_prefix m (word b) s0) by (assumption || lia).
      simpl. apply memcmp_lex.
    + change ((2 =? T_INV) || (2 =? T_INT)) with true. cbv iota.
      destruct Wa as [Za Wa], Wb as [Zb Wb]. rewrite Wa, Wb, !s64_of by assumption.
      unfold sub_s64, LLONG_MIN, LLONG_MAX.
      destruct (Z.leb_spec (-9223372036854775808) (z - z0)); [|lia].
      destruct (Z.leb_spec (z - z0) 9223372036854775807); [|lia].
      eexists; split; [reflexivity|]. rewrite sgn_trunc32 by lia. apply sgn_sub.
    + change ((3 =? T_INV) || (3 =? T_INT)) with false. change (3 =? T_USR) with false.
      change (3 =? T_STRING) with false. change ((3 =? T_ADDR) || (3 =? T_UINT)) with true. cbv iota.
      eexists; split; [reflexivity|]. rewrite Wa, Wb. apply u64_diff_cmp; assumption.
    + change ((4 =? T_INV) || (4 =? T_INT)) with false. change (4 =? T_USR) with false.
      change (4 =? T_STRING) with true. cbv iota.
      eexists; split; [reflexivity|]. rewrite Sa, Sb, !Nat2N.id.
      rewrite (read_mem_prefix m (word a) s) by (assumption || lia).
      rewrite (read_mem_prefix m (word b) s0) by (assumption || lia).
      simpl. apply strncmp_lex. exact Hc.
    + change ((5 =? T_INV) || (5 =? T_INT)) with false. change (5 =? T_USR) with false.
      change (5 =? T_STRING) with false. change ((5 =? T_ADDR) || (5 =? T_UINT)) with true. cbv iota.
      eexists; split; [reflexivity|]. rewrite Wa, Wb. apply u64_diff_cmp; assumption.
    + change ((6 =? T_INV) || (6 =? T_INT)) with false. change (6 =? T_USR) with false.
      change (6 =? T_STRING) with false. change ((6 =? T_ADDR) || (6 =? T_UINT)) with false.
      change (6 =? T_DOUBLE) with true. cbv iota.
      eexists; split; [reflexivity|]. rewrite Wa, Wb. cbn [vorder]. apply dcmp_order; apply Hc.
    + change ((7 =? T_INV) || (7 =? T_INT)) with false. change (7 =? T_USR) with false.
      change (7 =? T_STRING) with false. change ((7 =? T_ADDR) || (7 =? T_UINT)) with false.
      change (7 =? T_DOUBLE) with false. change (7 =? T_BOOL) with true. cbv iota.
      eexists; split; [reflexivity|]. rewrite (v_bool_of _ _ Wa), (v_bool_of _ _ Wb).
      destruct b0, b1; reflexivity.
    + change ((8 =? T_INV) || (8 =? T_INT)) with false. change (8 =? T_USR) with false.
      change (8 =? T_STRING) with false. change ((8 =? T_ADDR) || (8 =? T_UINT)) with false.
      change (8 =? T_DOUBLE) with false. change (8 =? T_BOOL) with false. change (8 =? T_TYPE) with true. cbv iota.
      eexists; split; [reflexivity|]. destruct Wa as [La Wa], Wb as [Lb Wb].
      rewrite (v_type_of _ _ La Wa), (v_type_of _ _ Lb Wb). unfold MAXTYPE in *.
      rewrite sgn_trunc32 by lia. rewrite sgn_sub. cbn [vorder]. apply N2Z.inj_compare.
    + change ((9 =? T_INV) || (9 =? T_INT)) with false. change (9 =? T_USR) with false.
      change (9 =? T_STRING) with false. change ((9 =? T_ADDR) || (9 =? T_UINT)) with false.
      change (9 =? T_DOUBLE) with false. change (9 =? T_BOOL) with false. change (9 =? T_TYPE) with false. cbv iota.
      eexists; split; [reflexivity|]. rewrite Wa, Wb.
      rewrite sgn_trunc32 by lia. rewrite sgn_sub. cbn [vorder]. apply N2Z.inj_compare.
  - eexists; split; [reflexivity|]. rewrite sgn_sub. rewrite N2Z.inj_compare.
    destruct va, vb; try reflexivity; simpl in E; congruence.
Qed.

(* ---- vorder is a total order ---- *)
Lemma lex_refl s : lex s s = Eq.
Proof. induction s as [|x s IH]; simpl; [reflexivity|]. rewrite N.compare_refl. exact IH. Qed.
Lemma lex_antisym s : forall t, lex t s = CompOpp (lex s t).
Proof.
  induction s as [|x s IH]; intros [|y t]; simpl; try reflexivity.
  rewrite (N.compare_antisym x y). destruct (x ?= y); simpl; auto.
Qed.
Lemma lex_eq s : forall t, lex s t = Eq -> s = t.
Proof.
  induction s as [|x s IH]; intros [|y t]; simpl; try congruence.
  destruct (N.compare_spec x y); try congruence. intro. subst. f_equal. auto.
Qed.
Lemma lex_lt_trans s : forall t u, lex s t = Lt -> lex t u = Lt -> lex s u = Lt.
Proof.
  induction s as [|x s IH]; intros [|y t] [|z u]; simpl; try congruence.
  destruct (N.compare_spec x y); destruct (N.compare_spec y z); try congruence; intros; subst.
  - rewrite N.compare_refl. eauto.
  - destruct (N.compare_spec y z); try lia. reflexivity.
  - destruct (N.compare_spec x z); try lia. reflexivity.
  - destruct (N.compare_spec x z); try lia. reflexivity.
Qed.

Lemma dorder_antisym a b : a <> DNan -> b <> DNan -> dorder b a = CompOpp (dorder a b).
Proof.
  destruct a as [|na|na ma ea], b as [|nb|nb mb eb]; try congruence; intros _ _;
    try (destruct na; try destruct nb; reflexivity); try (destruct nb; reflexivity).
  simpl. symmetry. apply Qcompare_antisym.
Qed.
Lemma dorder_trans a b c : a <> DNan -> b <> DNan -> c <> DNan ->
  dorder a b = Lt -> dorder b c = Lt -> dorder a c = Lt.
Proof.
  destruct a as [|na|na ma ea], b as [|nb|nb mb eb], c as [|nc|nc mc ec]; try congruence; intros _ _ _;
    try (destruct na; try destruct nb; try destruct nc; simpl; congruence);
    try (destruct nb; try destruct nc; simpl; congruence); try (destruct nc; simpl; congruence).
  simpl. rewrite <- !Qlt_alt. apply Qlt_trans.
Qed.



Lemma vorder_antisym a b : not_nan a -> not_nan b -> vorder b a = CompOpp (vorder a b).
Proof.
  intros Ha Hb. destruct a, b; simpl in *; try reflexivity;
    auto using lex_antisym, dorder_antisym, Z.compare_antisym, N.compare_antisym.
Qed.

Lemma type_order_lt a b : val_type a < val_type b -> vorder a b = Lt.
Proof. intro H. destruct a, b; simpl in *; try reflexivity; lia. Qed.

Lemma vorder_types a b : vorder a b = Lt -> val_type a <= val_type b.
Proof.
  intro H. destruct (N.lt_ge_cases (val_type b) (val_type a)) as [E|E]; [|exact E].
  exfalso. destruct a, b; simpl in *; try discriminate; lia.
Qed.

Lemma vorder_trans a b c : not_nan a -> not_nan b -> not_nan c ->
  vorder a b = Lt -> vorder b c = Lt -> vorder a c = Lt.
Proof.
  intros Na Nb Nc H1 H2. assert (T1 := vorder_types _ _ H1). assert (T2 := vorder_types _ _ H2).
  destruct (N.eq_dec (val_type a) (val_type c)) as [E|E].
  - assert (val_type a = val_type b) by lia.
    destruct a, b, c; simpl in *; try congruence;
      try (rewrite ?N.compare_lt_iff, ?Z.compare_lt_iff in *; lia);
      eauto using lex_lt_trans, dorder_trans.
  - apply type_order_lt. lia.
Qed.

Lemma vorder_eq a b : vorder a b = Eq ->
  a = b \/ exists x y, a = VDouble x /\ b = VDouble y.
Proof.
  intro H. destruct a, b; simpl in *; try discriminate; auto;
    try (left; f_equal; auto using lex_eq, N.compare_eq, Z.compare_eq; fail);
    eauto.
  left. destruct b, b0; try reflexivity; discriminate.
Qed.

Lemma sgn_lt c : (c <? 0)%Z = match sgn c with Lt => true | _ => false end.
Proof. unfold sgn. destruct c; reflexivity. Qed.
Lemma sgn_gt c : (0 <? c)%Z = match sgn c with Gt => true | _ => false end.
Proof. unfold sgn. destruct c; reflexivity. Qed.

Lemma var_lt_spec m a b va vb : built m a va -> built m b vb -> cmp_exact va vb ->
  var_lt m a b = Some (match vorder va vb with Lt => true | _ => false end) /\
  var_gt m a b = Some (match vorder va vb with Gt => true | _ => false end).
Proof.
  intros Ha Hb Hc. destruct (compare_spec m a b va vb Ha Hb Hc) as (c & E & S).
  unfold var_lt, var_gt. rewrite E. simpl. rewrite sgn_lt, sgn_gt, S. auto.
Qed.
