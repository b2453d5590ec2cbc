From Verif Require Import Base VariantModel VariantSpec VariantProofs VariantOrderProofs FloatModel ArithModel ArithSpec.
From Coq Require Import SpecFloat.
Open Scope N_scope.

Lemma sbit_lt s : sbit s = 0 \/ sbit s = 9223372036854775808. Proof. destruct s; auto. Qed.
Lemma f2b_ok f : u64_ok (f2b f).
Proof.
  unfold u64_ok, W64. destruct f as [s|s| |s m e]; cbn [f2b].
  - destruct (sbit_lt s) as [-> | ->]; lia.
  - destruct (sbit_lt s) as [-> | ->]; lia.
  - lia.
  - destruct (N.ltb_spec (N.pos m) 4503599627370496).
    + destruct (sbit_lt s) as [-> | ->]; lia.
    + assert (H1 := N.mod_lt (Z.to_N (e + 1075)) 2048 ltac:(lia)). assert (H2 := N.mod_lt (N.pos m) 4503599627370496 ltac:(lia)).
      destruct (sbit_lt s) as [-> | ->]; nia.
Qed.
Lemma dadd_ok a b : u64_ok (dadd a b). Proof. apply f2b_ok. Qed.
Lemma ddiv_ok a b : u64_ok (ddiv a b). Proof. apply f2b_ok. Qed.
Lemma d_of_Z_ok z : u64_ok (d_of_Z z). Proof. apply f2b_ok. Qed.
Lemma swrap_id z : s64_ok z -> swrap z = z.
Proof. unfold s64_ok, swrap. intro H. rewrite Z.mod_small by lia. lia. Qed.
Lemma s64_res_ok z c : s64_res z = Some c -> s64_ok z /\ c = of_s64 z.
Proof. unfold s64_res, s64_ok, LLONG_MIN, LLONG_MAX. destruct (Z.leb_spec (-9223372036854775808) z); cbn [andb]; [|discriminate]. destruct (Z.leb_spec z 9223372036854775807); cbn [andb]; [|discriminate]. intro E; inversion E. split; auto; lia. Qed.
Lemma s64_res_some z : s64_ok z -> s64_res z = Some (of_s64 z).
Proof. unfold s64_res, s64_ok, LLONG_MIN, LLONG_MAX. intro H. destruct (Z.leb_spec (-9223372036854775808) z); [|lia]. destruct (Z.leb_spec z 9223372036854775807); [reflexivity|lia]. Qed.

Lemma built_int m c z : built m c (VInt z) -> c = make_int z /\ s64_ok z. Proof. inversion 1; subst; auto. Qed.
Lemma built_uint m c z : built m c (VUint z) -> c = make_uint z /\ u64_ok z. Proof. inversion 1; subst; auto. Qed.
Lemma built_double m c z : built m c (VDouble z) -> c = make_double z /\ u64_ok z. Proof. inversion 1; subst; auto. Qed.
Lemma built_inv m c : built m c VInv -> c = empty_var. Proof. inversion 1; subst; auto. Qed.

(* conversions *)
Definition conv_ok (lo hi : Z) (v : value) : Prop := match v with VDouble b => d_int lo hi b <> None | _ => True end.
Lemma dconv_int lo hi b : dconv lo hi b = match d_int lo hi b with Some z => CRes z true | None => CUB end.
Proof. unfold dconv, d_int. destruct (dtrunc (dbl b)); auto. destruct ((lo <=? z)%Z && (z <=? hi)%Z); auto. Qed.
Lemma to_i64_ok m c v : built m c v -> conv_ok LLONG_MIN LLONG_MAX v -> conv_val (to_int64 c) = Some (v_i64 v).
Proof.
  intros H Hc. destruct v; try (rewrite (to_int64_ok m c _ H eq_refl); unfold v_i64; change (-9223372036854775808)%Z with LLONG_MIN; change 9223372036854775807%Z with LLONG_MAX; destruct (int_range _ _ _); reflexivity).
  destruct (to_int_double m c bits H) as (_ & E & _). rewrite E, dconv_int. unfold v_i64. cbn [conv_ok] in Hc. destruct (d_int _ _ _); [reflexivity|congruence].
Qed.
Lemma to_u64_ok m c v : built m c v -> conv_ok 0 ULLONG_MAX v -> exists z, conv_val (to_uint c) = Some z /\ Z.to_N z = v_u64 v.
Proof.
  intros H Hc. destruct v; try (rewrite (to_uint_ok m c _ H eq_refl); unfold v_u64; change 18446744073709551615%Z with ULLONG_MAX; destruct (int_range _ _ _); eexists; split; reflexivity).
  destruct (to_int_double m c bits H) as (_ & _ & E). rewrite E, dconv_int. unfold v_u64. cbn [conv_ok] in Hc. destruct (d_int _ _ _); [eexists; split; reflexivity|congruence].
Qed.
Lemma to_f64_ok m c v : built m c v -> to_double c = v_f64 v /\ u64_ok (v_f64 v).
Proof.
  intro H. destruct (built_type _ _ _ H) as (_ & T). unfold to_double. rewrite T.
  assert (Hs := built_shape _ _ _ H). unfold v_f64. destruct v; cbn [val_type num_of] in *; try (split; [reflexivity|unfold u64_ok, W64; lia]).
  - apply built_int in H as (-> & Hz). cbn. rewrite s64_of by auto. split; [reflexivity|apply d_of_Z_ok].
  - apply built_uint in H as (-> & Hz). split; [reflexivity|apply d_of_Z_ok].
  - inversion H; subst. split; [reflexivity|apply d_of_Z_ok].
  - apply built_double in H as (-> & Hz). split; [reflexivity|auto].
  - inversion H; subst. split; [destruct b; reflexivity|apply d_of_Z_ok].
  - inversion H; subst. split; [|apply d_of_Z_ok]. change (d_of_Z (Z.of_N (v_type (make_type t))) = d_of_Z (Z.of_N t)). unfold v_type. cbn [word make_type]. f_equal. f_equal. change 4294967295 with (N.ones 32). rewrite N.land_ones. apply N.mod_small. unfold MAXTYPE in *. change (2^32) with 4294967296. lia.
Qed.
Lemma ir_range lo hi v z : int_range lo hi v = Some z -> (lo <= z <= hi)%Z.
Proof. unfold int_range. destruct (num_of v) as [y|]; [|discriminate]. destruct (Z.leb_spec lo y); cbn [andb]; [|discriminate]. destruct (Z.leb_spec y hi); cbn [andb]; [|discriminate]. intro E; inversion E; subst; lia. Qed.
Lemma di_range lo hi v z : d_int lo hi v = Some z -> (lo <= z <= hi)%Z.
Proof. unfold d_int. destruct (dtrunc (dbl v)) as [y|]; [|discriminate]. destruct (Z.leb_spec lo y); cbn [andb]; [|discriminate]. destruct (Z.leb_spec y hi); cbn [andb]; [|discriminate]. intro E; inversion E; subst; lia. Qed.
Lemma v_i64_range v : s64_ok (v_i64 v).
Proof.
  unfold v_i64, s64_ok. destruct v;
  match goal with |- context [int_range ?a ?b ?c] => destruct (int_range a b c) eqn:E; [apply ir_range in E; unfold LLONG_MIN, LLONG_MAX in E; lia|lia] | |- context [d_int ?a ?b ?c] => destruct (d_int a b c) eqn:E; [apply di_range in E; unfold LLONG_MIN, LLONG_MAX in E; lia|lia] end.
Qed.
Lemma v_u64_range v : u64_ok (v_u64 v).
Proof.
  unfold v_u64, u64_ok, W64. destruct v;
  match goal with |- context [int_range ?a ?b ?c] => destruct (int_range a b c) eqn:E; [apply ir_range in E; unfold ULLONG_MAX in E; lia|lia] | |- context [d_int ?a ?b ?c] => destruct (d_int a b c) eqn:E; [apply di_range in E; unfold ULLONG_MAX in E; lia|lia] end.
Qed.

(* the generic switch *)
Lemma arith_ok m fi gi fu fd a b va vb :
  (forall x y, s64_ok x -> s64_ok y -> forall c, fi x y = Some c -> exists z, gi x y = z /\ s64_ok z /\ c = of_s64 z) ->
  (forall x y, u64_ok x -> u64_ok y -> u64_ok (fu x y)) -> (forall x y, u64_ok x -> u64_ok y -> u64_ok (fd x y)) ->
  built m a va -> built m b vb ->
  match va with VInt x => conv_ok LLONG_MIN LLONG_MAX vb /\ fi x (v_i64 vb) <> None | VUint _ => conv_ok 0 ULLONG_MAX vb | _ => True end ->
  exists c, arith fi fu fd a b = Some c /\ built m c (vop gi fu fd va vb).
Proof.
  intros Hi Hu Hd Ha Hb Hdef.
  destruct (built_type _ _ _ Ha) as (_ & Ta). destruct (built_type _ _ _ Hb) as (_ & Tb).
  unfold arith. rewrite Ta, Tb.
  destruct va as [ |sa|x|x|sa|x|x|bx|tx|px]; cbn [val_type vop].
  - apply built_inv in Ha as ->. destruct vb; cbn [val_type]; try (eexists; split; [reflexivity|]; exact Hb).
    apply built_inv in Hb as ->. eexists; split; [reflexivity|]. constructor.
  - destruct vb; cbn [val_type]; eexists; (split; [reflexivity|exact Ha]).
  - destruct (built_int _ _ _ Ha) as (-> & Hx). destruct Hdef as (Hc & Hf). cbn [word ts make_int]. rewrite s64_of by auto.
    assert (G : exists c, option_map (setw (make_int x)) (fi x (v_i64 vb)) = Some c /\ built m c (VInt (gi x (v_i64 vb)))).
    { destruct (fi x (v_i64 vb)) as [w|] eqn:E; [|congruence]. destruct (Hi x _ Hx (v_i64_range vb) w E) as (z & -> & Hz & ->). eexists; split; [reflexivity|]. exact (b_int m z Hz). }
    destruct vb as [ |sb|y|y|sb|y|y|by_|ty|py]; cbn [val_type N.eqb Pos.eqb T_DOUBLE T_INT T_UINT T_INV].
    3: { destruct (built_int _ _ _ Hb) as (-> & Hy). cbn [word make_int]. rewrite s64_of by auto. assert (E : v_i64 (VInt y) = y). { unfold v_i64, int_range, num_of. unfold s64_ok in Hy. destruct (Z.leb_spec LLONG_MIN y); [|unfold LLONG_MIN in *; lia]. destruct (Z.leb_spec y LLONG_MAX); [reflexivity|unfold LLONG_MAX in *; lia]. } rewrite E in *. exact G. }
    all: cbn; rewrite (to_i64_ok m b _ Hb Hc); exact G.
  - destruct (built_uint _ _ _ Ha) as (-> & Hx).
    assert (G : built m (setw (make_uint x) (fu x (v_u64 vb))) (VUint (fu x (v_u64 vb)))).
    { apply (b_uint m). apply Hu; auto using v_u64_range. }
    destruct vb as [ |sb|y|y|sb|y|y|by_|ty|py]; cbn.
    4: { destruct (built_uint _ _ _ Hb) as (-> & Hy). assert (E : v_u64 (VUint y) = y). { unfold v_u64, int_range, num_of. unfold u64_ok, W64 in Hy. destruct (Z.leb_spec 0 (Z.of_N y)); [|lia]. destruct (Z.leb_spec (Z.of_N y) ULLONG_MAX); [apply N2Z.id|unfold ULLONG_MAX in *; lia]. } rewrite E in *. eexists; split; [reflexivity|exact G]. }
    all: destruct (to_u64_ok m b _ Hb Hdef) as (z & E & Ez); rewrite E, Ez; eexists; split; [reflexivity|exact G].
  - destruct vb; cbn [val_type]; eexists; (split; [reflexivity|exact Ha]).
  - destruct vb; cbn [val_type]; eexists; (split; [reflexivity|exact Ha]).
  - destruct (built_double _ _ _ Ha) as (-> & Hx). destruct (to_f64_ok _ _ _ Hb) as (Ef & Hf).
    assert (G : built m (setw (make_double x) (fd x (v_f64 vb))) (VDouble (fd x (v_f64 vb)))).
    { apply (b_double m). apply Hd; auto. }
    destruct vb as [ |sb|y|y|sb|y|y|by_|ty|py]; cbn.
    7: { destruct (built_double _ _ _ Hb) as (-> & Hy). eexists; split; [reflexivity|exact G]. }
    all: eexists; split; [reflexivity|]; rewrite Ef; exact G.
  - destruct vb; cbn [val_type]; eexists; (split; [reflexivity|exact Ha]).
  - destruct vb; cbn [val_type]; eexists; (split; [reflexivity|exact Ha]).
  - destruct vb; cbn [val_type]; eexists; (split; [reflexivity|exact Ha]).
Qed.
