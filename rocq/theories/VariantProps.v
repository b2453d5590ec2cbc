(* Property theorems C01, C02, C08, C09, C10 *)
From Verif Require Import Base VlencModel VlencProofs VariantModel VariantSpec VariantProofs VariantOrderProofs.
Open Scope N_scope.

(* C01: round trip for every 64-bit value, whatever follows in the buffer *)
Theorem C01_vlenc_roundtrip : forall v rest, v < 2 ^ 64 -> vldec (vlenc v ++ rest) = Some (v, rest).
Proof. exact vldec_vlenc. Qed.
Print Assumptions C01_vlenc_roundtrip.

Theorem C01_vlenc_length : forall v, v < 2 ^ 64 -> (1 <= length (vlenc v) <= 10)%nat.
Proof. exact (fun v H => conj (vlenc_nonempty v) (vlenc_length_le v H)). Qed.
Print Assumptions C01_vlenc_length.

(* the encoding is the shortest possible: k bytes only if the value needs them *)
Theorem C01_vlenc_minimal : forall v k, (1 <= k < length (vlenc v))%nat -> 2 ^ (7 * N.of_nat k) <= v.
Proof. exact (fun v k H => vlenc_length_minimal v k (proj2 H) (proj1 H)). Qed.
Print Assumptions C01_vlenc_minimal.

Theorem C01_vlenc_bytes : forall v, Forall (fun b => b < 256) (vlenc v).
Proof. exact vlenc_bytes_ok. Qed.
Print Assumptions C01_vlenc_bytes.

(* the decoder consumes between 1 and 10 bytes of any input and yields a 64-bit value *)
Theorem C01_vldec_bounded : forall buf v rest, vldec buf = Some (v, rest) ->
  (exists used, buf = used ++ rest /\ (1 <= length used <= 10)%nat) /\ v < 2 ^ 64.
Proof. exact (fun buf v rest H => conj (vldec_consumed buf v rest H) (vldec_u64 buf v rest H)). Qed.
Print Assumptions C01_vldec_bounded.

Theorem C01_vldec_total : forall buf, (10 <= length buf)%nat -> exists v rest, vldec buf = Some (v, rest).
Proof. exact vldec_total. Qed.
Print Assumptions C01_vldec_total.

Example C01_max : vlenc 18446744073709551615 = [255;255;255;255;255;255;255;255;255;1]
  /\ vldec [255;255;255;255;255;255;255;255;255;1;7] = Some (18446744073709551615, [7])
  /\ vlenc 300 = [172; 2].
Proof. vm_compute. auto. Qed.

(* C02: every variant constructed through the API survives pack/unpack bit-identically
   (so it compares equal), and at most 20 bytes are used *)
Theorem C02_variant_pack_roundtrip : forall m c v rest, built m c v ->
  var_unpack (var_pack c ++ rest) = Some (c, true, rest) /\ (2 <= length (var_pack c) <= 20)%nat.
Proof.
  exact (fun m c v rest H =>
    conj (var_pack_unpack c rest (built_cvar_ok m c v H)
            (eq_ind_r (fun t => t <= MAXTYPE)
               (match v as v0 return val_type v0 <= MAXTYPE with
                | VInv | VUsr _ | VInt _ | VUint _ | VStr _ | VAddr _ | VDouble _ | VBool _ | VType _ | VPtr _ =>
                    ltac:(vm_compute; discriminate) end)
               (proj1 (built_type m c v H))))
         (var_pack_length c (built_cvar_ok m c v H))).
Qed.
Print Assumptions C02_variant_pack_roundtrip.

Theorem C02_unpack_rejects_bad_type : forall c rest, cvar_ok c -> MAXTYPE < extract_type (ts c) ->
  var_unpack (var_pack c ++ rest) = Some (empty_var, false, var_pack c ++ rest).
Proof. exact var_unpack_reject. Qed.
Print Assumptions C02_unpack_rejects_bad_type.

Theorem C02_unpack_accepts_only_known_types : forall buf c rest,
  var_unpack buf = Some (c, true, rest) -> cvar_ok c /\ extract_type (ts c) <= MAXTYPE.
Proof. exact var_unpack_ok_type. Qed.
Print Assumptions C02_unpack_accepts_only_known_types.

(* C08: equality of variants is equality of the values they were built from *)
Theorem C08_eq_is_value_equality : forall m a b va vb, built m a va -> built m b vb ->
  (var_eq m a b = true <-> va = vb).
Proof. exact var_eq_spec. Qed.
Print Assumptions C08_eq_is_value_equality.

Theorem C08_eq_implies_hash_eq : forall m a b, var_eq m a b = true -> stored_hash a = stored_hash b.
Proof. exact var_eq_hash. Qed.
Print Assumptions C08_eq_implies_hash_eq.

(* The C-string constructor reads the byte in front of an empty string: two empty
   strings may compare unequal (cali_variant.h:117-137). *)
Theorem C08_empty_cstring_refuted : exists m p q,
  m p = 0 /\ m q = 0 /\ (* both point to the empty C string *)
  var_eq m (make_from_string m p 0) (make_from_string m q 0) = false.
Proof.
  exact (ex_intro _ (fun a => if a =? 99 then 65 else 0)
          (ex_intro _ 100 (ex_intro _ 200 (conj eq_refl (conj eq_refl eq_refl))))).
Qed.
Print Assumptions C08_empty_cstring_refuted.

(* non-vacuity: two copies of "ab" at different addresses, and a different string with the same hash *)
Definition ex_mem : memory := fun a =>
  if a =? 10 then 97 else if a =? 11 then 98 else if a =? 20 then 97 else if a =? 21 then 98 else 0.
Example C08_ex : built ex_mem (make_blob ex_mem T_STRING 10 2) (VStr [97;98]) /\
                 built ex_mem (make_from_string ex_mem 20 2) (VStr [97;98]) /\
                 var_eq ex_mem (make_blob ex_mem T_STRING 10 2) (make_from_string ex_mem 20 2) = true.
Proof.
  assert (H : forall p, (p = 10 \/ p = 20) -> holds ex_mem p [97;98]).
  { intros p Hp [|[|i]] b E; simpl in E; try (destruct i; discriminate);
      injection E as <-; destruct Hp; subst p; reflexivity. }
  split; [|split]; [apply (b_str ex_mem 10 [97;98])|apply (b_cstr ex_mem 20 [97;98])|reflexivity];
    auto; try reflexivity; try discriminate; repeat constructor.
Qed.

(* C09 (partial: holds where the 64-bit difference fits an int, no NaN, no embedded NUL) *)
Theorem C09_compare_order_partial : forall m a b va vb, built m a va -> built m b vb -> cmp_exact va vb ->
  exists c, compare m a b = Some c /\ sgn c = vorder va vb.
Proof. exact compare_spec. Qed.
Print Assumptions C09_compare_order_partial.

Theorem C09_lt_gt_partial : forall m a b va vb, built m a va -> built m b vb -> cmp_exact va vb ->
  var_lt m a b = Some (match vorder va vb with Lt => true | _ => false end) /\
  var_gt m a b = Some (match vorder va vb with Gt => true | _ => false end).
Proof. exact var_lt_spec. Qed.
Print Assumptions C09_lt_gt_partial.

(* the order being implemented is a total order *)
Theorem C09_spec_antisym : forall a b, not_nan a -> not_nan b -> vorder b a = CompOpp (vorder a b).
Proof. exact vorder_antisym. Qed.
Theorem C09_spec_trans : forall a b c, not_nan a -> not_nan b -> not_nan c ->
  vorder a b = Lt -> vorder b c = Lt -> vorder a c = Lt.
Proof. exact vorder_trans. Qed.
Theorem C09_spec_eq : forall a b, vorder a b = Eq -> a = b \/ exists x y, a = VDouble x /\ b = VDouble y.
Proof. exact vorder_eq. Qed.
Print Assumptions C09_spec_antisym.
Print Assumptions C09_spec_trans.
Print Assumptions C09_spec_eq.

(* The full property fails for integers: different values compare as equal, the sign
   can be wrong, and extreme values overflow (undefined behaviour). *)
Theorem C09_int_compare_refuted : exists m x y z,
  s64_ok x /\ s64_ok y /\ s64_ok z /\
  compare m (make_int x) (make_int y) = Some 0%Z /\ x <> y /\
  var_lt m (make_int y) (make_int z) = Some false /\ (y < z)%Z /\
  var_gt m (make_int y) (make_int z) = Some true.
Proof. exists (fun _ => 0), 4294967296%Z, 0%Z, 2147483649%Z. vm_compute. repeat split; try reflexivity; try (intro; discriminate). Qed.
Print Assumptions C09_int_compare_refuted.

Theorem C09_int_overflow_refuted : exists m x y, s64_ok x /\ s64_ok y /\
  compare m (make_int x) (make_int y) = None.
Proof. exists (fun _ => 0), (-9223372036854775808)%Z, 1%Z. vm_compute. repeat split; try reflexivity; try (intro; discriminate). Qed.
Print Assumptions C09_int_overflow_refuted.

(* NaN compares as equal to everything *)
Theorem C09_nan_refuted : exists m nan one two, 
  compare m (make_double nan) (make_double one) = Some 0%Z /\
  compare m (make_double nan) (make_double two) = Some 0%Z /\
  compare m (make_double one) (make_double two) = Some (-1)%Z.
Proof. exists (fun _ => 0), 9221120237041090560, 4607182418800017408, 4611686018427387904. vm_compute. repeat split; try reflexivity; try (intro; discriminate). Qed.
Print Assumptions C09_nan_refuted.

Example C09_ex : cmp_exact (VInt (-5)) (VInt 7) /\ vorder (VInt (-5)) (VInt 7) = Lt /\
  cmp_exact (VDouble 4607182418800017408) (VDouble 13830554455654793216) /\
  vorder (VDouble 4607182418800017408) (VDouble 13830554455654793216) = Gt.
Proof. vm_compute. repeat split; try reflexivity; try (intro; discriminate). Qed.

(* C10: integer conversions are exact or report failure *)
Theorem C10_to_int : forall m c v, built m c v -> is_double v = false ->
  to_int c = match int_range (-2147483648) 2147483647 v with Some z => CRes z true | None => CRes 0%Z false end.
Proof. exact to_int_ok. Qed.
Theorem C10_to_int64 : forall m c v, built m c v -> is_double v = false ->
  to_int64 c = match int_range (-9223372036854775808) 9223372036854775807 v with
               | Some z => CRes z true | None => CRes 0%Z false end.
Proof. exact to_int64_ok. Qed.
Theorem C10_to_uint : forall m c v, built m c v -> is_double v = false ->
  to_uint c = match int_range 0 18446744073709551615 v with Some z => CRes z true | None => CRes 0%Z false end.
Proof. exact to_uint_ok. Qed.
Theorem C10_to_bool : forall m c v, built m c v ->
  to_bool c = match v with
              | VInt z => (negb (z =? 0)%Z, true)
              | VUint n | VAddr n => (negb (n =? 0), true)
              | VBool b => (b, true)
              | _ => (false, false)
              end.
Proof. exact to_bool_ok. Qed.
Theorem C10_to_type : forall m c v, built m c v ->
  to_type c = match v with VType t => (t, true) | _ => (T_INV, false) end.
Proof. exact to_type_ok. Qed.
Print Assumptions C10_to_int.
Print Assumptions C10_to_int64.
Print Assumptions C10_to_uint.
Print Assumptions C10_to_bool.
Print Assumptions C10_to_type.

(* doubles: truncated if in range, undefined behaviour otherwise *)
Theorem C10_double_partial : forall m c bits, built m c (VDouble bits) ->
  to_int c = dconv INT_MIN INT_MAX bits /\ to_int64 c = dconv LLONG_MIN LLONG_MAX bits /\
  to_uint c = dconv 0 ULLONG_MAX bits.
Proof. exact to_int_double. Qed.
Print Assumptions C10_double_partial.

(* a negative double converted to uint, or 1e10 to int, is undefined behaviour in the code *)
Theorem C10_double_refuted : exists neg big, u64_ok neg /\ u64_ok big /\
  to_uint (make_double neg) = CUB /\ to_int (make_double big) = CUB.
Proof. exists 13830554455654793216, 4756540486875873280. vm_compute. repeat split; try reflexivity; try (intro; discriminate). Qed.
Print Assumptions C10_double_refuted.

Example C10_ex : to_int (make_int (-7)) = CRes (-7)%Z true /\ to_uint (make_int (-7)) = CRes 0%Z false /\
  to_int (make_uint 4000000000) = CRes 0%Z false /\ to_int (make_double 13832806255468478464) = CRes (-1)%Z true.
Proof. vm_compute. auto. Qed.
