(* What the Variant arithmetic means on values.  Integers of type INT are 64-bit two's complement,
   UINT are modulo 2^64, DOUBLE is IEEE-754 binary64. *)
From Verif Require Import Base VariantModel VariantSpec FloatModel.
Open Scope N_scope.

Definition swrap (z : Z) : Z := ((z + 9223372036854775808) mod 18446744073709551616 - 9223372036854775808)%Z.
(* double -> integer if representable *)
Definition d_int (lo hi : Z) (bits : N) : option Z :=
  match dtrunc (dbl bits) with Some z => if (lo <=? z)%Z && (z <=? hi)%Z then Some z else None | None => None end.
(* conversions of values; 0 where the value has no counterpart in the target type.  For doubles outside
   the target range the C conversion is undefined behaviour; the 0 chosen here is not relied upon. *)
Definition v_i64 (v : value) : Z :=
  match v with
  | VDouble b => match d_int LLONG_MIN LLONG_MAX b with Some z => z | None => 0%Z end
  | _ => match int_range LLONG_MIN LLONG_MAX v with Some z => z | None => 0%Z end
  end.
Definition v_u64 (v : value) : N :=
  match v with
  | VDouble b => match d_int 0 ULLONG_MAX b with Some z => Z.to_N z | None => 0 end
  | _ => match int_range 0 ULLONG_MAX v with Some z => Z.to_N z | None => 0 end
  end.
Definition v_f64 (v : value) : N :=
  match v with VDouble b => b | _ => match num_of v with Some z => d_of_Z z | None => 0 end end.
(* a op= b: the left operand decides the type; an empty left operand takes the right one *)
Definition vop (fi : Z -> Z -> Z) (fu fd : N -> N -> N) (a b : value) : value :=
  match a with
  | VInv => b
  | VInt x => VInt (fi x (v_i64 b))
  | VUint x => VUint (fu x (v_u64 b))
  | VDouble x => VDouble (fd x (v_f64 b))
  | _ => a
  end.
Definition vadd : value -> value -> value := vop (fun x y => swrap (x + y)) (fun x y => wrap64 (x + y)) dadd.
Definition vmin : value -> value -> value := vop Z.min N.min (fun x y => if dltb y x then y else x).
Definition vmax : value -> value -> value := vop Z.max N.max (fun x y => if dltb x y then y else x).
(* division by a count > 0 *)
Definition vdiv (a : value) (c : N) : value :=
  match a with
  | VDouble x => VDouble (ddiv x (d_of_Z (Z.of_N c)))
  | VInt x => VInt (Z.quot x (Z.of_N c))
  | VUint x => VUint (x / c)
  | _ => VInv
  end.
Global Arguments v_i64 : simpl never.
Global Arguments v_u64 : simpl never.
Global Arguments v_f64 : simpl never.
