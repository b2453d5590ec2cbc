(* Model of include/caliper/common/cali_variant.h, src/common/cali_variant.c and
   the arithmetic in src/common/Variant.cpp *)
From Verif Require Import Base VlencModel.

(* cali_attr_type, include/caliper/common/cali_types.h:28-41 *)
Definition T_INV : N := 0.
Definition T_USR : N := 1.
Definition T_INT : N := 2.
Definition T_UINT : N := 3.
Definition T_STRING : N := 4.
Definition T_ADDR : N := 5.
Definition T_DOUBLE : N := 6.
Definition T_BOOL : N := 7.
Definition T_TYPE : N := 8.
Definition T_PTR : N := 9.
Definition MAXTYPE : N := 9.

(* Process memory as a flat byte array; only read. *)
Definition memory := N -> N.
Definition read_mem (m : memory) (ptr : N) (len : nat) : bytes :=
  map (fun i => m (ptr + N.of_nat i)) (seq 0 len).

(* cali_variant_t, cali_variant.h:24-43: the type_and_size word and the 8-byte
   value union, here as the 64-bit word it occupies (v_uint). *)
Record cvar := mkvar { ts : N; word : N }.

Definition cvar_ok (v : cvar) : Prop := u64_ok (ts v) /\ u64_ok (word v).

(* signed reading of a 64-bit word (v_int) *)
Definition s64 (w : N) : Z :=
  if w <? 9223372036854775808 then Z.of_N w else (Z.of_N w - 18446744073709551616)%Z.
(* two's complement representation of an int64 *)
Definition of_s64 (z : Z) : N := Z.to_N (z mod 18446744073709551616).
Definition s64_ok (z : Z) : Prop := (-9223372036854775808 <= z < 9223372036854775808)%Z.

(* _EXTRACT_TYPE/_EXTRACT_SIZE, cali_variant.c:16-17 *)
Definition extract_type (t : N) : N := N.land t 255.
Definition extract_size (t : N) : N := N.shiftr t 32.
(* the  (t <= CALI_MAXTYPE ? t : CALI_TYPE_INV)  idiom, e.g. cali_variant.c:27-28 *)
Definition vtype (v : cvar) : N :=
  let t := extract_type (ts v) in if t <=? MAXTYPE then t else T_INV.

(* cali_make_empty_variant / cali_variant_is_empty, cali_variant.h:48-60 *)
Definition empty_var : cvar := mkvar 0 0.
Definition is_empty (v : cvar) : bool := ts v =? 0.

(* The content hash in bits 8..31, cali_variant.c:94-104 (size > 0) *)
Definition content_hash (m : memory) (ptr size : N) : N :=
  if 0 <? size then
    N.shiftl (N.lor (N.shiftl (N.lor (N.shiftl (m ptr) 8) (m (ptr + size / 2))) 8)
                    (m (ptr + size - 1))) 8
  else 0.

(* cali_make_variant(type, ptr, size) for USR and STRING, cali_variant.c:82-108 *)
Definition make_blob (m : memory) (type ptr size : N) : cvar :=
  mkvar (N.lor (N.lor (wrap64 (N.shiftl size 32)) (content_hash m ptr size)) (N.land type 255)) ptr.

(* cali_make_variant_from_string, cali_variant.h:117-137: like the above, but without
   the size > 0 guard.  For size 0, p[size-1] is the byte in front of the string
   (address wrap-around as on flat memory; formally undefined behaviour). *)
Definition make_from_string (m : memory) (ptr size : N) : cvar :=
  mkvar (N.lor (N.lor (wrap64 (N.shiftl size 32))
    (N.shiftl (N.lor (N.shiftl (N.lor (N.shiftl (m ptr) 8) (m (ptr + size / 2))) 8)
                     (m (wrap64 (ptr + W64 + size - 1)))) 8)) (N.land T_STRING 255)) ptr.

(* cali_make_variant_from_{int64,uint,double,bool,type,ptr} and the scalar cases of
   cali_make_variant, cali_variant.c:110-128, cali_variant.h:77-159 *)
Definition make_int (z : Z) : cvar := mkvar T_INT (of_s64 z).
Definition make_uint (n : N) : cvar := mkvar T_UINT n.
Definition make_addr (n : N) : cvar := mkvar T_ADDR n.
Definition make_double (bits : N) : cvar := mkvar T_DOUBLE bits.
Definition make_bool (b : bool) : cvar := mkvar T_BOOL (if b then 1 else 0).
Definition make_type (t : N) : cvar := mkvar T_TYPE t.
Definition make_ptr (p : N) : cvar := mkvar T_PTR p.

(* cali_variant_get_size, cali_variant.c:25-51 *)
Definition get_size (v : cvar) : N :=
  let t := vtype v in
  if t =? T_INV then 0
  else if (t =? T_USR) || (t =? T_STRING) then extract_size (ts v)
  else if t =? T_BOOL then 1
  else if t =? T_TYPE then 4
  else 8.

(* IEEE-754 binary64 value of a bit pattern *)
Inductive dval := DNan | DInf (neg : bool) | DFin (neg : bool) (m : N) (e : Z).
Definition dbl (bits : N) : dval :=
  let neg := N.testbit bits 63 in
  let ex := N.land (N.shiftr bits 52) 2047 in
  let fr := N.land bits 4503599627370495 in
  if ex =? 2047 then (if fr =? 0 then DInf neg else DNan)
  else if ex =? 0 then DFin neg fr (-1074)
  else DFin neg (fr + 4503599627370496) (Z.of_N ex - 1075).

Global Arguments dbl : simpl never.

(* truncation towards zero; None for NaN/Inf *)
Definition dtrunc (d : dval) : option Z :=
  match d with
  | DFin neg m e =>
      let a := if (0 <=? e)%Z then (Z.of_N m * 2 ^ e)%Z else (Z.of_N m / 2 ^ (- e))%Z in
      Some (if neg then - a else a)%Z
  | _ => None
  end.

(* Result of a conversion: value and ok flag, or undefined behaviour (C11 6.3.1.4:
   double to integer out of range). *)
Inductive conv (A : Type) := CRes (a : A) (ok : bool) | CUB.
Arguments CRes {A} a ok.
Arguments CUB {A}.

Definition dconv (lo hi : Z) (bits : N) : conv Z :=
  match dtrunc (dbl bits) with
  | Some z => if (lo <=? z)%Z && (z <=? hi)%Z then CRes z true else CUB
  | None => CUB
  end.

Definition INT_MIN : Z := -2147483648.
Definition INT_MAX : Z := 2147483647.
Definition LLONG_MIN : Z := -9223372036854775808.
Definition LLONG_MAX : Z := 9223372036854775807.
Definition ULLONG_MAX : Z := 18446744073709551615.

Definition v_bool (v : cvar) : bool := negb (N.land (word v) 255 =? 0).
(* reading v_type: the low 32 bits of the word *)
Definition v_type (v : cvar) : N := N.land (word v) 4294967295.

(* cali_variant_to_int, cali_variant.c:164-207 *)
Definition to_int (v : cvar) : conv Z :=
  let t := vtype v in
  if t =? T_INT then
    (if (INT_MIN <=? s64 (word v))%Z && (s64 (word v) <=? INT_MAX)%Z
     then CRes (s64 (word v)) true else CRes 0%Z false)
  else if (t =? T_ADDR) || (t =? T_UINT) then
    (if (Z.of_N (word v) <=? INT_MAX)%Z then CRes (Z.of_N (word v)) true else CRes 0%Z false)
  else if t =? T_DOUBLE then dconv INT_MIN INT_MAX (word v)
  else if t =? T_BOOL then CRes (if v_bool v then 1%Z else 0%Z) true
  else if t =? T_TYPE then CRes (Z.of_N (v_type v)) true
  else CRes 0%Z false.

(* cali_variant_to_int64, cali_variant.c:221-261 *)
Definition to_int64 (v : cvar) : conv Z :=
  let t := vtype v in
  if t =? T_INT then CRes (s64 (word v)) true
  else if (t =? T_ADDR) || (t =? T_UINT) then
    (if (Z.of_N (word v) <=? LLONG_MAX)%Z then CRes (Z.of_N (word v)) true else CRes 0%Z false)
  else if t =? T_DOUBLE then dconv LLONG_MIN LLONG_MAX (word v)
  else if t =? T_BOOL then CRes (if v_bool v then 1%Z else 0%Z) true
  else if t =? T_TYPE then CRes (Z.of_N (v_type v)) true
  else CRes 0%Z false.

(* cali_variant_to_uint, cali_variant.c:275-315 *)
Definition to_uint (v : cvar) : conv Z :=
  let t := vtype v in
  if t =? T_INT then
    (if (0 <=? s64 (word v))%Z then CRes (s64 (word v)) true else CRes 0%Z false)
  else if (t =? T_ADDR) || (t =? T_UINT) then CRes (Z.of_N (word v)) true
  else if t =? T_DOUBLE then dconv 0 ULLONG_MAX (word v)
  else if t =? T_BOOL then CRes (if v_bool v then 1%Z else 0%Z) true
  else if t =? T_TYPE then CRes (Z.of_N (v_type v)) true
  else CRes 0%Z false.

(* cali_variant_to_bool, cali_variant.c:380-407 *)
Definition to_bool (v : cvar) : bool * bool :=
  let t := vtype v in
  if t =? T_INT then (negb (s64 (word v) =? 0)%Z, true)
  else if (t =? T_UINT) || (t =? T_ADDR) then (negb (word v =? 0), true)
  else if t =? T_BOOL then (v_bool v, true)
  else (false, false).

(* cali_variant_to_type, cali_variant.c:420-440 *)
Definition to_type (v : cvar) : N * bool :=
  if vtype v =? T_TYPE then (v_type v, true) else (T_INV, false).

(* Variant::to_id, src/common/Variant.cpp:24-33 *)
Definition to_id (v : cvar) : conv N :=
  match to_uint v with
  | CRes z true => CRes (Z.to_N z) true
  | CRes _ false => CRes INV_ID false
  | CUB => CUB
  end.

(* conversion of an int64 to the return type int (two's complement truncation, as gcc/clang) *)
Definition trunc32 (z : Z) : Z := ((z + 2147483648) mod 4294967296 - 2147483648)%Z.

(* memcmp / strncmp on the first n bytes: the sign is -1, 0 or 1 here (C only
   guarantees the sign).  strncmp stops at the first NUL both strings share. *)
Fixpoint memcmp_l (a b : bytes) : Z :=
  match a, b with
  | x :: a', y :: b' => if x <? y then (-1)%Z else if y <? x then 1%Z else memcmp_l a' b'
  | _, _ => 0%Z
  end.
Fixpoint strncmp_l (a b : bytes) : Z :=
  match a, b with
  | x :: a', y :: b' =>
      if x <? y then (-1)%Z else if y <? x then 1%Z
      else if x =? 0 then 0%Z else strncmp_l a' b'
  | _, _ => 0%Z
  end.

(* sign of the exact difference of two doubles.  The code computes the rounded
   difference; rounding to nearest with gradual underflow preserves its sign and
   yields zero only for equal operands; NaN compares as neither < nor >.
   (Flush-to-zero mode is not modelled.) *)
Definition dsign (neg : bool) (m : N) : Z := if neg then (- Z.of_N m)%Z else Z.of_N m.
Definition dcmp (a b : dval) : Z :=
  match a, b with
  | DNan, _ | _, DNan => 0%Z
  | DInf na, DInf nb => if Bool.eqb na nb then 0%Z (* inf - inf = NaN *) else if na then (-1)%Z else 1%Z
  | DInf na, DFin _ _ _ => if na then (-1)%Z else 1%Z
  | DFin _ _ _, DInf nb => if nb then 1%Z else (-1)%Z
  | DFin na ma ea, DFin nb mb eb =>
      let e := Z.min ea eb in
      Z.sgn (dsign na ma * 2 ^ (ea - e) - dsign nb mb * 2 ^ (eb - e))
  end.

(* cali_variant_compare, cali_variant.c:447-499.  None: signed overflow of the int64
   subtraction (undefined behaviour).  Sizes are assumed below 2^31 as in the casts
   to int at 460-461/468-469. *)
Definition sub_s64 (a b : Z) : option Z :=
  let d := (a - b)%Z in
  if (LLONG_MIN <=? d)%Z && (d <=? LLONG_MAX)%Z then Some d else None.

Definition compare (m : memory) (a b : cvar) : option Z :=
  let ta := vtype a in let tb := vtype b in
  if ta =? tb then
    if (ta =? T_INV) || (ta =? T_INT) then
      option_map trunc32 (sub_s64 (s64 (word a)) (s64 (word b)))
    else if ta =? T_USR then
      let na := N.to_nat (extract_size (ts a)) in let nb := N.to_nat (extract_size (ts b)) in
      let n := Nat.min na nb in
      let c := memcmp_l (read_mem m (word a) n) (read_mem m (word b) n) in
      Some (if (c =? 0)%Z then (Z.of_nat na - Z.of_nat nb)%Z else c)
    else if ta =? T_STRING then
      let na := N.to_nat (extract_size (ts a)) in let nb := N.to_nat (extract_size (ts b)) in
      let n := Nat.min na nb in
      let c := strncmp_l (read_mem m (word a) n) (read_mem m (word b) n) in
      Some (if (c =? 0)%Z then (Z.of_nat na - Z.of_nat nb)%Z else c)
    else if (ta =? T_ADDR) || (ta =? T_UINT) then
      let diff := wrap64 (word a + W64 - word b) in
      Some (if diff =? 0 then 0%Z else if word a <? diff then (-1)%Z else 1%Z)
    else if ta =? T_DOUBLE then Some (dcmp (dbl (word a)) (dbl (word b)))
    else if ta =? T_BOOL then
      Some ((if v_bool a then 1 else 0) - (if v_bool b then 1 else 0))%Z
    else if ta =? T_TYPE then Some (trunc32 (Z.of_N (v_type a) - Z.of_N (v_type b)))
    else (* T_PTR *) Some (trunc32 (Z.of_N (word a) - Z.of_N (word b)))
  else Some (Z.of_N ta - Z.of_N tb)%Z.

(* operator< / operator>, include/caliper/common/Variant.h *)
Definition var_lt m a b : option bool := option_map (fun c => (c <? 0)%Z) (compare m a b).
Definition var_gt m a b : option bool := option_map (fun c => (0 <? c)%Z) (compare m a b).

(* list equality of bytes = memcmp(...) == 0 *)
Fixpoint bytes_eqb (a b : bytes) : bool :=
  match a, b with
  | [], [] => true
  | x :: a', y :: b' => (x =? y) && bytes_eqb a' b'
  | _, _ => false
  end.

(* _cali_variant_value_eq, cali_variant.c:501-525 *)
Definition value_eq (m : memory) (a b : cvar) : bool :=
  let t := extract_type (ts a) in
  if (t =? T_USR) || (t =? T_STRING) then
    if word a =? word b then true
    else let n := N.to_nat (extract_size (ts a)) in
         bytes_eqb (read_mem m (word a) n) (read_mem m (word b) n)
  else word a =? word b.

(* cali_variant_eq, cali_variant.h:205-208 *)
Definition var_eq (m : memory) (a b : cvar) : bool := (ts a =? ts b) && value_eq m a b.

(* cali_variant_pack / cali_variant_unpack, cali_variant.c:529-562.
   unpack returns the variant and the rest of the buffer; None = read past the end of
   the buffer; the boolean is *okptr.  On failure the position is not advanced. *)
Definition var_pack (v : cvar) : bytes := vlenc (ts v) ++ vlenc (word v).
Definition var_unpack (buf : bytes) : option (cvar * bool * bytes) :=
  match vldec buf with
  | None => None
  | Some (t, r) =>
      if MAXTYPE <? extract_type t then Some (empty_var, false, buf)
      else match vldec r with
           | None => None
           | Some (w, r') => Some (mkvar t w, true, r')
           end
  end.
