(* Model of the Variant arithmetic in src/common/Variant.cpp:185-365, on the C representation.
   None = undefined behaviour (signed overflow, double-to-integer conversion out of range). *)
From Verif Require Import Base VariantModel FloatModel.
Open Scope N_scope.

Definition conv_val {A} (c : conv A) : option A := match c with CRes a _ => Some a | CUB => None end.
Definition s64_res (z : Z) : option N := if (LLONG_MIN <=? z)%Z && (z <=? LLONG_MAX)%Z then Some (of_s64 z) else None.
(* cali_variant_to_double, cali_variant.c:329-365 *)
Definition to_double (v : cvar) : N :=
  let t := vtype v in
  if t =? T_INT then d_of_Z (s64 (word v))
  else if (t =? T_ADDR) || (t =? T_UINT) then d_of_Z (Z.of_N (word v))
  else if t =? T_DOUBLE then word v
  else if t =? T_BOOL then d_of_Z (if v_bool v then 1 else 0)%Z
  else if t =? T_TYPE then d_of_Z (Z.of_N (v_type v))
  else 0.
(* Only the value word changes, type_and_size stays *)
Definition setw (v : cvar) (w : N) : cvar := mkvar (ts v) w.
(* the switch of operator+=, min, max (lines 185-303): fi, fu, fd combine two values of the type *)
Definition arith (fi : Z -> Z -> option N) (fu fd : N -> N -> N) (a b : cvar) : option cvar :=
  let t := vtype a in
  if t =? vtype b then
    if t =? T_DOUBLE then Some (setw a (fd (word a) (word b)))
    else if t =? T_INT then option_map (setw a) (fi (s64 (word a)) (s64 (word b)))
    else if t =? T_UINT then Some (setw a (fu (word a) (word b)))
    else Some a
  else
    if t =? T_INV then Some b
    else if t =? T_DOUBLE then Some (setw a (fd (word a) (to_double b)))
    else if t =? T_INT then match conv_val (to_int64 b) with Some y => option_map (setw a) (fi (s64 (word a)) y) | None => None end
    else if t =? T_UINT then match conv_val (to_uint b) with Some y => Some (setw a (fu (word a) (Z.to_N y))) | None => None end
    else Some a.
(* std::min(a,b) = (b < a) ? b : a; std::max(a,b) = (a < b) ? b : a *)
Definition cv_add : cvar -> cvar -> option cvar := arith (fun x y => s64_res (x + y)%Z) (fun x y => wrap64 (x + y)) dadd.
Definition cv_min : cvar -> cvar -> option cvar :=
  arith (fun x y => Some (of_s64 (if (y <? x)%Z then y else x))) (fun x y => if y <? x then y else x) (fun x y => if dltb y x then y else x).
Definition cv_max : cvar -> cvar -> option cvar :=
  arith (fun x y => Some (of_s64 (if (x <? y)%Z then y else x))) (fun x y => if x <? y then y else x) (fun x y => if dltb x y then y else x).
(* div(unsigned count), lines 305-321; the argument is converted to unsigned (32 bit).  None: division by zero *)
Definition cv_div (a : cvar) (count : N) : option cvar :=
  let c := count mod 4294967296 in
  let t := vtype a in
  if t =? T_DOUBLE then Some (make_double (ddiv (word a) (d_of_Z (Z.of_N c))))
  else if t =? T_INT then (if c =? 0 then None else Some (make_int (Z.quot (s64 (word a)) (Z.of_N c))))
  else if t =? T_UINT then (if c =? 0 then None else Some (make_uint (word a / c)))
  else Some empty_var.
(* update_minmaxsum, lines 323-367: the type of val alone selects how the words are read *)
Definition cv_minmaxsum (v mn mx sm : cvar) : option (cvar * cvar * cvar) :=
  if is_empty mn then Some (v, v, v)
  else
    let t := extract_type (ts v) in
    if t =? T_DOUBLE then
      Some (if dltb (word v) (word mn) then setw mn (word v) else mn,
            if dltb (word v) (word mn) then mx else if dltb (word mx) (word v) then setw mx (word v) else mx,
            setw sm (dadd (word sm) (word v)))
    else if t =? T_INT then
      match s64_res (s64 (word sm) + s64 (word v))%Z with
      | None => None
      | Some s =>
          Some (if (s64 (word v) <? s64 (word mn))%Z then setw mn (word v) else mn,
                if (s64 (word v) <? s64 (word mn))%Z then mx else if (s64 (word mx) <? s64 (word v))%Z then setw mx (word v) else mx,
                setw sm s)
      end
    else if t =? T_UINT then
      Some (if word v <? word mn then setw mn (word v) else mn,
            if word v <? word mn then mx else if word mx <? word v then setw mx (word v) else mx,
            setw sm (wrap64 (word sm + word v)))
    else Some (mn, mx, sm).
