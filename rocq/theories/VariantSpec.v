(* Independent specification of Caliper values: what a variant stands for. *)
From Verif Require Import Base VariantModel.
From Coq Require Import QArith Qpower.
Open Scope N_scope.

(* The value a user puts into a variant. *)
Inductive value :=
| VInv                    (* empty *)
| VUsr (s : bytes)        (* user-defined blob *)
| VInt (z : Z)
| VUint (n : N)
| VStr (s : bytes)
| VAddr (n : N)
| VDouble (bits : N)      (* binary64 bit pattern *)
| VBool (b : bool)
| VType (t : N)
| VPtr (p : N).

(* [holds m p s]: memory m contains the byte string s at address p *)
Definition holds (m : memory) (p : N) (s : bytes) : Prop :=
  forall i b, nth_error s i = Some b -> m (p + N.of_nat i) = b.

(* [built m c v]: the C variant c is the result of constructing value v through the
   API (cali_make_variant, cali_make_variant_from_...) in memory m.  Value ranges are
   those of the C types; strings shorter than 4 GiB (the size field has 32 bits). *)
Inductive built (m : memory) : cvar -> value -> Prop :=
| b_empty : built m empty_var VInv
| b_usr p s : holds m p s -> bytes_ok s -> N.of_nat (length s) < 4294967296 -> u64_ok p ->
    built m (make_blob m T_USR p (N.of_nat (length s))) (VUsr s)
| b_str p s : holds m p s -> bytes_ok s -> N.of_nat (length s) < 4294967296 -> u64_ok p ->
    built m (make_blob m T_STRING p (N.of_nat (length s))) (VStr s)
| b_cstr p s : holds m p s -> bytes_ok s -> (s <> []) -> N.of_nat (length s) < 4294967296 ->
    p + N.of_nat (length s) < W64 ->
    built m (make_from_string m p (N.of_nat (length s))) (VStr s)
| b_int z : s64_ok z -> built m (make_int z) (VInt z)
| b_uint n : u64_ok n -> built m (make_uint n) (VUint n)
| b_addr n : u64_ok n -> built m (make_addr n) (VAddr n)
| b_double n : u64_ok n -> built m (make_double n) (VDouble n)
| b_bool b : built m (make_bool b) (VBool b)
| b_type t : t <= MAXTYPE -> built m (make_type t) (VType t)
| b_ptr p : u64_ok p -> built m (make_ptr p) (VPtr p).

Definition val_type (v : value) : N :=
  match v with
  | VInv => 0 | VUsr _ => 1 | VInt _ => 2 | VUint _ => 3 | VStr _ => 4 | VAddr _ => 5
  | VDouble _ => 6 | VBool _ => 7 | VType _ => 8 | VPtr _ => 9
  end.

(* the integer a value denotes, for the integer-like types *)
Definition num_of (v : value) : option Z :=
  match v with
  | VInt z => Some z
  | VUint n | VAddr n | VType n => Some (Z.of_N n)
  | VBool b => Some (if b then 1 else 0)%Z
  | _ => None
  end.

(* lexicographic order of byte strings, a proper prefix is smaller *)
Fixpoint lex (a b : bytes) : comparison :=
  match a, b with
  | [], [] => Eq
  | [], _ => Lt
  | _, [] => Gt
  | x :: a', y :: b' => match x ?= y with Eq => lex a' b' | c => c end
  end.

(* rational number denoted by a finite double *)
Definition dq (neg : bool) (mant : N) (e : Z) : Q :=
  (inject_Z (if neg then - Z.of_N mant else Z.of_N mant) * Qpower 2 e)%Q.

Definition dorder (a b : dval) : comparison :=
  match a, b with
  | DFin na ma ea, DFin nb mb eb => Qcompare (dq na ma ea) (dq nb mb eb)
  | DInf true, DInf true | DInf false, DInf false => Eq
  | DInf true, _ => Lt | _, DInf true => Gt
  | DInf false, _ => Gt | _, DInf false => Lt
  | DNan, _ | _, DNan => Eq (* not used: excluded where dorder is used *)
  end.

(* the intended total order: by type, then by value *)
Definition vorder (a b : value) : comparison :=
  match a, b with
  | VUsr s, VUsr t => lex s t
  | VStr s, VStr t => lex s t
  | VInt x, VInt y => (x ?= y)%Z
  | VUint x, VUint y => (x ?= y)%N
  | VAddr x, VAddr y => (x ?= y)%N
  | VDouble x, VDouble y => dorder (dbl x) (dbl y)
  | VBool x, VBool y => ((if x then 1 else 0) ?= (if y then 1 else 0))%Z
  | VType x, VType y => (x ?= y)%N
  | VPtr x, VPtr y => (x ?= y)%N
  | _, _ => (val_type a ?= val_type b)%N
  end.

(* sign of an integer as a comparison result *)
Definition sgn (z : Z) : comparison := (z ?= 0)%Z.

(* the integer a value denotes if it lies in the range [lo,hi] of the target type *)
Definition int_range (lo hi : Z) (v : value) : option Z :=
  match num_of v with
  | Some z => if (lo <=? z)%Z && (z <=? hi)%Z then Some z else None
  | None => None
  end.

Definition is_double (v : value) : bool := match v with VDouble _ => true | _ => false end.

(* The guard under which the C comparison is exact: excludes only the cases in which
   the code truncates a 64-bit difference to int, NaNs, C strings with embedded NUL. *)
Definition cmp_exact (a b : value) : Prop :=
  match a, b with
  | VInt x, VInt y => (-2147483648 <= x - y <= 2147483647)%Z
  | VPtr x, VPtr y => (-2147483648 <= Z.of_N x - Z.of_N y <= 2147483647)%Z
  | VDouble x, VDouble y => dbl x <> DNan /\ dbl y <> DNan
  | VStr s, VStr t => ~ In 0 s
  | _, _ => True
  end.

Definition not_nan (v : value) : Prop := match v with VDouble d => dbl d <> DNan | _ => True end.

(* stored hash (bits 8..31) *)
Definition stored_hash (c : cvar) : N := N.land (N.shiftr (ts c) 8) 16777215.
