(* Model of the adiak_import service, src/services/adiak/AdiakImport.cpp: metadata values of the Adiak library become
   global values of the channel.
   Adiak is the environment: it calls back with a name, category, subcategory, type and value.  The channel's
   blackboard (property C64) is a map from attribute names to values; of the attribute table (property C25) each
   attribute's type, whether it is global and its metadata are kept.  Formatting of doubles is a parameter. *)
From Verif Require Import Base VariantModel VariantSpec TextModel.

(* adiak_value_t with its adiak_datatype_t: the number a value of the type stands for.  ATimeval: the double
   tv_sec + tv_usec / 1000000.0.  AStr: adiak_version, string, catstring, path *)
Inductive aval :=
| ALong (z : Z) | AULong (n : N) | AInt (z : Z) | AUInt (n : N) | ALongLong (z : Z) | AULongLong (n : N)
| ADouble (bits : N) | ADate (z : Z) | ATimeval (bits : N) | AStr (s : bytes)
| ARange (a b : aval) | ASet (l : list aval) | AList (l : list aval) | ATuple (l : list aval) | AUnset | AOther.

(* operator<< of integers *)
Definition zdec (z : Z) : bytes := if (z <? 0)%Z then 45 :: dec (Z.to_N (- z)) else dec (Z.to_N z).
Fixpoint commas (l : list bytes) : bytes := match l with [] => [] | [x] => x | x :: l => x ++ 44 :: commas l end.
(* bits of an unsigned int read as int (val->v_int), and back through static_cast<unsigned int> *)
Definition as_int (n : N) : Z := trunc32 (Z.of_N n).
Definition as_uint (z : Z) : N := Z.to_N (z mod 4294967296).
Definition as_u64 (z : Z) : N := Z.to_N (z mod 18446744073709551616).
Definition as_s64 (n : N) : Z := s64 n.

Section Doubles.
Context (dfmt : N -> bytes).
(* AdiakImport.cpp:30-118 recursive_unpack *)
Fixpoint unpack (v : aval) : bytes :=
  match v with
  | ADate z | ALong z | AInt z | ALongLong z => zdec z
  | AULong n => dec (as_u64 (as_s64 n))
  | AULongLong n => dec (as_u64 (as_s64 n))
  | AUInt n => dec (as_uint (as_int n))
  | ADouble b | ATimeval b => dfmt b
  | AStr s => s
  | ARange a b => unpack a ++ 45 :: unpack b
  | ASet l => 91 :: commas (map unpack l) ++ [93]
  | AList l => 123 :: commas (map unpack l) ++ [125]
  | ATuple l => 40 :: commas (map unpack l) ++ [41]
  | AUnset | AOther => []
  end.
(* AdiakImport.cpp:165-260 the value set for a type; None: none.  Containers: str.length() + 1 bytes of c_str() *)
Definition import_value (v : aval) : option value :=
  match v with
  | ALong z => Some (VInt (trunc32 z))                     (* static_cast<int>(val->v_long) *)
  | AInt z => Some (VInt z)
  | AULong n => Some (VUint (as_u64 (as_s64 n)))
  | ALongLong z => Some (VInt z)
  | AULongLong n => Some (VUint (as_u64 (as_s64 n)))
  | AUInt n => Some (VUint (as_u64 (as_int n)))            (* static_cast<uint64_t>(val->v_int) *)
  | ADouble b | ATimeval b => Some (VDouble b)
  | ADate z => Some (VUint (as_u64 z))
  | AStr s => Some (VStr s)
  | ARange _ _ | ASet _ | AList _ | ATuple _ => Some (VStr (unpack v ++ [0]))
  | AUnset | AOther => None
  end.

Definition adiak_control : Z := 4.
(* one call of nameval_cb *)
Record nameval := mknv { nv_name : bytes; nv_cat : Z; nv_sub : bytes; nv_type : bytes; nv_val : aval }.
Record iattr := mkia { ia_type : N; ia_global : bool; ia_meta : option (bytes * Z * bytes) }.
(* attributes by name, the values on the channel's blackboard, names with an open value on the process blackboard
   (one entry for each), the stack_error flag of the thread *)
Record ist := mkis { is_attrs : list (bytes * iattr); is_vals : list (bytes * value); is_proc : list bytes; is_err : bool }.
Definition beq (a b : bytes) : bool := if list_eq_dec N.eq_dec a b then true else false.
Fixpoint bfind {A} (k : bytes) (l : list (bytes * A)) : option A := match l with [] => None | (k', a) :: l => if beq k k' then Some a else bfind k l end.
Definition none_sub : bytes := [110; 111; 110; 101].
Definition type_of_value (v : value) : N :=
  match v with VInt _ => T_INT | VUint _ => T_UINT | VDouble _ => T_DOUBLE | VStr _ => T_STRING | _ => T_INV end.
(* AdiakImport.cpp:120-145 set_val: create_attribute (Caliper.cpp:668-760: an existing attribute of the name is
   returned as it is) and Caliper::set on the channel (Caliper.cpp:1158-1171) *)
Definition set_val (s : ist) (nv : nameval) (v : value) : ist :=
  let sub := match nv_sub nv with [] => none_sub | x => x end in
  let attrs := match bfind (nv_name nv) (is_attrs s) with
               | Some _ => is_attrs s
               | None => (nv_name nv, mkia (type_of_value v) true (Some (nv_type nv, nv_cat nv, sub))) :: is_attrs s end in
  mkis attrs ((nv_name nv, v) :: filter (fun p => negb (beq (nv_name nv) (fst p))) (is_vals s)) (is_proc s) (is_err s).
Fixpoint remove1 (k : bytes) (l : list bytes) : list bytes := match l with [] => [] | x :: l => if beq k x then l else x :: remove1 k l end.
(* Caliper::end (Caliper.cpp:982-1026) of a global attribute: these have process scope *)
Definition end_global (s : ist) (n : bytes) : ist :=
  if is_err s then s
  else if existsb (beq n) (is_proc s) then mkis (is_attrs s) (is_vals s) (remove1 n (is_proc s)) (is_err s)
  else mkis (is_attrs s) (is_vals s) (is_proc s) true.
(* AdiakImport.cpp:152-277 nameval_cb *)
Definition import1 (s : ist) (nv : nameval) : ist :=
  if (nv_cat nv =? adiak_control)%Z then s
  else match nv_val nv with
       | AUnset => match bfind (nv_name nv) (is_attrs s) with Some a => if ia_global a then end_global s (nv_name nv) else s | None => s end
       | v => match import_value v with Some x => set_val s nv x | None => s end
       end.
(* AdiakImport.cpp:308-315: the pre-flush callback; listed: what adiak_list_namevals calls back with for a category *)
Definition import (listed : Z -> list nameval) (cats : list Z) (s : ist) : ist := fold_left import1 (flat_map listed cats) s.
(* the globals of the channel *)
Definition globals (s : ist) : list (bytes * value) := filter (fun p => match bfind (fst p) (is_attrs s) with Some a => ia_global a | None => false end) (is_vals s).
End Doubles.
