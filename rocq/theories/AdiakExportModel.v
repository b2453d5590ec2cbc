(* Model of the adiak_export service, src/services/adiak/AdiakExport.cpp: global values of a channel become Adiak
   metadata.  The globals are the entries that Caliper::get_globals returns (property C65); adiak::value makes an
   Adiak value of a C++ int, unsigned long, string or vector of these (a list).  The text of a value
   (Variant::to_string, C10) is a parameter; to_int and to_uint are those of C10 on values. *)
From Verif Require Import Base VariantModel VariantSpec TextModel AdiakModel.

(* an entry: a reference with its nodes from the node up to the last one below the root of the tree, an immediate
   value, or an empty entry *)
Inductive gentry := GRef (path : list (N * value)) | GImm (a : N) (v : value) | GEmpty.
(* std::map<cali_id_t, std::vector<Variant>>: ordered by id *)
Definition gmap := list (N * list value).
Fixpoint push (a : N) (v : value) (m : gmap) : gmap :=
  match m with
  | [] => [(a, [v])]
  | (b, l) :: m' => if a =? b then (b, l ++ [v]) :: m' else if a <? b then (a, [v]) :: m else (b, l) :: push a v m'
  end.
(* AdiakExport.cpp:23-38 get_caliper_globals: the loop goes on to the root of the tree (MetadataTree.cpp:23), which
   has the attribute id CALI_INV_ID and no data *)
Definition add_entry (m : gmap) (e : gentry) : gmap :=
  match e with GRef p => fold_left (fun m x => push (fst x) (snd x) m) (p ++ [(INV_ID, VInv)]) m | GImm a v => push a v m | GEmpty => m end.
Definition caliper_globals (es : list gentry) : gmap := fold_left add_entry es [].

(* cali_variant.c:164-207 cali_variant_to_int: 0 if the value is not an int *)
Definition value_to_int (v : value) : Z :=
  match v with
  | VInt z => if (INT_MIN <=? z)%Z && (z <=? INT_MAX)%Z then z else 0%Z
  | VUint n | VAddr n => if (Z.of_N n <=? INT_MAX)%Z then Z.of_N n else 0%Z
  | VBool b => if b then 1%Z else 0%Z
  | VType t => Z.of_N t
  | _ => 0%Z
  end.
(* cali_variant.c:275-315 cali_variant_to_uint (doubles: as for to_int, not the case of integer attributes) *)
Definition value_to_uint (v : value) : N :=
  match v with
  | VInt z => if (0 <=? z)%Z then Z.to_N z else 0
  | VUint n | VAddr n => n
  | VBool b => if b then 1 else 0
  | VType t => t
  | _ => 0
  end.
Section Text.
Context (vtext : value -> bytes).
Definition one_or_list (l : list aval) : aval := match l with [v] => v | l => AList l end.
(* AdiakExport.cpp:40-93 export_globals_to_adiak: the calls of adiak::value; attr: name and type of an attribute *)
Definition export_value (ty : N) (l : list value) : aval :=
  if (ty =? T_INT) || (ty =? T_BOOL) then one_or_list (map (fun v => AInt (value_to_int v)) l)
  else if ty =? T_UINT then one_or_list (map (fun v => AULong (value_to_uint v)) l)
  else one_or_list (map (fun v => AStr (vtext v)) l).
Definition export_globals (attr : N -> bytes * N) (es : list gentry) : list (bytes * aval) :=
  flat_map (fun p => match snd p with [] => [] | l => [(fst (attr (fst p)), export_value (snd (attr (fst p))) l)] end) (caliper_globals es).
End Text.
