(* What WHERE conditions and LET operators mean *)
From Verif Require Import Base VariantModel VariantSpec NamesModel TextModel TreeModel CaliFileModel CaliFileProofs2 ArithSpec FloatModel AggModel AggSpec FilterModel.
Open Scope N_scope.

(* the record carries value v for attribute a: as an immediate entry or on the path of a reference entry *)
Definition carries (d : mdb) (rec : list entry) (a : N) (v : value) : Prop :=
  In (EImm a v) rec \/ exists i p, In (ERef i) rec /\ npath d i p /\ In (a, v) p.
(* the record satisfies a condition.  An attribute that does not exist is carried by no record *)
Definition satisfies (parse : N -> bytes -> value) (d : mdb) (rec : list entry) (c : cond) : Prop :=
  let has P := exists a v, get_attr d (c_name c) = Some a /\ carries d rec a v /\ P v (parse (attr_type d a) (c_text c)) in
  match c_op c with
  | ONone => True
  | OExist => has (fun _ _ => True)
  | ONotExist => ~ has (fun _ _ => True)
  | OEqual => has (fun v w => v = w)
  | ONotEqual => ~ has (fun v w => v = w)
  | OLess => has (fun v w => vorder v w = Lt)
  | OGreater => has (fun v w => vorder v w = Gt)
  | OLessEq => has (fun v w => vorder v w = Lt \/ v = w)
  | OGreaterEq => has (fun v w => vorder v w = Gt \/ v = w)
  end.
(* the payload of the value fits its C type *)
Definition in_range (v : value) : Prop :=
  match v with VUint n | VAddr n | VPtr n | VDouble n => u64_ok n | VInt z => s64_ok z | VType n => n <= MAXTYPE | _ => True end.
(* the ordering conditions compare only values whose comparison is exact (C09): no NaN, integers less than
   2^31 apart *)
Definition comparable (parse : N -> bytes -> value) (d : mdb) (rec : list entry) (c : cond) : Prop :=
  match c_op c with
  | OLess | OGreater | OLessEq | OGreaterEq =>
      forall a v, get_attr d (c_name c) = Some a -> carries d rec a v ->
        in_range v /\ in_range (parse (attr_type d a) (c_text c)) /\ cmp_exact v (parse (attr_type d a) (c_text c))
  | _ => True
  end.

(* v is the innermost value for attribute a on the path p *)
Definition innermost (p : list (N * value)) (a : N) (v : value) : Prop := exists p1 p2, p = p1 ++ (a, v) :: p2 /\ ~ In a (map fst p2).
(* the value of attribute a in an entry: the value of an immediate entry for a, the innermost value on the
   path of a reference entry, or a metadata value of the attribute of an immediate entry *)
Inductive entry_value (d : mdb) : entry -> N -> value -> Prop :=
| ev_imm a v : entry_value d (EImm a v) a v
| ev_ref i p a v : npath d i p -> innermost p a v -> entry_value d (ERef i) a v
| ev_meta b w p a v : b <> a -> npath d b p -> innermost p a v -> entry_value d (EImm b w) a v.
(* the value of the attribute with this name in a record: the first (non-empty) one *)
Definition record_value (d : mdb) (rec : list entry) (name : bytes) (v : value) : Prop :=
  v <> VInv /\ exists a pre e post, get_attr d name = Some a /\ rec = pre ++ e :: post /\ entry_value d e a v /\ forall e' w, In e' pre -> entry_value d e' a w -> w = VInv.
Definition no_value (d : mdb) (rec : list entry) (name : bytes) : Prop := forall v, ~ record_value d rec name v.
(* the innermost nested value (region) of the path of a reference entry *)
Definition leaf_region (d : mdb) (e : entry) (v : value) : Prop :=
  exists i p p1 a p2, e = ERef i /\ npath d i p /\ p = p1 ++ (a, v) :: p2 /\ is_nested d a = true /\ Forall (fun x => is_nested d (fst x) = false) p2.
Definition own_value (d : mdb) (a : N) (e : entry) (v : value) : Prop := e = EImm a v \/ exists i p, e = ERef i /\ npath d i p /\ innermost p a v.
(* the first entry with a value of type ty *)
Definition first_typed (ty : N) (f : entry -> value -> Prop) (rec : list entry) (v : value) : Prop :=
  val_type v = ty /\ exists pre e post, rec = pre ++ e :: post /\ f e v /\ forall e' w, In e' pre -> f e' w -> val_type w <> ty.
Definition known (d : mdb) (x : bytes) : Prop := get_attr d x <> None.
Definition type_of (d : mdb) (x : bytes) : N := match get_attr d x with Some a => attr_type d a | None => T_INV end.
(* x - fmod(x, f) for doubles *)
Definition truncated (v : value) (f : N) : N := dsub (v_f64 v) (dfmod (v_f64 v) f).
(* the value a LET operator defines for a record *)
Inductive let_value (d : mdb) (rec : list entry) (tgt : bytes) : letop -> value -> Prop :=
| lv_ratio n dn sc vn vd : record_value d rec n vn -> record_value d rec dn vd -> dltb 0 (dabs (v_f64 vd)) = true -> let_value d rec tgt (LRatio n dn sc) (VDouble (dmul sc (ddiv (v_f64 vn) (v_f64 vd))))
| lv_scale x sc v : record_value d rec x v -> let_value d rec tgt (LScale x sc) (VDouble (dmul sc (v_f64 v)))
| lv_trunc_int x f v z : record_value d rec x v -> type_of d x = T_INT -> dtrunc (dbl (truncated v f)) = Some z -> (INT_MIN <= z <= INT_MAX)%Z -> let_value d rec tgt (LTruncate x f) (VInt z)
| lv_trunc_uint x f v z : record_value d rec x v -> type_of d x = T_UINT -> dtrunc (dbl (dabs (truncated v f))) = Some z -> (0 <= z <= ULLONG_MAX)%Z -> let_value d rec tgt (LTruncate x f) (VUint (Z.to_N z))
| lv_trunc_double x f v : record_value d rec x v -> type_of d x <> T_INT -> type_of d x <> T_UINT -> let_value d rec tgt (LTruncate x f) (VDouble (truncated v f))
| lv_first pre x post v : Forall (no_value d rec) pre -> record_value d rec x v -> let_value d rec tgt (LFirst (pre ++ x :: post)) v
| lv_sum xs vs : Forall2 (fun x ov => match ov with Some v => record_value d rec x v | None => no_value d rec x end) xs vs ->
    (* vs: the values of the attributes that have one *)
    fold_left vadd (flat_map (fun ov => match ov with Some v => [v] | None => [] end) vs) VInv <> VInv ->
    let_value d rec tgt (LSum xs) (fold_left vadd (flat_map (fun ov => match ov with Some v => [v] | None => [] end) vs) VInv)
| lv_leaf v : first_typed (match get_attr d tgt with Some a => attr_type d a | None => T_STRING end) (leaf_region d) rec v -> let_value d rec tgt LLeaf v
| lv_leafof x t v : get_attr d x = Some t -> first_typed (match get_attr d tgt with Some a => attr_type d a | None => attr_type d t end) (own_value d t) rec v -> let_value d rec tgt (LLeafOf x) v.

(* the effect of one LET operator on a record: nothing, or one entry for its target attribute is appended *)
Inductive let_step (parse : N -> bytes -> value) (l : letspec) : mdb -> list entry -> mdb -> list entry -> Prop :=
| ls_add d rec d' a v : satisfies parse d rec (l_cond l) -> let_value d rec (l_target l) (l_op l) v -> grow d d' -> get_attr d' (l_target l) = Some a -> let_step parse l d rec d' (rec ++ [EImm a v])
| ls_none d rec d' : ~ satisfies parse d rec (l_cond l) \/ (forall v, ~ let_value d rec (l_target l) (l_op l) v) -> grow d d' -> let_step parse l d rec d' rec.
Inductive let_steps (parse : N -> bytes -> value) : list letspec -> mdb -> list entry -> mdb -> list entry -> Prop :=
| lss_nil d rec : let_steps parse [] d rec d rec
| lss_cons l ls d rec d1 rec1 d2 rec2 : let_step parse l d rec d1 rec1 -> let_steps parse ls d1 rec1 d2 rec2 -> let_steps parse (l :: ls) d rec d2 rec2.

(* the types of all attributes are proper types *)
Definition types_ok (d : mdb) : Prop := forall s a, get_attr d s = Some a -> attr_type d a <= MAXTYPE.
