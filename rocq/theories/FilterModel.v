(* Model of src/reader/RecordSelector.cpp (WHERE conditions) and src/reader/Preprocessor.cpp (LET operators)
   on the metadata database of CaliFileModel.

   Simplifications:
   - Variant::from_string is a parameter parse (modelled in TextModel up to the parsing of doubles);
   - std::stod of operator arguments is not modelled: scale and factor are given as doubles;
   - attributes are looked up by name at every use instead of caching the first successful lookup, which
     gives the same result because the attribute of a name never changes (AggProofs.alookup_stable);
   - records contain no empty entries. *)
From Verif Require Import Base VariantModel VariantSpec NamesModel TextModel TreeModel CaliFileModel FloatModel ArithSpec AggModel.
Open Scope N_scope.

(* cali_variant_compare, cali_variant.c:447-499, on values (see VariantModel.compare for the byte level);
   signed overflow of the 64-bit subtraction wraps *)
Definition vcompare (a b : value) : Z :=
  match a, b with
  | VInv, VInv => 0%Z
  | VInt x, VInt y => trunc32 (x - y)
  | VUsr s, VUsr t => let n := Nat.min (length s) (length t) in let c := memcmp_l (firstn n s) (firstn n t) in if (c =? 0)%Z then (Z.of_nat (length s) - Z.of_nat (length t))%Z else c
  | VStr s, VStr t => let n := Nat.min (length s) (length t) in let c := strncmp_l (firstn n s) (firstn n t) in if (c =? 0)%Z then (Z.of_nat (length s) - Z.of_nat (length t))%Z else c
  | VUint x, VUint y | VAddr x, VAddr y => let diff := wrap64 (x + W64 - y) in if diff =? 0 then 0%Z else if x <? diff then (-1)%Z else 1%Z
  | VDouble x, VDouble y => dcmp (dbl x) (dbl y)
  | VBool x, VBool y => ((if x then 1 else 0) - (if y then 1 else 0))%Z
  | VType x, VType y | VPtr x, VPtr y => trunc32 (Z.of_N x - Z.of_N y)
  | _, _ => (Z.of_N (val_type a) - Z.of_N (val_type b))%Z
  end.
(* operator< and operator>, Variant.h:124-132; operator== is equality of values (C08) *)
Definition vltb (a b : value) : bool := (vcompare a b <? 0)%Z.
Definition vgtb (a b : value) : bool := (0 <? vcompare a b)%Z.

(* ---------------- RecordSelector ---------------- *)
(* QuerySpec::Condition, QuerySpec.h *)
Inductive cop := ONone | OExist | ONotExist | OEqual | ONotEqual | OLess | OGreater | OLessEq | OGreaterEq.
Record cond := mkcond { c_op : cop; c_name : bytes; c_text : bytes }.
(* have_match, lines 118-130 *)
Definition have_match (d : mdb) (e : entry) (m : N -> value -> bool) : bool :=
  match e with
  | ERef i => existsb (fun x => m (fst x) (snd x)) (node_path d i)
  | EImm a v => m a v
  end.
Section PARSE.
Variable parse : N -> bytes -> value.
(* make_clause, lines 107-115: the attribute id (CALI_INV_ID if unknown) and the value *)
Definition clause_attr (d : mdb) (c : cond) : N := match get_attr d (c_name c) with Some a => a | None => INV_ID end.
Definition clause_value (d : mdb) (c : cond) : value := match get_attr d (c_name c) with Some a => parse (attr_type d a) (c_text c) | None => VInv end.
(* the loops over the record: some entry matches *)
Definition any_match (d : mdb) (rec : list entry) (m : N -> value -> bool) : bool := existsb (fun e => have_match d e m) rec.
(* pass, lines 132-246, one condition *)
Definition pass1 (d : mdb) (rec : list entry) (c : cond) : bool :=
  let ca := clause_attr d c in
  let cv := clause_value d c in
  match c_op c with
  | OExist => any_match d rec (fun a _ => a =? ca)
  | ONotExist => negb (any_match d rec (fun a _ => a =? ca))
  | OEqual => any_match d rec (fun a v => (a =? ca) && veqb v cv)
  | ONotEqual => negb (any_match d rec (fun a v => (a =? ca) && veqb v cv))
  | OLess => any_match d rec (fun a v => (a =? ca) && vltb v cv)
  | OGreater => any_match d rec (fun a v => (a =? ca) && vgtb v cv)
  | OLessEq => any_match d rec (fun a v => (a =? ca) && (vltb v cv || veqb v cv))
  | OGreaterEq => any_match d rec (fun a v => (a =? ca) && (vgtb v cv || veqb v cv))
  | ONone => true
  end.
Definition pass (d : mdb) (cs : list cond) (rec : list entry) : bool := forallb (pass1 d rec) cs.
(* operator(), lines 262-267: records that are pushed on *)
Definition select (d : mdb) (cs : list cond) (recs : list (list entry)) : list (list entry) := filter (pass d cs) recs.

(* ---------------- Preprocessor ---------------- *)
(* Entry::value(attr_id), Entry.cpp:30-40 *)
Definition e_value (d : mdb) (e : entry) (a : N) : value :=
  if entry_node e =? a then e_val d e
  else match climb (length (d_nodes d)) (dnode d) (entry_node e) a with Some v => v | None => VInv end.
(* get_value, lines 27-46 *)
Fixpoint first_value (d : mdb) (rec : list entry) (a : N) : value :=
  match rec with
  | [] => VInv
  | e :: r => match e_value d e a with VInv => first_value d r a | v => v end
  end.
Definition get_value (d : mdb) (name : bytes) (rec : list entry) : value :=
  match get_attr d name with Some a => first_value d rec a | None => VInv end.
(* fmod(x, y): x - n*y exactly, n = trunc(x/y); NaN if x is infinite or y is zero; x if y is infinite *)
Definition dfmod (x y : N) : N :=
  match b2f x, b2f y with
  | SpecFloat.S754_nan, _ | _, SpecFloat.S754_nan => f2b SpecFloat.S754_nan
  | SpecFloat.S754_infinity _, _ | _, SpecFloat.S754_zero _ => f2b SpecFloat.S754_nan
  | _, SpecFloat.S754_infinity _ | SpecFloat.S754_zero _, _ => x
  | SpecFloat.S754_finite sx mx ex, SpecFloat.S754_finite _ my ey =>
      let e := Z.min ex ey in
      let r := ((Z.pos mx * 2 ^ (ex - e)) mod (Z.pos my * 2 ^ (ey - e)))%Z in
      f2b (SpecFloat.binary_normalize fprec femax (if sx then - r else r) e sx)
  end.
Definition dabs (x : N) : N := N.land x 9223372036854775807.
(* the operators with their arguments *)
Inductive letop :=
| LRatio (num den : bytes) (scale : N)
| LScale (x : bytes) (scale : N)
| LTruncate (x : bytes) (factor : N)
| LFirst (xs : list bytes)
| LSum (xs : list bytes)
| LLeaf
| LLeafOf (x : bytes).
Record letspec := mklet { l_target : bytes; l_op : letop; l_cond : cond }.
(* SKIP_EVENTS | ASVALUE *)
Definition LETPROP : Z := 65.
Definition add_entry (d : mdb) (tgt : bytes) (ty : N) (prop : Z) (rec : list entry) (v : value) : list entry * mdb :=
  let (a, d1) := create_attribute d tgt ty prop in (rec ++ [EImm a v], d1).
(* FirstKernel::process, lines 222-239 *)
Fixpoint first_of (d : mdb) (xs : list bytes) (rec : list entry) : option (bytes * value) :=
  match xs with
  | [] => None
  | x :: r => match get_value d x rec with VInv => first_of d r rec | v => Some (x, v) end
  end.
(* the target entry of LeafKernel: get_path_entry (CaliperMetadataAccessInterface.cpp:38-51) or
   Entry::get (Entry.cpp:42-57); result: its value, None = empty entry *)
Definition path_entry (d : mdb) (e : entry) : option value :=
  match e with
  | ERef i => match find (fun x => is_nested d (fst x)) (node_path d i) with Some x => Some (snd x) | None => None end
  | EImm _ _ => None
  end.
Definition get_entry_of (d : mdb) (e : entry) (a : N) : option value :=
  if entry_node e =? a then Some (e_val d e)
  else match e with
       | ERef i => match find (fun x => fst x =? a) (node_path d i) with Some x => Some (snd x) | None => None end
       | EImm _ _ => None
       end.
Fixpoint leaf_value (ty : N) (f : entry -> option value) (rec : list entry) : option value :=
  match rec with
  | [] => None
  | e :: r => match f e with Some v => if val_type v =? ty then Some v else leaf_value ty f r | None => leaf_value ty f r end
  end.
(* process of the kernels, lines 80-97, 126-137, 166-191, 222-239, 266-283, 300-326.  None: undefined
   behaviour, the conversion of the truncated double to int / uint64 out of range *)
Definition let1 (d : mdb) (tgt : bytes) (op : letop) (rec : list entry) : option (list entry * mdb) :=
  match op with
  | LRatio xn xd sc =>
      match get_value d xn rec, get_value d xd rec with
      | VInv, _ | _, VInv => Some (rec, d)
      | vn, vd => if dltb 0 (dabs (v_f64 vd)) then Some (add_entry d tgt T_DOUBLE LETPROP rec (VDouble (dmul sc (ddiv (v_f64 vn) (v_f64 vd))))) else Some (rec, d)
      end
  | LScale x sc =>
      match get_value d x rec with
      | VInv => Some (rec, d)
      | v => Some (add_entry d tgt T_DOUBLE LETPROP rec (VDouble (dmul sc (v_f64 v))))
      end
  | LTruncate x f =>
      match get_value d x rec with
      | VInv => Some (rec, d)
      | v => let ty0 := match get_attr d x with Some a => attr_type d a | None => T_INV end in
             let ty := if (ty0 =? T_INT) || (ty0 =? T_UINT) then ty0 else T_DOUBLE in
             let res := dsub (v_f64 v) (dfmod (v_f64 v) f) in
             match (if ty =? T_INT then match dconv INT_MIN INT_MAX res with CRes z _ => Some (VInt z) | CUB => None end
                    else if ty =? T_UINT then match dconv 0 ULLONG_MAX (dabs res) with CRes z _ => Some (VUint (Z.to_N z)) | CUB => None end
                    else Some (VDouble res)) with
             | Some w => Some (add_entry d tgt ty LETPROP rec w)
             | None => None
             end
      end
  | LFirst xs =>
      match first_of d xs rec with
      | Some (x, v) => Some (add_entry d tgt (match get_attr d x with Some a => attr_type d a | None => T_INV end) LETPROP rec v)
      | None => Some (rec, d)
      end
  | LSum xs =>
      match fold_left (fun s x => match get_value d x rec with VInv => s | v => vadd s v end) xs VInv with
      | VInv => Some (rec, d)
      | v => Some (add_entry d tgt (val_type v) LETPROP rec v)
      end
  | LLeaf =>
      let (a, d1) := create_attribute d tgt T_STRING LETPROP in
      match leaf_value (attr_type d1 a) (path_entry d1) rec with Some v => Some (rec ++ [EImm a v], d1) | None => Some (rec, d1) end
  | LLeafOf x =>
      match get_attr d x with
      | None => Some (rec, d)
      | Some t => let prop := Z.land (Z.lor LETPROP (attr_props d t)) (Z.lnot NESTED) in
                  let (a, d1) := create_attribute d tgt (attr_type d t) prop in
                  match leaf_value (attr_type d1 a) (fun e => get_entry_of d1 e t) rec with Some v => Some (rec ++ [EImm a v], d1) | None => Some (rec, d1) end
      end
  end.
(* the selector of a LET operator: RecordSelector(cond), lines 97-103 of RecordSelector.cpp: none for Op::None *)
Definition let_passes (d : mdb) (l : letspec) (rec : list entry) : bool := match c_op (l_cond l) with ONone => true | _ => pass d [l_cond l] rec end.
(* PreprocessorImpl::process, lines 370-380 *)
Fixpoint preprocess (d : mdb) (ls : list letspec) (rec : list entry) : option (list entry * mdb) :=
  match ls with
  | [] => Some (rec, d)
  | l :: r => if let_passes d l rec then match let1 d (l_target l) (l_op l) rec with Some (rec1, d1) => preprocess d1 r rec1 | None => None end
              else preprocess d r rec
  end.
End PARSE.
