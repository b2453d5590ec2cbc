(* Model of the region profile record processors, src/reader/NestedExclusiveRegionProfile.cpp,
   NestedInclusiveRegionProfile.cpp, FlatExclusiveRegionProfile.cpp, FlatInclusiveRegionProfile.cpp.
   Records and metadata as in the aggregator model (C30).  Doubles are IEEE-754 bit patterns
   (FloatModel).  vtext stands for Variant::to_string.  std::map<std::string, double> is a list of
   pairs with distinct keys; its order is not observable here. *)
From Verif Require Import Base VariantModel VariantSpec TreeModel CaliFileModel FloatModel ArithSpec AggModel.
Open Scope N_scope.

Section T.
Variable vtext : value -> bytes.
Definition slash : N := 47.
Fixpoint beq (a b : bytes) : bool := match a, b with [], [] => true | x :: a', y :: b' => (x =? y) && beq a' b' | _, _ => false end.

(* reg_profile[k] += v *)
Fixpoint madd (m : list (bytes * N)) (k : bytes) (v : N) : list (bytes * N) :=
  match m with
  | [] => [(k, dadd 0 v)]
  | (k', x) :: r => if beq k' k then (k', dadd x v) :: r else (k', x) :: madd r k v
  end.
Record prof := mkprof { p_total : N; p_reg : N; p_map : list (bytes * N) }.
Definition prof0 : prof := mkprof 0 0 [].

(* the constructors: metric_attr.id() and region_attr.id(); an unknown or empty region attribute
   name gives the invalid attribute, e.g. NestedExclusiveRegionProfile.cpp:77-87 *)
Definition metric_id (d : mdb) (name : bytes) : N := match get_attr d name with Some a => a | None => INV_ID end.
Definition region_id (d : mdb) (name : bytes) : option N := match name with [] => None | _ => get_attr d name end.
(* is_target_reg, e.g. NestedExclusiveRegionProfile.cpp:28 *)
Definition is_target (d : mdb) (r : option N) (a : N) : bool := match r with None => is_nested d a | Some x => x =? a end.
(* the metric entry, e.g. lines 47-56 *)
Definition metric_of (d : mdb) (m : N) (rec : list entry) : option N :=
  match find (fun e => e_attr d e =? m) rec with Some e => Some (v_f64 (e_val d e)) | None => None end.

(* path.append(path.empty() ? "" : "/").append(text) *)
Definition extend (path t : bytes) : bytes := match path with [] => t | _ => path ++ slash :: t end.
(* get_path, NestedExclusiveRegionProfile.cpp:16-34, on the path of the node (innermost first) *)
Fixpoint get_path (d : mdb) (r : option N) (l : list (N * value)) : bytes :=
  match l with
  | [] => []
  | (a, v) :: up => let path := get_path d r up in if is_target d r a then extend path (vtext v) else path
  end.
(* process_record, NestedExclusiveRegionProfile.cpp:44-74 *)
Definition nested_excl (d : mdb) (m : N) (r : option N) (p : prof) (rec : list entry) : prof :=
  match metric_of d m rec with
  | None => p
  | Some v =>
      let p1 := mkprof (dadd (p_total p) v) (p_reg p) (p_map p) in
      match find (fun e => match e with ERef i => is_target d r (e_attr d e) | EImm _ _ => false end) rec with
      | Some (ERef i) => mkprof (p_total p1) (dadd (p_reg p1) v) (madd (p_map p1) (get_path d r (node_path d i)) v)
      | _ => p1
      end
  end.

(* recursive_update, NestedInclusiveRegionProfile.cpp:17-42 *)
Fixpoint rec_update (d : mdb) (r : option N) (v : N) (l : list (N * value)) (mp : list (bytes * N)) : bytes * list (bytes * N) :=
  match l with
  | [] => ([], mp)
  | (a, x) :: up =>
      let (path, mp1) := rec_update d r v up mp in
      if is_target d r a then let p := extend path (vtext x) in (p, madd mp1 p v) else (path, mp1)
  end.
(* process_record, NestedInclusiveRegionProfile.cpp:53-86 *)
Fixpoint incl_entries (d : mdb) (r : option N) (v : N) (rec : list entry) (mp : list (bytes * N)) (path : bytes) : bytes * list (bytes * N) :=
  match rec with
  | [] => (path, mp)
  | EImm _ _ :: q => incl_entries d r v q mp path
  | ERef i :: q =>
      let (p1, mp1) := rec_update d r v (node_path d i) mp in
      match p1 with [] => incl_entries d r v q mp1 [] | _ => (p1, mp1) end
  end.
Definition nested_incl (d : mdb) (m : N) (r : option N) (p : prof) (rec : list entry) : prof :=
  match metric_of d m rec with
  | None => p
  | Some v =>
      let (path, mp) := incl_entries d r v rec (p_map p) [] in
      mkprof (dadd (p_total p) v) (match path with [] => p_reg p | _ => dadd (p_reg p) v end) mp
  end.

(* process_record, FlatExclusiveRegionProfile.cpp:24-56 *)
Definition flat_excl (d : mdb) (m : N) (r : option N) (p : prof) (rec : list entry) : prof :=
  match metric_of d m rec with
  | None => p
  | Some v =>
      let p1 := mkprof (dadd (p_total p) v) (p_reg p) (p_map p) in
      match find (fun e => is_target d r (e_attr d e)) rec with
      | Some e => mkprof (p_total p1) (dadd (p_reg p1) v) (madd (p_map p1) (vtext (e_val d e)) v)
      | None => p1
      end
  end.

(* process_record, FlatInclusiveRegionProfile.cpp:24-60 *)
Definition flat_incl (d : mdb) (m : N) (r : option N) (p : prof) (rec : list entry) : prof :=
  match metric_of d m rec with
  | None => p
  | Some v =>
      let regs := flat_map (fun e => match e with ERef i => filter (fun x => is_target d r (fst x)) (node_path d i) | EImm _ _ => [] end) rec in
      mkprof (dadd (p_total p) v) (match regs with [] => p_reg p | _ => dadd (p_reg p) v end)
             (fold_left (fun mp x => madd mp (vtext (snd x)) v) regs (p_map p))
  end.
End T.
