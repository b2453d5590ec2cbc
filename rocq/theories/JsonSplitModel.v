(* Model of the json-split formatter, src/reader/JsonSplitFormatter.cpp.  process_record only stores the record
   under a lock (264-269); everything else happens in flush, in one thread. *)
From Coq Require Import Strings.Ascii Strings.String.
From Verif Require Import Base VariantModel VariantSpec NamesModel TextModel TreeModel CaliFileModel AggModel FilterModel RConfigModel FmtModel JsonModel.

(* HierarchyNode, 34-66; the id of a node is its index in m_nodes *)
Record hnode := mkh { hn_label : bytes; hn_col : bytes; hn_par : option nat }.
Definition par_eqb (a b : option nat) : bool := match a, b with Some x, Some y => (x =? y)%nat | None, None => true | _, _ => false end.
(* the loop over the children of a node, 106-107: no two children of a node have the same label (get_id looks
   before it adds), so the order of the sibling list does not matter *)
Fixpoint hfind (h : list hnode) (n : nat) (p : option nat) (lab : bytes) : option nat :=
  match h with [] => None | x :: r => if par_eqb (hn_par x) p && beqb lab (hn_label x) then Some n else hfind r (S n) p lab end.
(* Hierarchy::get_id, 98-121.  None: the root (CALI_INV_ID) *)
Definition hstep (col : bytes) (s : list hnode * option nat) (lab : bytes) : list hnode * option nat :=
  let (h, p) := s in
  match hfind h 0 p lab with Some i => (h, Some i) | None => (h ++ [mkh lab col p], Some (length h)) end.
Definition get_id (h : list hnode) (labs : list bytes) (col : bytes) : list hnode * option nat := fold_left (hstep col) labs (h, None).

(* configure, 164-196: select all, use_path and the list of names *)
Record sspec := mkss { ss_all : bool; ss_path : bool; ss_names : list bytes; ss_alias : list (bytes * bytes) }.
(* Column, 143-157 *)
Record scol := mksc { sc_title : bytes; sc_attrs : list N; sc_hier : bool }.

Section SPLIT.
Variable vtext : value -> bytes.  (* Variant::to_string *)
Variable d : mdb.
Variable q : sspec.
Definition as_value (a : N) : bool := negb (Z.land (attr_props d a) 1 =? 0)%Z.
(* init_columns, 198-246 *)
Definition sel_attrs : list N :=
  filter (fun a => if ss_all q then negb (is_hidden d a || is_global d a) else (ss_path q && is_nested d a) || existsb (fun s => beqb s (aname d a)) (ss_names q)) (map snd (kmap (d_attrs d))).
Definition columns : list scol :=
  map (fun a => mksc (match lookup_alias (ss_alias q) (aname d a) with Some x => x | None => aname d a end) [a] (negb (as_value a))) (filter (fun a => negb (is_nested d a)) sel_attrs) ++
  match filter (is_nested d) sel_attrs with [] => [] | l => [mksc (bs "path") l true] end.
(* write_hierarchy_entry, 248-273; Entry::node() of an immediate entry is the node of its attribute *)
Definition ent_nodes (e : entry) : list (N * value) := match e with ERef i => node_path d i | EImm a _ => node_path d a end.
Definition rec_labels (attrs : list N) (rec : list entry) : list bytes :=
  rev (map (fun x => vtext (snd x)) (filter (fun x => existsb (fun a => fst x =? a) attrs) (flat_map ent_nodes rec))).
Definition id_text (i : option nat) : bytes := match i with Some n => dec (N.of_nat n) | None => bs "null" end.
(* write_immediate_entry, 275-292; Entry::attribute() of a reference is the attribute of its node *)
Definition ent_attr (e : entry) : N := match e with ERef i => match dnode d i with Some n => n_attr n | None => INV_ID end | EImm a _ => a end.
Definition ent_val (e : entry) : value := match e with ERef i => match dnode d i with Some n => n_val n | None => VInv end | EImm _ v => v end.
Definition unquoted_type (a : N) : bool := (attr_type d a =? T_INT) || (attr_type d a =? T_UINT) || (attr_type d a =? T_DOUBLE).
Definition imm_text (a : N) (rec : list entry) : bytes :=
  match find (fun e => ent_attr e =? a) rec with
  | Some e => if unquoted_type a then vtext (ent_val e) else quoted (vtext (ent_val e))
  | None => bs "null"
  end.
(* one cell and one row, 384-404 *)
Definition cell (rec : list entry) (s : list hnode * list bytes) (c : scol) : list hnode * list bytes :=
  if sc_hier c then let (h, i) := get_id (fst s) (rec_labels (sc_attrs c) rec) (sc_title c) in (h, snd s ++ [id_text i])
  else (fst s, snd s ++ [match sc_attrs c with a :: _ => imm_text a rec | [] => [] end]).
Definition row_text (cells : list bytes) : bytes := [10; 32; 32; 32; 32; 91; 32] ++ seps [44; 32] cells ++ [32; 93].
Definition row (s : list hnode * list bytes) (rec : list entry) : list hnode * list bytes :=
  let (h, cells) := fold_left (cell rec) columns (fst s, []) in (h, snd s ++ [row_text cells]).
Definition rows (recs : list (list entry)) : list hnode * list bytes := fold_left row recs ([], []).
(* write_json and write_nodes, 51-61 and 123-136 *)
Definition node_text (n : hnode) : bytes :=
  bs "{ " ++ quoted (bs "label") ++ bs ": " ++ quoted (hn_label n) ++ bs ", " ++ quoted (bs "column") ++ bs ": " ++ quoted (hn_col n) ++
  (match hn_par n with Some p => bs ", " ++ quoted (bs "parent") ++ bs ": " ++ dec (N.of_nat p) | None => [] end) ++ bs " }".
Definition spaced (l : list bytes) : bytes := match l with [] => [] | _ => [32] ++ seps [44; 32] l end.
Definition nodes_text (h : list hnode) : bytes := quoted (bs "nodes") ++ bs ": [" ++ spaced (map node_text h) ++ bs " ]".
(* write_column_metadata, 305-330 *)
Definition meta_nodes (a : N) : list (N * value) := filter (fun x => negb ((fst x <? 12) || is_hidden d (fst x))) (match node_path d a with [] => [] | _ :: l => l end).
Definition meta_text (c : scol) : bytes :=
  quoted (bs "is_value") ++ bs ": " ++ (if sc_hier c then bs "false" else bs "true") ++
  (match sc_attrs c with [a] => flat_map (fun x => bs ", " ++ quoted (aname d (fst x)) ++ bs ": " ++ quoted (vtext (snd x))) (meta_nodes a) | _ => [] end).
Definition metas_text (cs : list scol) : bytes := match cs with [] => [] | _ => [32] ++ seps [44; 32] (map (fun c => bs "{ " ++ meta_text c ++ bs " }") cs) ++ [32] end.
(* write_metadata and write_globals, 283-303 and 332-366 *)
Definition globals_text (globals : list entry) : bytes :=
  flat_map (fun p => [44; 10; 32; 32] ++ quoted (aname d (fst p)) ++ bs ": " ++ quoted (snd p)) (global_vals vtext d globals).
Definition nlin (s : string) : bytes := [10] ++ bs s.
Definition split_output (globals : list entry) (recs : list (list entry)) : bytes :=
  let (h, rs) := rows recs in
  [123] ++ nlin "  " ++ quoted (bs "data") ++ bs ": [" ++ seps [44] rs ++ nlin "  ]" ++
  [44] ++ nlin "  " ++ quoted (bs "columns") ++ bs ": [" ++ spaced (map (fun c => quoted (sc_title c)) columns) ++ bs " ]" ++
  [44] ++ nlin "  " ++ quoted (bs "column_metadata") ++ bs ": [" ++ metas_text columns ++ bs " ]" ++
  [44] ++ nlin "  " ++ nodes_text h ++
  globals_text globals ++ [10; 125; 10].
End SPLIT.
