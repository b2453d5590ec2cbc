(* Model of src/reader/CaliWriter.cpp (stream level), src/reader/CaliperMetadataDB.cpp (metadata
   database) and src/reader/CaliReader.cpp (stream level).

   Nodes are TreeModel.tnode (id, attribute id, value, parent id; Some INV_ID / None = root).
   Simplifications: string contents are compared by value, so the string database
   (make_string_variant) is the identity on contents; memory allocation succeeds; one call is one
   atomic step (the members are guarded by mutexes; merge_node searches and creates under
   m_node_lock, lines 197-206). *)
From Verif Require Import Base VariantModel VariantSpec NamesModel TextModel TreeModel.

(* ---------------- writer: CaliWriter.cpp ---------------- *)
(* an Entry (Entry.h:30-90): reference entry (node id), immediate entry (attribute id, value) *)
Inductive entry := ERef (id : N) | EImm (attr : N) (v : value).
(* what is written, one item per line *)
Inductive wline := WNode (n : tnode) | WRec (globals : bool) (refs : list N) (imms : list (N * value)).
(* m_written_nodes and the output so far *)
Record writer := mkw { w_written : list N; w_out : list wline }.
Definition mem (x : N) (l : list N) : bool := existsb (N.eqb x) l.

(* recursive_write_node, CaliWriter.cpp:85-125.  db is CaliperMetadataAccessInterface::node.
   None: recursion deeper than fuel. *)
Fixpoint write_node (fuel : nat) (db : N -> option tnode) (id : N) (w : writer) : option writer :=
  match fuel with
  | O => None
  | S f =>
      if id <? 11 then Some w
      else if mem id (w_written w) then Some w
      else match db id with
           | None => Some w
           | Some n =>
               match write_node f db (n_attr n) w with
               | None => None
               | Some w1 =>
                   match (match n_par n with
                          | Some p => if p =? INV_ID then Some w1 else write_node f db p w1
                          | None => Some w1
                          end) with
                   | None => None
                   | Some w2 => Some (mkw (id :: w_written w2) (w_out w2 ++ [WNode n]))
                   end
               end
           end
  end.
Definition entry_node (e : entry) : N := match e with ERef i => i | EImm a _ => a end.
(* the loop of write_entrylist, lines 136-144 *)
Fixpoint write_entries (fuel : nat) (db : N -> option tnode) (rec : list entry) (w : writer) : option writer :=
  match rec with
  | [] => Some w
  | e :: r => match write_node fuel db (entry_node e) w with Some w1 => write_entries fuel db r w1 | None => None end
  end.
Definition refs_of (rec : list entry) : list N := flat_map (fun e => match e with ERef i => [i] | _ => [] end) rec.
Definition imms_of (rec : list entry) : list (N * value) := flat_map (fun e => match e with EImm a v => [(a, v)] | _ => [] end) rec.
(* write_entrylist, lines 127-158 *)
Definition write_rec (fuel : nat) (db : N -> option tnode) (globals : bool) (rec : list entry) (w : writer) : option writer :=
  match write_entries fuel db rec w with
  | Some w1 => Some (mkw (w_written w1) (w_out w1 ++ [WRec globals (refs_of rec) (imms_of rec)]))
  | None => None
  end.
(* bytes of a line without the newline *)
Definition render (dfmt : N -> bytes) (l : wline) : bytes :=
  match l with
  | WNode n => node_line (n_id n) (n_attr n) (write_value dfmt (n_val n)) (n_par n)
  | WRec g refs imms => record_line g refs (map fst imms) (map (fun x => write_value dfmt (snd x)) imms)
  end.
Definition render_stream (dfmt : N -> bytes) (ls : list wline) : bytes := flat_map (fun l => render dfmt l ++ [c_nl]) ls.

(* ---------------- metadata database: CaliperMetadataDB.cpp ---------------- *)
(* m_nodes (index = id), m_attributes *)
Record mdb := mkdb { d_nodes : list tnode; d_attrs : list (bytes * N) }.
Definition idmap := list (N * N).
(* setup_bootstrap_nodes, lines 71-105 *)
Definition boot_list : list tnode :=
  [ mkn 0 9 (VType T_USR) (Some ROOT); mkn 1 9 (VType T_INT) (Some ROOT); mkn 2 9 (VType T_UINT) (Some ROOT);
    mkn 3 9 (VType T_STRING) (Some ROOT); mkn 4 9 (VType T_ADDR) (Some ROOT); mkn 5 9 (VType T_DOUBLE) (Some ROOT);
    mkn 6 9 (VType T_BOOL) (Some ROOT); mkn 7 9 (VType T_TYPE) (Some ROOT);
    mkn 8 8 (VStr lit_attr_name) (Some 3); mkn 9 8 (VStr lit_attr_type) (Some 7); mkn 10 8 (VStr lit_attr_prop) (Some 1);
    mkn 11 9 (VType T_PTR) (Some ROOT) ].
(* node(id), lines 55-60 *)
Definition dnode (d : mdb) (id : N) : option tnode :=
  if id <? N.of_nat (length (d_nodes d)) then nth_error (d_nodes d) (N.to_nat id) else None.
(* attribute(id) is valid, lines 62-69 with Attribute::make_attribute (Attribute.cpp:14-17) *)
Definition is_attr (d : mdb) (id : N) : bool := match dnode d id with Some n => n_attr n =? 8 | None => false end.
(* map_id, lines 24-28; idmap.insert keeps an existing mapping *)
Fixpoint lookup_id (m : idmap) (id : N) : option N := match m with (k, v) :: r => if k =? id then Some v else lookup_id r id | [] => None end.
Definition map_id (m : idmap) (id : N) : N := match lookup_id m id with Some v => v | None => id end.
Definition insert_id (m : idmap) (k v : N) : idmap := match lookup_id m k with Some _ => m | None => (k, v) :: m end.
(* Node::find_child_node, Node.h:53-58; children are linked newest first *)
Definition dfind (d : mdb) (p a : N) (v : value) : option tnode := find (is_child p a v) (rev (d_nodes d)).
(* create_node, lines 107-119 *)
Definition dcreate (d : mdb) (p a : N) (v : value) : N * mdb :=
  let id := N.of_nat (length (d_nodes d)) in (id, mkdb (d_nodes d ++ [mkn id a v (Some p)]) (d_attrs d)).
Fixpoint alookup (l : list (bytes * N)) (s : bytes) : option N := match l with (k, v) :: r => if beqb k s then Some v else alookup r s | [] => None end.
Definition v_text (v : value) : bytes := match v with VStr s => s | _ => [] end.
(* merge_node(node_id, attr_id, prnt_id, v_data), lines 164-216; None = nullptr *)
Definition merge_core (d : mdb) (node_id attr_id prnt_id : N) (v : value) : option (N * mdb) :=
  let attr_id := if is_attr d attr_id then attr_id else INV_ID in
  if (node_id =? INV_ID) || (attr_id =? INV_ID) || (match v with VInv => true | _ => false end) then None
  else
    let par := if prnt_id =? INV_ID then Some ROOT
               else if N.of_nat (length (d_nodes d)) <=? prnt_id then None else Some prnt_id in
    match par with
    | None => None
    | Some p =>
        match dfind d p attr_id v with
        | Some n => Some (n_id n, d)
        | None =>
            let (i, d1) := dcreate d p attr_id v in
            Some (i, if attr_id =? 8 then mkdb (d_nodes d1) (match alookup (d_attrs d1) (v_text v) with Some _ => d_attrs d1 | None => (v_text v, i) :: d_attrs d1 end) else d1)
        end
    end.
(* merge_node with idmap, lines 220-231; None = null pointer dereference in line 227 *)
Definition merge_node (d : mdb) (m : idmap) (node_id attr_id prnt_id : N) (v : value) : option (N * mdb * idmap) :=
  match merge_core d node_id (map_id m attr_id) (map_id m prnt_id) v with
  | None => None
  | Some (i, d1) => Some (i, d1, if node_id =? i then m else insert_id m node_id i)
  end.
(* walking up the tree: Attribute::type / properties, Attribute.cpp:40-56; fuel: number of nodes *)
Fixpoint climb (fuel : nat) (lk : N -> option tnode) (id a : N) : option value :=
  match fuel with
  | O => None
  | S f => match lk id with
           | None => None
           | Some n => if n_attr n =? a then Some (n_val n)
                       else match n_par n with Some p => climb f lk p a | None => None end
           end
  end.
Definition attr_type (d : mdb) (id : N) : N :=
  match climb (length (d_nodes d)) (dnode d) id 9 with Some (VType t) => t | _ => T_INV end.
(* static_cast<int>(v_int); the property node holds an INT *)
Definition attr_props (d : mdb) (id : N) : Z :=
  match climb (length (d_nodes d)) (dnode d) id 10 with Some (VInt z) => z | _ => 0%Z end.
Definition HIDDEN : Z := 128.
Definition is_hidden (d : mdb) (id : N) : bool := negb (Z.land (attr_props d id) HIDDEN =? 0)%Z.

Section Doubles.
Variable dparse : bytes -> option N.
(* CaliperMetadataDB::merge_node(..., const std::string& data, idmap), lines 521-538 *)
Definition merge_node_str (d : mdb) (m : idmap) (node_id attr_id prnt_id : N) (data : bytes) : option (N * mdb * idmap) :=
  let a := map_id m attr_id in
  let v := if is_attr d a && is_hidden d a then VUsr []
           else make_variant dparse (if is_attr d a then attr_type d a else T_INV) data in
  merge_node d m node_id attr_id prnt_id v.
(* merge_entry, lines 557-567; None: empty entry *)
Definition node_entry (d : mdb) (id : N) : option entry :=
  match dnode d id with Some n => Some (if n_attr n =? 8 then EImm id (n_val n) else ERef id) | None => None end.
Definition merge_entry_ref (d : mdb) (m : idmap) (id : N) : option entry := node_entry d (map_id m id).
Definition merge_entry_imm (d : mdb) (m : idmap) (attr : N) (data : bytes) : option entry :=
  let a := map_id m attr in
  if is_attr d a then Some (EImm a (make_variant dparse (attr_type d a) data)) else None.

(* ---------------- reader: CaliReader.cpp ---------------- *)
Record rstate := mkrs { r_db : mdb; r_map : idmap; r_recs : list (list (option entry)); r_err : bool }.
(* read_node (lines 143-178), read_snapshot (180-213); read_globals (215-240) is modelled only up
   to its error flag: it does not touch nodes that exist, see merge_global.  None: crash *)
Definition read_line (s : rstate) (line : bytes) : option rstate :=
  match parse_line line with
  | PError => Some (mkrs (r_db s) (r_map s) (r_recs s) true)
  | PGlobals f => Some (mkrs (r_db s) (r_map s) (r_recs s) (r_err s || negb (length (f_attrs f) =? length (f_datas f))%nat))
  | PNode f =>
      if (f_id f =? INV_ID) || (f_attr f =? INV_ID) then Some (mkrs (r_db s) (r_map s) (r_recs s) true)
      else match merge_node_str (r_db s) (r_map s) (f_id f) (f_attr f) (f_par f) (f_data f) with
           | None => None
           | Some (_, d, m) => Some (mkrs d m (r_recs s) (r_err s))
           end
  | PCtx f =>
      let rec := map (merge_entry_ref (r_db s) (r_map s)) (f_refs f) ++
                 map (fun x => merge_entry_imm (r_db s) (r_map s) (fst x) (snd x)) (combine (f_attrs f) (f_datas f)) in
      Some (mkrs (r_db s) (r_map s) (r_recs s ++ [rec]) (r_err s || negb (length (f_attrs f) =? length (f_datas f))%nat))
  end.
Fixpoint read_lines (s : rstate) (ls : list bytes) : option rstate :=
  match ls with [] => Some s | l :: r => match read_line s l with Some s1 => read_lines s1 r | None => None end end.
(* CaliReader::read, lines 262-273: a fresh id map per stream *)
Definition read_stream (d : mdb) (text : bytes) : option rstate :=
  read_lines (mkrs d [] [] false) (split_lines text []).
End Doubles.

(* recursive_merge_node, lines 252-271: import from another database (e.g. the runtime's tree).
   Outer None: crash (null attribute node); inner None: nullptr *)
Fixpoint import_node (fuel : nat) (src : N -> option tnode) (d : mdb) (id : N) : option (option N * mdb) :=
  match fuel with
  | O => None
  | S f =>
      if id =? INV_ID then Some (None, d)
      else match src id with
           | None => Some (None, d)
           | Some n =>
               if id <? 12 then Some (Some id, d)
               else match import_node f src d (n_attr n) with
                    | Some (Some a, d1) =>
                        match import_node f src d1 (match n_par n with Some p => p | None => INV_ID end) with
                        | Some (p, d2) =>
                            match merge_core d2 id a (match p with Some q => q | None => INV_ID end) (n_val n) with
                            | Some (i, d3) => Some (Some i, d3)
                            | None => Some (None, d2)
                            end
                        | None => None
                        end
                    | _ => None
                    end
           end
  end.

(* make_tree_entry (attribute/value list), lines 322-350: entries with store_as_value skipped by
   the caller of this model *)
Fixpoint make_tree_entry (d : mdb) (l : list (N * value)) (p : N) : N * mdb :=
  match l with
  | [] => (p, d)
  | (a, v) :: r =>
      match dfind d p a v with
      | Some n => make_tree_entry d r (n_id n)
      | None => let (i, d1) := dcreate d p a v in make_tree_entry d1 r i
      end
  end.
(* create_attribute, lines 376-425, without unit/alias metadata: property node and name node below
   the type node *)
Definition create_attribute (d : mdb) (name : bytes) (ty : N) (prop : Z) : N * mdb :=
  match alookup (d_attrs d) name with
  | Some i => (i, d)
  | None =>
      let (i, d1) := make_tree_entry d [(10, VInt prop); (8, VStr name)] (match type_node ty with Some t => t | None => ROOT end) in
      (i, mkdb (d_nodes d1) ((name, i) :: d_attrs d1))
  end.
(* CaliperMetadataDBImpl(), lines 489-498 *)
Definition lit_alias : bytes := [97;116;116;114;105;98;117;116;101;46;97;108;105;97;115].
Definition lit_unit : bytes := [97;116;116;114;105;98;117;116;101;46;117;110;105;116].
Definition db_init : mdb :=
  let d0 := mkdb boot_list [(lit_attr_name, 8)] in
  let (_, d1) := create_attribute d0 lit_alias T_STRING 64 in
  snd (create_attribute d1 lit_unit T_STRING 64).
