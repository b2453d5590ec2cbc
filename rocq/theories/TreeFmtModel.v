(* Model of the tree formatter: src/reader/SnapshotTree.cpp and src/reader/TreeFormatter.cpp. *)
From Verif Require Import Base VariantModel VariantSpec NamesModel TextModel TreeModel CaliFileModel AggModel FilterModel FmtModel.

(* SnapshotTreeNode, SnapshotTree.h:58-118: label, the records' other attributes, children in the
   order first_child, next_sibling, ... *)
Definition label := (N * value)%type.
Definition trec := list (N * value).
Inductive snode := SNode (lab : label) (recs : list trec) (kids : list snode).
Definition sn_lab (n : snode) : label := let (l, _, _) := n in l.
Definition sn_recs (n : snode) : list trec := let (_, r, _) := n in r.
Definition sn_kids (n : snode) : list snode := let (_, _, k) := n in k.
(* label_equals, SnapshotTree.h:101-104 *)
Definition lab_eqb (a b : label) : bool := (fst a =? fst b) && (if value_eq_dec (snd a) (snd b) then true else false).

Section TREE.
Variable vtext : value -> bytes.   (* Variant::to_string *)
Variable d : mdb.                  (* the metadata does not change while records are formatted *)

(* add_snapshot, SnapshotTree.cpp:92-168: unpacking, 131-137, and push_entry, 107-125 *)
Definition items (rec : list entry) : list (N * value) :=
  filter (fun x => is_attr d (fst x)) (flat_map (fun e => match e with EImm a v => [(a, v)] | ERef i => node_path d i end) rec).
Fixpoint add_first (data : trec) (l : list (N * value)) : trec :=
  match l with
  | [] => data
  | x :: r => add_first (if existsb (fun y => fst y =? fst x) data then data else data ++ [x]) r
  end.
Section PATH.
Variable is_path : N -> bool.
Definition rec_path (rec : list entry) : list label := rev (filter (fun x => is_path (fst x)) (items rec)).
Definition rec_data (rec : list entry) : trec := add_first [] (filter (fun x => negb (is_path (fst x))) (items rec)).
(* the search among the children, 150-160; LockfreeIntrusiveTree::append puts a new child in front *)
Fixpoint tadd (path : list label) (r : trec) (forest : list snode) : list snode :=
  match path with
  | [] => forest
  | x :: p =>
    let upd := fun n => match p with
                        | [] => SNode (sn_lab n) (sn_recs n ++ [r]) (sn_kids n)
                        | _ => SNode (sn_lab n) (sn_recs n) (tadd p r (sn_kids n))
                        end in
    let fix go (l : list snode) : option (list snode) :=
      match l with
      | [] => None
      | n :: t => if lab_eqb (sn_lab n) x then Some (upd n :: t) else match go t with Some t' => Some (n :: t') | None => None end
      end in
    match go forest with Some f => f | None => upd (SNode x [] []) :: forest end
  end.
Definition tadd_rec (forest : list snode) (rec : list entry) : list snode := tadd (rec_path rec) (rec_data rec) forest.
End PATH.

(* ---------------- TreeFormatter ---------------- *)
(* path-attributes: None stands for all nested attributes; SELECT; ORDER BY; aliases; column-width *)
Inductive tsel := LDefault | LAll | LList (l : list bytes) | LNone.
Record trspec := mktr { tr_paths : option (list bytes); tr_sel : tsel; tr_sort : list (bytes * sord); tr_alias : list (bytes * bytes); tr_max : Z }.
Variable q : trspec.
(* TreeFormatterImpl::add, TreeFormatter.cpp:137-153 *)
Definition is_path_attr (a : N) : bool :=
  match tr_paths q with
  | None => is_nested d a
  | Some l => existsb (fun s => match get_attr d s with Some k => k =? a | None => false end) l
  end.
(* m_column_info, updated at 158-183: sorted by attribute id *)
Definition cinfo := list (N * (bytes * nat)).
Definition tdisplay (a : N) : bytes :=
  match lookup_alias (tr_alias q) (attr_name d a) with
  | Some x => x
  | None => match meta_alias vtext d a with Some x => x | None => attr_name d a end
  end.
Fixpoint ci_upd (m : cinfo) (x : N * value) : cinfo :=
  let len := length (vtext (snd x)) in
  match m with
  | [] => [(fst x, (tdisplay (fst x), Nat.max len (length (tdisplay (fst x)))))]
  | (a, (nm, w)) :: r =>
    if fst x =? a then (a, (nm, Nat.max w len)) :: r
    else if fst x <? a then (fst x, (tdisplay (fst x), Nat.max len (length (tdisplay (fst x))))) :: m
    else (a, (nm, w)) :: ci_upd r x
  end.
Record trstate := mktrs { ts_forest : list snode; ts_info : cinfo }.
Definition tr_init : trstate := mktrs [] [].
Definition is_nilp (p : list label) : bool := match p with [] => true | _ => false end.
(* find the node just extended: the loop at 158 goes over all of its records *)
Fixpoint node_at (path : list label) (forest : list snode) : option snode :=
  match path with
  | [] => None
  | x :: p => match find (fun n => lab_eqb (sn_lab n) x) forest with
              | Some n => match p with [] => Some n | _ => node_at p (sn_kids n) end
              | None => None
              end
  end.
Definition tr_process (s : trstate) (rec : list entry) : trstate :=
  let p := rec_path is_path_attr rec in
  if is_nilp p then s
  else let f := tadd p (rec_data is_path_attr rec) (ts_forest s) in
       mktrs f (match node_at p f with Some n => fold_left ci_upd (concat (sn_recs n)) (ts_info s) | None => ts_info s end).

(* ---------------- sorting ---------------- *)
Definition rfind (a : N) (r : trec) : option value := option_map snd (find (fun x => fst x =? a) r).
Definition vmax (a b : value) : value := if vltb a b then b else a.   (* std::max *)
Definition vmin (a b : value) : value := if vltb b a then b else a.   (* std::min *)
Definition comb (f : value -> value -> value) (v x : value) : value := if nonempty v then f v x else x.
Definition recs_val (f : value -> value -> value) (a : N) (rs : list trec) : value :=
  fold_left (fun v r => match rfind a r with Some x => comb f v x | None => v end) rs VInv.
(* max_val, SnapshotTree.cpp:43-66, min_val, 18-41 *)
Fixpoint node_val (f : value -> value -> value) (a : N) (n : snode) : value :=
  match n with SNode _ rs ks => fold_left (fun v k => comb f v (node_val f a k)) ks (recs_val f a rs) end.
Definition max_val := node_val vmax.
Definition min_val := node_val vmin.
(* SnapshotTreeNode::sort, 68-85 *)
Definition rec_lt (a : N) (asc : bool) (l r : trec) : bool :=
  match rfind a r with
  | None => true
  | Some y => match rfind a l with None => false | Some x => if asc then vltb x y else vgtb x y end
  end.
Definition is_asc (o : sord) : bool := match o with SAsc => true | _ => false end.
Definition sort_node (a : N) (asc : bool) (n : snode) : snode := SNode (sn_lab n) (ssort (rec_lt a asc) (sn_recs n)) (sn_kids n).
(* init_sort_info, 186-195 *)
Definition sort_info : list (N * sord) := flat_map (fun s => match get_attr d (fst s) with Some a => [(a, snd s)] | None => [] end) (tr_sort q).
(* get_sorted_child_nodes, 197-225 *)
Definition node_lt (a : N) (o : sord) (l r : snode) : bool :=
  match o with SDesc => vgtb (max_val a l) (max_val a r) | _ => vltb (min_val a l) (min_val a r) end.
Definition sorted_nodes (si : list (N * sord)) (l : list snode) : list snode :=
  fold_left (fun ns s => let ns := map (sort_node (fst s) (is_asc (snd s))) ns in match snd s with SNone => ns | o => ssort (node_lt (fst s) o) ns end) si l.

(* ---------------- output ---------------- *)
Definition tcolumn_width (base : nat) : nat :=
  Z.to_nat (Z.max (if (0 <? tr_max q)%Z then Z.min (Z.of_nat base) (tr_max q) else Z.of_nat base) 4).
Fixpoint ci_find (m : cinfo) (a : N) : bytes * nat := match m with (k, v) :: r => if k =? a then v else ci_find r a | [] => ([], 0%nat) end.
(* the column attributes, flush 318-345 *)
Definition col_attrs (info : cinfo) : list N :=
  match tr_sel q with
  | LDefault => filter (fun a => negb (is_hidden d a || is_global d a)) (map fst info)
  | LAll => map fst info
  | LList l => flat_map (fun s => match get_attr d s with Some a => [a] | None => [] end) l
  | LNone => []
  end.
(* recursive_max_path_label_width, 306-315, and 351-361 *)
Fixpoint label_width (level : nat) (n : snode) : nat :=
  match n with SNode l _ ks => fold_left (fun w k => Nat.max w (label_width (S level) k)) ks (2 * level + length (vtext (snd l)))%nat end.
Definition path_width (forest : list snode) : nat := fold_left (fun w k => Nat.max w (label_width 0 k)) forest 4%nat.
(* recursive_print_nodes, 227-304.  pw: the path column's width *)
Definition indent (pw level : nat) (text : bytes) : bytes :=
  repeat sp (Nat.min (2 * level) (pw - 2)) ++ (if (pw <=? 2 * level)%nat then [46; 46] else text).
Definition label_field (pw level : nat) (l : label) : bytes := pad_right (indent pw level (clamp (vtext (snd l)) (pw - 2 * level))) pw.
Definition cont_field (pw level : nat) : bytes := pad_right (indent pw level [32; 124; 45]) pw.
Definition tright (t : N) : bool := (t =? T_INT) || (t =? T_UINT) || (t =? T_DOUBLE) || (t =? T_ADDR).
Definition tfield (info : cinfo) (r : trec) (a : N) : bytes :=
  let w := tcolumn_width (snd (ci_find info a)) in
  let str := match rfind a r with Some v => clamp (vtext v) w | None => [] end in
  if tright (attr_type d a) then pad_left str w else pad_right str w.
Definition tfields (info : cinfo) (attrs : list N) (r : trec) : bytes := flat_map (tfield info r) attrs.
Definition node_lines (info : cinfo) (attrs : list N) (pw level : nat) (n : snode) : list bytes :=
  match sn_recs n with
  | [] => [label_field pw level (sn_lab n)]
  | [r] => [label_field pw level (sn_lab n) ++ tfields info attrs r]
  | rs => label_field pw level (sn_lab n) :: map (fun r => cont_field pw level ++ tfields info attrs r) rs
  end.
(* the whole tree in the order printed: level and node.  fuel bounds the depth *)
Fixpoint print_order (fuel level : nat) (si : list (N * sord)) (l : list snode) : list (nat * snode) :=
  match fuel with
  | O => []
  | S f => flat_map (fun n => (level, n) :: print_order f (S level) si (sn_kids n)) (sorted_nodes si l)
  end.
Fixpoint depth (n : snode) : nat := match n with SNode _ _ ks => S (fold_left (fun m k => Nat.max m (depth k)) ks 0%nat) end.
Definition forest_depth (l : list snode) : nat := fold_left (fun m k => Nat.max m (depth k)) l 0%nat.
Definition tr_header (info : cinfo) (attrs : list N) (pw : nat) : bytes :=
  pad_right (clamp [80; 97; 116; 104] pw) pw ++ flat_map (fun a => let w := tcolumn_width (snd (ci_find info a)) in pad_right (clamp (fst (ci_find info a)) w) w) attrs.
(* flush, 317-381: one list element per line *)
Definition tr_flush (s : trstate) : list bytes :=
  let attrs := col_attrs (ts_info s) in
  let pw := tcolumn_width (path_width (ts_forest s)) in
  tr_header (ts_info s) attrs pw :: flat_map (fun x => node_lines (ts_info s) attrs pw (fst x) (snd x)) (print_order (forest_depth (ts_forest s)) 0 sort_info (ts_forest s)).
End TREE.
