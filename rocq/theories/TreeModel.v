(* Model of src/caliper/MetadataTree.{h,cpp} (the context tree) and of the tree part of
   include/caliper/common/{Node.h,lockfree-tree.hpp}.

   Simplifications: a node pointer is the node's id (the id is computed from the slot the
   node is placed in, MetadataTree.cpp:176-177); values are compared and copied by content
   (see C08 for the comparison); memory pool allocations succeed (CALI_MEMORY_CAN_EXPAND
   defaults to true); one public operation is one atomic step, where the interleaving of
   the child search and the node creation of two threads is represented by TRawCreate
   (creation after a search that missed). *)
From Verif Require Import Base VariantModel VariantSpec.

Lemma value_eq_dec (a b : value) : {a = b} + {a <> b}.
Proof. decide equality; try apply N.eq_dec; try apply Z.eq_dec; try apply bool_dec; apply (list_eq_dec N.eq_dec). Defined.
(* Variant::operator== (cali_variant_eq); C08_eq_is_value_equality *)
Definition veqb (a b : value) : bool := if value_eq_dec a b then true else false.

(* Node, Node.h:23-59 with the parent link of lockfree-tree.hpp:54-60 *)
Record tnode := mkn { n_id : N; n_attr : N; n_val : value; n_par : option N }.

(* MetadataTree::GlobalData and the per-thread part, MetadataTree.h:25-58.
   t_fill b = Some i: block b has a chunk of t_npb slots, i = NodeBlock::index;
   t_cur t: thread t's m_nodeblock; t_nodes: all nodes, newest first, root last. *)
Record tree := mktree { t_npb : N; t_nblk : N; t_next : N; t_fill : N -> option N;
                        t_cur : N -> option N; t_nodes : list tnode }.

Definition upd {A} (f : N -> A) (k : N) (x : A) : N -> A := fun j => if j =? k then x else f j.

Definition ROOT : N := INV_ID.
(* root(CALI_INV_ID, CALI_INV_ID, Variant()), MetadataTree.cpp:23 *)
Definition root_node : tnode := mkn ROOT INV_ID VInv None.

(* the characters of a literal *)
Definition lit_attr_name : bytes := [99;97;108;105;46;97;116;116;114;105;98;117;116;101;46;110;97;109;101].
Definition lit_attr_type : bytes := [99;97;108;105;46;97;116;116;114;105;98;117;116;101;46;116;121;112;101].
Definition lit_attr_prop : bytes := [99;97;108;105;46;97;116;116;114;105;98;117;116;101;46;112;114;111;112].

(* bootstrap nodes, MetadataTree.cpp:37-60 *)
Definition boot_nodes : list tnode :=
  [ mkn 10 8 (VStr lit_attr_prop) (Some 1); mkn 9 8 (VStr lit_attr_type) (Some 7);
    mkn 8 8 (VStr lit_attr_name) (Some 3);
    mkn 11 9 (VType T_PTR) (Some ROOT); mkn 7 9 (VType T_TYPE) (Some ROOT);
    mkn 6 9 (VType T_BOOL) (Some ROOT); mkn 5 9 (VType T_DOUBLE) (Some ROOT);
    mkn 4 9 (VType T_ADDR) (Some ROOT); mkn 3 9 (VType T_STRING) (Some ROOT);
    mkn 2 9 (VType T_UINT) (Some ROOT); mkn 1 9 (VType T_INT) (Some ROOT);
    mkn 0 9 (VType T_USR) (Some ROOT); root_node ].

(* MetadataTree::type_node, MetadataTree.h:113 and MetadataTree.cpp:49-53 *)
Definition type_node (ty : N) : option N :=
  if ty =? T_USR then Some 0 else if ty =? T_INT then Some 1 else if ty =? T_UINT then Some 2
  else if ty =? T_STRING then Some 3 else if ty =? T_ADDR then Some 4 else if ty =? T_DOUBLE then Some 5
  else if ty =? T_BOOL then Some 6 else if ty =? T_TYPE then Some 7 else if ty =? T_PTR then Some 11 else None.

(* GlobalData::GlobalData and MetadataTree::MetadataTree, MetadataTree.cpp:21-88, run by
   thread t0.  None: out-of-bounds write (fewer than 12 slots, or no block). *)
Definition tree_init (cfg_npb cfg_nblk t0 : N) : option tree :=
  let npb := N.min cfg_npb 256 in
  if (npb <? 12) || (cfg_nblk =? 0) then None
  else Some (mktree npb cfg_nblk 1 (upd (fun _ => None) 0 (Some 12)) (upd (fun _ => None) t0 (Some 0)) boot_nodes).

(* have_free_nodeblock, MetadataTree.cpp:96-125 *)
Definition have_free (s : tree) (t n : N) : bool * tree :=
  let need := match t_cur s t with
              | None => true
              | Some b => match t_fill s b with Some i => t_npb s <=? i + n | None => true end
              end in
  if need then
    if t_nblk s <=? t_next s then (false, s)
    else (true, mktree (t_npb s) (t_nblk s) (t_next s + 1) (upd (t_fill s) (t_next s) (Some 0))
                       (upd (t_cur s) t (Some (t_next s))) (t_nodes s))
  else (true, s).

(* "index = m_nodeblock->index++; new (chunk + index) Node(...); parent->append(node)",
   MetadataTree.cpp:174-182, 202-209, 261-266.  None: write outside of the chunk. *)
Definition place (s : tree) (t a : N) (v : value) (p : N) : option (N * tree) :=
  match t_cur s t with
  | None => None
  | Some b =>
      match t_fill s b with
      | None => None
      | Some i =>
          if i <? t_npb s then
            let id := b * t_npb s + i in
            Some (id, mktree (t_npb s) (t_nblk s) (t_next s) (upd (t_fill s) b (Some (i + 1))) (t_cur s)
                             (mkn id a v (Some p) :: t_nodes s))
          else None
      end
  end.

(* Result of an operation: None = undefined behaviour; Some (None, s) = nullptr. *)
Definition tres := option (option N * tree).

(* create_child, MetadataTree.cpp:190-214 *)
Definition create_child (s : tree) (t a : N) (v : value) (p : N) : tres :=
  let (ok, s1) := have_free s t 1 in
  if ok then match place s1 t a v p with Some (i, s2) => Some (Some i, s2) | None => None end
  else Some (None, s1).

(* create_path, MetadataTree.cpp:131-188 *)
Fixpoint place_list (s : tree) (t a : N) (vs : list value) (p : N) : option (N * tree) :=
  match vs with
  | [] => Some (p, s)
  | v :: r => match place s t a v p with Some (i, s1) => place_list s1 t a r i | None => None end
  end.
Definition create_path (s : tree) (t a : N) (vs : list value) (p : N) : tres :=
  let (ok, s1) := have_free s t (N.of_nat (length vs)) in
  if ok then match place_list s1 t a vs p with Some (i, s2) => Some (Some i, s2) | None => None end
  else Some (None, s1).

(* Node::find_child_node / the loop in get_child: first match in the child list, newest
   child first (append() pushes at the head), Node.h:53-58, MetadataTree.cpp:330-332 *)
Definition is_child (p a : N) (v : value) (n : tnode) : bool :=
  match n_par n with Some q => (q =? p) && veqb (n_val n) v && (n_attr n =? a) | None => false end.
Definition find_child (s : tree) (p a : N) (v : value) : option tnode := find (is_child p a v) (t_nodes s).

Definition or_root (p : option N) : N := match p with Some q => q | None => ROOT end.

(* get_child, MetadataTree.cpp:323-335 *)
Definition get_child (s : tree) (t a : N) (v : value) (p : option N) : tres :=
  match find_child s (or_root p) a v with
  | Some n => Some (Some (n_id n), s)
  | None => create_child s t a v (or_root p)
  end.

(* get_or_copy_node, MetadataTree.cpp:248-272 *)
Definition get_or_copy_node (s : tree) (t : N) (from : tnode) (p : option N) : tres :=
  match find_child s (or_root p) (n_attr from) (n_val from) with
  | Some n => Some (Some (n_id n), s)
  | None =>
      let (ok, s1) := have_free s t 1 in
      if ok then match place s1 t (n_attr from) (n_val from) (or_root p) with
                 | Some (i, s2) => Some (Some i, s2) | None => None end
      else Some (None, s1)
  end.

(* get_path(attr, n, data, parent), MetadataTree.cpp:216-235 *)
Fixpoint descend (s : tree) (p a : N) (vs : list value) : N * list value :=
  match vs with
  | [] => (p, [])
  | v :: r => match find_child s p a v with Some n => descend s (n_id n) a r | None => (p, vs) end
  end.
Definition get_path (s : tree) (t a : N) (vs : list value) (p : option N) : tres :=
  let (q, rest) := descend s (or_root p) a vs in
  match rest with [] => Some (Some q, s) | _ => create_path s t a rest q end.

(* get_path(n, nodelist, parent), MetadataTree.cpp:237-246 *)
Fixpoint get_path_nodes (s : tree) (t : N) (l : list (option tnode)) (p : option N) : tres :=
  match l with
  | [] => Some (p, s)
  | None :: r => get_path_nodes s t r p
  | Some n :: r => match get_or_copy_node s t n p with
                   | Some (q, s1) => get_path_nodes s1 t r q
                   | None => None
                   end
  end.

(* The nodes from p up to the root along parent(), lockfree-tree.hpp:81.  Parents are
   created before their children, so one pass over the store from newest to oldest follows
   the links (TreeProofs.chain_step). *)
Fixpoint chain (ns : list tnode) (p : option N) : list tnode :=
  match ns, p with
  | _, None => []
  | [], _ => []
  | n :: r, Some i => if n_id n =? i then n :: chain r (n_par n) else chain r p
  end.

(* copy_path_without_attribute, MetadataTree.cpp:274-287; ch: node and its ancestors *)
Fixpoint copy_wo (s : tree) (t a : N) (ch : list tnode) (stop : N) : tres :=
  match ch with
  | [] => Some (Some stop, s)
  | n :: up =>
      if n_id n =? stop then Some (Some stop, s)
      else match copy_wo s t a up stop with
           | None => None
           | Some (tmp, s1) => if n_attr n =? a then Some (tmp, s1) else get_or_copy_node s1 t n tmp
           end
  end.
Definition copy_path_without_attribute (s : tree) (t a : N) (node parent : option N) : tres :=
  copy_wo s t a (chain (t_nodes s) node) (or_root parent).

(* remove_first_in_path, MetadataTree.cpp:289-300 *)
Definition remove_first_in_path (s : tree) (t : N) (path : option N) (a : N) : tres :=
  let stop := match find (fun n => n_attr n =? a) (chain (t_nodes s) path) with
              | Some n => n_par n | None => None end in
  copy_path_without_attribute s t a path stop.

(* replace_first_in_path, MetadataTree.cpp:302-308 *)
Definition replace_first_in_path (s : tree) (t : N) (path : option N) (a : N) (v : value) : tres :=
  match path with
  | Some _ => match remove_first_in_path s t path a with
              | Some (q, s1) => get_child s1 t a v q
              | None => None
              end
  | None => get_child s t a v None
  end.

(* replace_all_in_path, MetadataTree.cpp:310-321 *)
Definition replace_all_in_path (s : tree) (t : N) (path : option N) (a : N) (vs : list value) : tres :=
  let ch := chain (t_nodes s) path in
  let top := match find (fun n => n_attr n =? a) (rev ch) with
             | Some n => Some n | None => hd_error ch end in
  let parent := match top with Some n => n_par n | None => Some ROOT end in
  match copy_path_without_attribute s t a path parent with
  | Some (q, s1) => get_path s1 t a vs q
  | None => None
  end.

(* MetadataTree::node(id), MetadataTree.h:98-109.  Outer None: read of an uninitialised
   NodeBlock (the array is allocated without initialisation, MetadataTree.cpp:31). *)
Definition node_lookup (s : tree) (id : N) : option (option tnode) :=
  let b := id / t_npb s in
  let i := id mod t_npb s in
  if t_nblk s <=? b then Some None
  else match t_fill s b with
       | None => None
       | Some f => if f <=? i then Some None else Some (find (fun n => n_id n =? b * t_npb s + i) (t_nodes s))
       end.

(* Operations of a history *)
Inductive top :=
| TGetChild (a : N) (v : value) (p : option N)
| TGetPath (a : N) (vs : list value) (p : option N)
| TGetPathNodes (l : list (option N)) (p : option N)
| TRemoveFirst (path : option N) (a : N)
| TReplaceFirst (path : option N) (a : N) (v : value)
| TReplaceAll (path : option N) (a : N) (vs : list value)
| TRawCreate (a : N) (v : value) (p : N)    (* get_child whose search ran before another thread's append *)
| TLostBlock.    (* next_block++ by a thread that passed the check at line 101 but lost the race, lines 111-114 *)

Definition node_at (s : tree) (i : N) : option tnode := find (fun n => n_id n =? i) (t_nodes s).

Definition tstep (s : tree) (t : N) (o : top) : tres :=
  match o with
  | TGetChild a v p => get_child s t a v p
  | TGetPath a vs p => get_path s t a vs p
  | TGetPathNodes l p =>
      get_path_nodes s t (map (fun x => match x with Some i => node_at s i | None => None end) l) p
  | TRemoveFirst path a => remove_first_in_path s t path a
  | TReplaceFirst path a v => replace_first_in_path s t path a v
  | TReplaceAll path a vs => replace_all_in_path s t path a vs
  | TRawCreate a v p => create_child s t a v p
  | TLostBlock =>
      if t_nblk s <=? t_next s
      then Some (None, mktree (t_npb s) (t_nblk s) (t_next s + 1) (t_fill s) (t_cur s) (t_nodes s))
      else Some (None, s)
  end.
