(* Model of Caliper::get_globals, src/caliper/Caliper.cpp:104-133 and 803-826 *)
From Verif Require Import Base VariantModel VariantSpec TreeModel RuntimeModel ChnModel.

(* Entry::is_reference, Entry.h:79-82: the entry points to a node that is not an attribute node *)
Definition is_ref (tr : tree) (e : N * value) : bool :=
  match node_at tr (fst e) with Some n => negb (n_attr n =? NAME_ATTR_ID) | None => false end.
(* get_globals_from_blackboard, Caliper.cpp:104-133.  glob: get_attribute(id).is_global() for an
   attribute id (the parser of attribute nodes is not modelled here).  The snapshot record holds
   SNAP_MAX entries.  None: the context tree is full. *)
Definition globals_bb (tr : tree) (t : N) (glob : N -> bool) (m : bb) : option (list (N * value) * tree) :=
  let es := firstn SNAP_MAX (bb_visible m) in
  let ret := filter (fun e => negb (is_ref tr e) && glob (fst e)) es in
  let nodes := flat_map (fun e => if is_ref tr e then filter (fun n => glob (n_attr n)) (chain (t_nodes tr) (Some (fst e))) else []) es in
  match rev nodes with
  | [] => Some (ret, tr)
  | l => match get_path_nodes tr t (map Some l) None with
         | Some (Some i, tr') => match mk_ref tr' i with Some e => Some (ret ++ [e], tr') | None => None end
         | _ => None
         end
  end.
(* Caliper::get_globals(), Caliper.cpp:803-810 *)
Definition get_globals (s : kst) (t : N) (glob : N -> bool) : option (list (N * value) * tree) :=
  globals_bb (r_tree (k_rt s)) t glob (r_pbb (k_rt s)).
(* Caliper::get_globals(ChannelBody ptr), Caliper.cpp:812-826 *)
Definition get_globals_chn (s : kst) (t c : N) (glob : N -> bool) : option (list (N * value) * tree) :=
  match k_body s c with
  | None => None
  | Some b => match globals_bb (r_tree (k_rt s)) t glob (r_pbb (k_rt s)) with
              | None => None
              | Some (l, tr) => match globals_bb tr t glob (b_bb b) with
                                | None => None
                                | Some (l2, tr2) => Some (l ++ l2, tr2)
                                end
              end
  end.
