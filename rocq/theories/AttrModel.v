(* Model of Caliper::create_attribute and get_attribute, src/caliper/Caliper.cpp:668-757, and
   of the Attribute accessors, src/common/Attribute.cpp:14-62, as a transition system of any
   number of threads.  One step is one critical section of attribute_lock or one request to
   the context tree (TreeModel).
   Simplifications: the create_attr callbacks are a log entry per created attribute;
   attribute_map is an association list (first entry of a name counts). *)
From Verif Require Import Base VariantModel VariantSpec TreeModel.

Definition P_SCOPE_MASK : N := 60.
Definition P_SCOPE_PROCESS : N := 12.
Definition P_SCOPE_THREAD : N := 20.
Definition P_GLOBAL : N := 512.
Definition P_UNALIGNED : N := 1024.
Definition P_AGGREGATABLE : N := 2048.
Definition NAME_ATTR_ID : N := 8.
Definition TYPE_ATTR_ID : N := 9.
Definition PROP_ATTR_ID : N := 10.

(* attribute_prop_presets and attribute_default_scope (Caliper.cpp:310-311, 357-388), and
   cali_class_aggregatable_attr_id *)
Record acfg := mkacfg { ac_presets : list (bytes * N); ac_scope : N; ac_agg : N }.

Fixpoint blookup {A} (k : bytes) (m : list (bytes * A)) : option A :=
  match m with [] => None | (k', x) :: r => if list_eq_dec N.eq_dec k k' then Some x else blookup k r end.

(* Caliper.cpp:714-719: the metadata contains class.aggregatable=true *)
Definition agg_meta (cf : acfg) (s : tree) (cur : option N) : bool :=
  existsb (fun n => (n_attr n =? ac_agg cf) && veqb (n_val n) (VBool true)) (chain (t_nodes s) cur).
(* Caliper.cpp:699-719; int prop as N *)
Definition final_prop (cf : acfg) (name : bytes) (prop : N) (agg : bool) : N :=
  let p0 := match blookup name (ac_presets cf) with Some p => p | None => prop end in
  let p1 := if N.land p0 P_GLOBAL =? 0 then p0
            else N.lor (N.lor (N.ldiff p0 P_SCOPE_MASK) P_SCOPE_PROCESS) P_UNALIGNED in
  let p2 := if N.land p1 P_SCOPE_MASK =? 0 then N.lor p1 (ac_scope cf) else p1 in
  if agg then N.lor p2 P_AGGREGATABLE else p2.

(* where a thread is in create_attribute *)
Inductive aphase :=
| AIdle
| AMeta (name : bytes) (prop : N) (todo : list (N * value)) (cur : option N)  (* lines 692-724 *)
| AName (name : bytes) (cur : option N)    (* before line 725 *)
| ACheck (name : bytes) (cur : option N).  (* before line 727 *)

Record ast := mkast { a_tree : tree; a_map : list (bytes * option N); a_ph : N -> aphase;
                      a_evts : list (bytes * option N); a_rets : list (N * bytes * option N) }.

Inductive aop :=
| OCreate (t : N) (name : bytes) (ty prop : N) (metas : list (N * value))   (* the call up to line 690 *)
| ONode (t : N) (raced : bool)    (* the next tree request; raced: another thread created the same
                                     node between search and creation *)
| OCommit (t : N)                 (* lines 727-749 *)
| OGetAttr (t : N) (name : bytes) (* get_attribute(name), lines 751-757 *)
| OOther (t : N) (o : top).       (* any other request to the tree *)

Definition aset_ph (s : ast) (tr : tree) (t : N) (p : aphase) : ast := mkast tr (a_map s) (upd (a_ph s) t p) (a_evts s) (a_rets s).
Definition child_req (s : ast) (t a : N) (v : value) (cur : option N) (raced : bool) : tres :=
  if raced then create_child (a_tree s) t a v (or_root cur) else get_child (a_tree s) t a v cur.

(* None: the thread is not in this phase, or the tree overran its memory *)
Definition astep (cf : acfg) (s : ast) (o : aop) : option ast :=
  match o with
  | OCreate t name ty prop metas =>
      match a_ph s t with
      | AIdle => match blookup name (a_map s) with
          | Some x => Some (mkast (a_tree s) (a_map s) (a_ph s) (a_evts s) ((t, name, x) :: a_rets s))
          | None => Some (aset_ph s (a_tree s) t (AMeta name prop metas (type_node ty)))
          end
      | _ => None end
  | ONode t raced =>
      match a_ph s t with
      | AMeta name prop ((a, v) :: todo) cur =>
          match child_req s t a v cur raced with
          | Some (r, tr) => Some (aset_ph s tr t (AMeta name prop todo r)) | None => None end
      | AMeta name prop [] cur =>
          let p := final_prop cf name prop (agg_meta cf (a_tree s) cur) in
          match child_req s t PROP_ATTR_ID (VInt (Z.of_N p)) cur raced with
          | Some (r, tr) => Some (aset_ph s tr t (AName name r)) | None => None end
      | AName name cur =>
          match child_req s t NAME_ATTR_ID (VStr name) cur raced with
          | Some (r, tr) => Some (aset_ph s tr t (ACheck name r)) | None => None end
      | _ => None end
  | OCommit t =>
      match a_ph s t with
      | ACheck name cur =>
          match blookup name (a_map s) with
          | Some x => Some (mkast (a_tree s) (a_map s) (upd (a_ph s) t AIdle) (a_evts s) ((t, name, x) :: a_rets s))
          | None => Some (mkast (a_tree s) ((name, cur) :: a_map s) (upd (a_ph s) t AIdle)
                                ((name, cur) :: a_evts s) ((t, name, cur) :: a_rets s))
          end
      | _ => None end
  | OGetAttr t name =>
      match a_ph s t with
      | AIdle => match blookup name (a_map s) with
          | Some x => Some (mkast (a_tree s) (a_map s) (a_ph s) (a_evts s) ((t, name, x) :: a_rets s))
          | None => Some s    (* the invalid attribute *)
          end
      | _ => None end
  | OOther t o => match tstep (a_tree s) t o with
      | Some (_, tr) => Some (mkast tr (a_map s) (a_ph s) (a_evts s) (a_rets s)) | None => None end
  end.

(* GlobalData(), Caliper.cpp:326-337 *)
Definition ainit (tr : tree) : ast :=
  mkast tr [(lit_attr_type, Some TYPE_ATTR_ID); (lit_attr_prop, Some PROP_ATTR_ID); (lit_attr_name, Some NAME_ATTR_ID)] (fun _ => AIdle) [] [].

(* Attribute::name/type/properties, Attribute.cpp:19-54 *)
Definition at_find (s : tree) (i a : N) : option value :=
  option_map n_val (find (fun n => n_attr n =? a) (chain (t_nodes s) (Some i))).
Definition attr_name (s : tree) (i : N) : bytes := match at_find s i NAME_ATTR_ID with Some (VStr b) => b | _ => [] end.
Definition attr_type (s : tree) (i : N) : N := match at_find s i TYPE_ATTR_ID with Some (VType t) => t | _ => T_INV end.
Definition attr_prop (s : tree) (i : N) : N := match at_find s i PROP_ATTR_ID with Some (VInt z) => Z.to_N z | _ => 0 end.
