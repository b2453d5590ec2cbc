(* From the annotations of a program to the time report of a query: what the records of a thread's profile
   look like in a .cali file, and what the report should say. *)
From Verif Require Import Base VariantModel VariantSpec NamesModel TextModel TreeModel RuntimeModel RuntimeSpec ArithModel RtAggModel ProfModel ProfSpec.
From Verif Require Import CaliFileModel CaliFileProofs CaliFileProofs2 CaliFileProofs3 CaliFileProofs4 CaliFileProofs5 CaliFileProps AggModel AggSpec QFileSpec.
Open Scope N_scope.

(* a flushed record as it is given to the writer: the same references; the same attributes with the values that
   the value fields hold (memory m) *)
Definition written_entry (m : memory) (e : rent) (y : entry) : Prop :=
  match e, y with
  | RRef i, ERef j => i = j
  | RImm a c, EImm b v => a = b /\ built m c v
  | _, _ => False
  end.
(* the nodes of the metadata tree below the root *)
Definition nodes_of (tr : tree) (i : N) : option tnode := if i =? INV_ID then None else node_at tr i.
(* the file holds the records, in order, and refers to the nodes of the tree *)
Definition file_of (m : memory) (tr : tree) (recs : list (list rent)) (f : file) : Prop :=
  (forall i, fl_src f i = nodes_of tr i) /\
  Forall2 (fun r c => c_glob c = false /\ Forall2 (written_entry m) r (c_rec c)) recs (fl_calls f).
(* attributes have different names *)
Definition names_unique (lk : N -> option tnode) : Prop := forall a b s, called lk a s -> called lk b s -> a = b.
(* a path of regions by the names of the region attributes *)
Definition name_of (tr : tree) (a : N) : bytes :=
  match node_at tr a with Some n => match n_val n with VStr s => s | _ => [] end | None => [] end.
Definition by_name (tr : tree) (q : ProfSpec.path) : list (bytes * value) := map (fun x => (name_of tr (fst x), snd x)) q.
(* the query SELECT sum(x) GROUP BY path *)
Definition time_query (x : bytes) : qspec := mkq [] false true [CSum x false].
(* a line of the result says: in this place, this much.  es: the entries of the region path, then the result attribute *)
Definition line_says (d : mdb) (nm : bytes) (es : list entry) (place : list (bytes * value)) (n : N) : Prop :=
  exists ks w a, es = ks ++ [EImm a (VUint n)] /\ get_attr d nm = Some a /\ record_says (dnode d) ks w /\ wpath w = place /\ wimms w = [].
(* the query SELECT sum(x), inclusive_sum(x) GROUP BY path *)
Definition inclusive_query (x : bytes) : qspec := mkq [] false true [CSum x false; CSum x true].
(* the place q is the (non-empty) place p or lies inside it; time spent there *)
Definition inside (p q : ProfSpec.path) : bool := path_eqb p q || (negb (length p =? 0)%nat && path_eqb p (firstn (length p) q)).
Definition within (p : ProfSpec.path) (l : list (ProfSpec.path * N * bool)) : N := ProfSpec.nsum (map (fun x => snd (fst x)) (filter (fun x => inside p (fst (fst x))) l)).
Definition visited (p : ProfSpec.path) (l : list (ProfSpec.path * N * bool)) : bool := existsb (fun x => path_eqb p (fst (fst x))) l.
(* a line of the result: the entries of the region path, the sum if any, the inclusive sum *)
Definition line_says2 (d : mdb) (x : bytes) (es : list entry) (place : list (bytes * value)) (excl : list N) (incl : N) : Prop :=
  exists ks w ee b, es = ks ++ ee ++ [EImm b (VUint incl)] /\ get_attr d (p_incl ++ x) = Some b /\
    Forall2 (fun n e => exists a, get_attr d (p_sum ++ x) = Some a /\ e = EImm a (VUint n)) excl ee /\
    record_says (dnode d) ks w /\ wpath w = place /\ wimms w = [].
(* a process: each thread with its stretches.  Time in a place, time in it and in everything inside, over all threads *)
Definition spent_all (ls : list (list (ProfSpec.path * N * bool))) (p : ProfSpec.path) : N := ProfSpec.nsum (map (spent p) ls).
Definition within_all (ls : list (list (ProfSpec.path * N * bool))) (p : ProfSpec.path) : N := ProfSpec.nsum (map (within p) ls).
(* the places where some thread spent time *)
Definition places (ls : list (list (ProfSpec.path * N * bool))) : list ProfSpec.path := flat_map (map (fun y => fst (fst y))) ls.
