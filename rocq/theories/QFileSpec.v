(* What a query over files means, in terms of what was written: attribute names and values *)
From Verif Require Import Base VariantModel VariantSpec NamesModel TextModel TreeModel TreeProofs CaliFileModel CaliFileProofs CaliFileProofs2 CaliFileProofs3 CaliFileProofs4 CaliFileProps AggModel AggSpec FilterModel.
Open Scope N_scope.

(* ---------- what a record says ---------- *)
(* an attribute with a value, or a region path (innermost region first) *)
Inductive nentry := NImm (s : bytes) (v : value) | NRef (p : list (bytes * value)).
Definition nrec := list nentry.
Definition called (lk : N -> option tnode) (a : N) (s : bytes) : Prop := exists n, lk a = Some n /\ n_attr n = 8 /\ n_val n = VStr s.
Inductive says (lk : N -> option tnode) : entry -> nentry -> Prop :=
| sy_imm a s v : called lk a s -> says lk (EImm a v) (NImm s v)
| sy_ref i p : path lk i p -> says lk (ERef i) (NRef p).
Definition record_says (lk : N -> option tnode) : list entry -> nrec -> Prop := Forall2 (says lk).
(* everything written to the files, in order *)
Definition written (fs : list file) (W : list nrec) : Prop :=
  exists Ws, Forall2 (fun f ws => Forall2 (record_says (fl_src f)) (ctx_calls (fl_calls f)) ws) fs Ws /\ W = concat Ws.

(* ---------- the files agree on their attributes ---------- *)
(* what the name stands for; is it a nested (region) attribute; its type *)
Record dict := mkdict { dc_mean : bytes -> option meaning; dc_nested : bytes -> bool; dc_type : bytes -> N }.
Definition agrees (D : dict) (lk : N -> option tnode) : Prop := forall a s, 12 <= a -> called lk a s ->
  (exists M, dc_mean D s = Some M /\ mean lk a M) /\
  (dc_nested D s = true <-> exists fuel z, climb fuel lk a 10 = Some (VInt z) /\ Z.land z NESTED <> 0%Z) /\
  (forall fuel t, climb fuel lk a 9 = Some (VType t) -> dc_type D s = t).
(* region paths consist of values of user-defined attributes, not of the attribute metadata itself *)
Inductive plain_node (lk : N -> option tnode) : N -> Prop :=
| pn_root : plain_node lk INV_ID
| pn_node i n : lk i = Some n -> 12 <= n_attr n -> plain_node lk (par_id n) -> plain_node lk i.
Definition plain_entry (lk : N -> option tnode) (e : entry) : Prop := match e with ERef i => plain_node lk i | EImm a _ => 12 <= a end.
Definition plain_file (f : file) : Prop := forall r e, In r (ctx_calls (fl_calls f)) -> In e r -> plain_entry (fl_src f) e.
(* the names used in GROUP BY are not those of attribute metadata *)
Definition plain_keys (keys : list bytes) (lk : N -> option tnode) : Prop :=
  forall a s p, 12 <= a -> called lk a s -> path lk a p -> forall k, In k keys -> ~ In k (map fst p).
Definition file_good (D : dict) (keys : list bytes) (f : file) : Prop := agrees D (fl_src f) /\ plain_keys keys (fl_src f) /\ plain_file f.
(* the files have no attributes with the names of the query's result attributes *)
Definition result_names (q : qspec) : list bytes := flat_map (fun c => flat_map (fun x => map ka_name (snd x)) (kattrs c)) (q_ker q).
Definition fresh (D : dict) (q : qspec) : Prop := forall s, In s (result_names q) -> dc_mean D s = None.
(* names that a new database knows already (attribute.unit etc.) have the same meaning in the files *)
Definition dict_init (D : dict) : Prop := forall s M a, dc_mean D s = Some M -> get_attr db_init s = Some a -> mean (dnode db_init) a M.
(* the bytes of a file; number of lines *)
Definition text_of (dfmt : N -> bytes) (f : file) : bytes := render_stream dfmt (w_out (fl_writer f)).
Definition nsumf {A} (f : A -> nat) (l : list A) : nat := list_sum (map f l).
Definition nlines (fs : list file) : nat := nsumf (fun f => length (w_out (fl_writer f))) fs.

(* ---------- WHERE ---------- *)
Definition elems (e : nentry) : list (bytes * value) := match e with NImm s v => [(s, v)] | NRef p => p end.
Definition values (s : bytes) (l : list (bytes * value)) : list value := flat_map (fun x => if beqb (fst x) s then [snd x] else []) l.
Section PARSE.
Variable parse : N -> bytes -> value.
Definition holds (D : dict) (w : nrec) (c : cond) : bool :=
  let vs := values (c_name c) (flat_map elems w) in
  let cv := parse (dc_type D (c_name c)) (c_text c) in
  match c_op c with
  | ONone => true
  | OExist => existsb (fun _ => true) vs
  | ONotExist => negb (existsb (fun _ => true) vs)
  | OEqual => existsb (fun v => veqb v cv) vs
  | ONotEqual => negb (existsb (fun v => veqb v cv) vs)
  | OLess => existsb (fun v => vltb v cv) vs
  | OGreater => existsb (fun v => vgtb v cv) vs
  | OLessEq => existsb (fun v => vltb v cv || veqb v cv) vs
  | OGreaterEq => existsb (fun v => vgtb v cv || veqb v cv) vs
  end.
Definition passing (D : dict) (conds : list cond) (W : list nrec) : list nrec := filter (fun w => forallb (holds D w) conds) W.
End PARSE.

(* ---------- GROUP BY ---------- *)
Definition wimms (w : nrec) : list (bytes * value) := flat_map (fun e => match e with NImm s v => [(s, v)] | NRef _ => [] end) w.
(* outermost region first; references later in the record first *)
Fixpoint wpath (w : nrec) : list (bytes * value) :=
  match w with [] => [] | NImm _ _ :: r => wpath r | NRef p :: r => wpath r ++ rev p end.
Definition in_keys (q : qspec) (s : bytes) : bool := existsb (beqb s) (q_keys q).
Definition in_group (D : dict) (q : qspec) (s : bytes) : bool := q_all q || (q_nested q && dc_nested D s) || in_keys q s.
(* values of the key attributes; grouped values that are not regions; the region path *)
Record ngroup := mkng { ng_imm : list (list value); ng_np : list (bytes * value); ng_path : list (bytes * value) }.
Definition group_of (D : dict) (q : qspec) (w : nrec) : ngroup :=
  mkng (map (fun k => values k (wimms w)) (q_keys q))
       (filter (fun x => in_group D q (fst x) && negb (dc_nested D (fst x))) (wpath w))
       (filter (fun x => in_group D q (fst x) && dc_nested D (fst x)) (wpath w)).
Definition ngroup_eq_dec (a b : ngroup) : {a = b} + {a <> b}.
Proof. repeat decide equality. Defined.
Definition encl (A G : ngroup) : Prop := ng_imm A = ng_imm G /\ ng_np A = ng_np G /\ ng_path A <> [] /\ exists x l, ng_path G = ng_path A ++ x :: l.
Definition encl_in (A G : ngroup) : bool :=
  if list_eq_dec (list_eq_dec value_eq_dec) (ng_imm A) (ng_imm G) then
  if ngroup_eq_dec (mkng [] (ng_np A) (ng_path A)) (mkng [] (ng_np G) (firstn (length (ng_path A)) (ng_path G))) then
    negb (length (ng_path A) =? 0)%nat && (length (ng_path A) <? length (ng_path G))%nat else false else false.

(* an upper bound for the nodes a query needs for one record *)
Definition node_cost (q : qspec) (w : nrec) : nat := (length (wpath w) + 2 * length (result_names q))%nat.

(* ---------- aggregation ---------- *)
(* the attributes a kernel aggregates *)
Definition aggregates (c : kcfg) : list bytes :=
  match c with
  | CCount | CScount _ _ => []
  | CSum x _ | CScale x _ _ | CMin x _ | CMax x _ | CPct x _ | CAvg x | CAny x | CVar x => [x]
  | CRatio x y _ _ => [x; y]
  end.
(* the values of attribute x in a record: with a value entry, for some kernels also as the innermost region *)
Definition nmatch1 (c : kcfg) (role : nat) (x : bytes) (e : nentry) : list (nat * value) :=
  match e with
  | NImm s v => if beqb s x then [(role, v)] else []
  | NRef ((s, v) :: _) => if by_attribute c && beqb s x then [(role, v)] else []
  | NRef [] => []
  end.
Fixpoint nmatch_l (c : kcfg) (role : nat) (l : list bytes) (w : nrec) : list (nat * value) :=
  match l with [] => [] | x :: r => flat_map (nmatch1 c role x) w ++ nmatch_l c (role + 10) r w end.
Definition nmatch (c : kcfg) (w : nrec) : list (nat * value) := nmatch_l c 0 (aggregates c) w.
(* what is aggregated into group G: the records of the group, and for inclusive kernels those of enclosed groups *)
Definition contributes (D : dict) (q : qspec) (c : kcfg) (G : ngroup) (w : nrec) : list (bool * list (nat * value)) :=
  if ngroup_eq_dec (group_of D q w) G then [(true, nmatch c w)]
  else if encl_in G (group_of D q w) && is_incl c && matched (nmatch c w) then [(false, nmatch c w)] else [].
Definition ntotal (c : kcfg) (W : list nrec) : value := fold_left (fun t w => ktot c (nmatch c w) t) W VInv.
Definition present (D : dict) (q : qspec) (W : list nrec) (G : ngroup) : Prop :=
  exists w, In w W /\ (group_of D q w = G \/ (encl G (group_of D q w) /\ exists c, In c (q_ker q) /\ is_incl c = true /\ nmatch c w <> [])).
(* rows of the result: the group, the entries that show it, the entries of the kernels *)
Record row := mkrow { rw_group : ngroup; rw_key : list entry; rw_res : list (list entry) }.
(* the entries say exactly the values of the group *)
Definition shows (D : dict) (q : qspec) (lk : N -> option tnode) (es : list entry) (G : ngroup) : Prop :=
  exists w, record_says lk es w /\ group_of D q w = G /\ wpath w = ng_path G ++ ng_np G /\ Forall (fun x => In (fst x) (q_keys q)) (wimms w).
Definition row_ok (D : dict) (q : qspec) (d : mdb) (W : list nrec) (r : row) : Prop :=
  shows D q (dnode d) (rw_key r) (rw_group r) /\
  Forall2 (fun c es => exists rs, kresult c (ntotal c W) (kfinal c (flat_map (contributes D q c (rw_group r)) W)) = Some rs /\ named d rs es) (q_ker q) (rw_res r).
(* out is the result of aggregating the records W *)
Definition result_of (D : dict) (q : qspec) (d : mdb) (W : list nrec) (out : list (list entry)) (rows : list row) : Prop :=
  out = map (fun r => rw_key r ++ concat (rw_res r)) rows /\ NoDup (map rw_group rows) /\
  (forall G, In G (map rw_group rows) <-> present D q W G) /\ Forall (row_ok D q d W) rows.
(* everything a query over the files fs needs; W: what was written to them *)
Record query_ok (dfmt : N -> bytes) (dparse : bytes -> option N) (D : dict) (q : qspec) (fs : list file) (W : list nrec) : Prop := mkqok {
  qk_files : Forall (file_ok dfmt dparse) fs;
  qk_good : Forall (file_good D (q_keys q)) fs;
  qk_init : dict_init D;
  qk_fresh : fresh D q;
  qk_written : written fs W;
  qk_size : 15 + N.of_nat (nlines fs + nsumf (node_cost q) W + 8 * length (q_ker q)) < INV_ID }.
(* values of the attribute x in the records of group G; with i (inclusive kernels) also of the groups enclosed by G *)
Definition below_group (D : dict) (q : qspec) (i : bool) (G : ngroup) (W : list nrec) : list nrec :=
  filter (fun w => (if ngroup_eq_dec (group_of D q w) G then true else false) || (i && encl_in G (group_of D q w))) W.
Definition measured (x : bytes) (W : list nrec) : list value := flat_map (fun w => values x (wimms w)) W.
Definition the_int (v : value) : Z := match v with VInt z => z | _ => 0%Z end.
