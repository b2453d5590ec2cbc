(* Specification of the annotation interface: what begin/end/set/get mean, without tree,
   nodes or blackboards. *)
From Verif Require Import Base VariantModel VariantSpec TreeModel TreeSpec RuntimeModel.

(* A context: the nested regions (outermost first), the unaligned attributes (outermost
   first), and the as-value attributes. *)
Record actx := mkctx { c_reg : list (N * value); c_una : list (N * value); c_imm : N -> option value }.
Definition ctx_empty : actx := mkctx [] [] (fun _ => None).

(* innermost value of attribute a in a list of open entries *)
Definition innermost (a : N) (l : list (N * value)) : option value :=
  option_map snd (find (fun x => fst x =? a) (rev l)).
Definition last_is (a : N) (l : list (N * value)) : bool :=
  match rev l with (b, _) :: _ => b =? a | [] => false end.

Definition lst (c : actx) (a : attr) : list (N * value) := if unaligned a then c_una c else c_reg c.
Definition with_lst (c : actx) (a : attr) (l : list (N * value)) : actx :=
  if unaligned a then mkctx (c_reg c) l (c_imm c) else mkctx l (c_una c) (c_imm c).
Definition with_imm (c : actx) (k : N) (v : option value) : actx := mkctx (c_reg c) (c_una c) (upd (c_imm c) k v).

Definition c_get (c : actx) (a : attr) : option value :=
  if asvalue a then c_imm c (at_id a) else innermost (at_id a) (lst c a).
Definition c_begin (c : actx) (a : attr) (v : value) : actx :=
  if asvalue a then with_imm c (at_id a) (Some v) else with_lst c a (lst c a ++ [(at_id a, v)]).
Definition c_set (c : actx) (a : attr) (v : value) : actx :=
  if asvalue a then with_imm c (at_id a) (Some v)
  else with_lst c a (rm_innermost (at_id a) (lst c a) ++ [(at_id a, v)]).
(* the value end() would close: None is a stack error.  Regions must be closed innermost
   first; unaligned and as-value attributes can be closed any time. *)
Definition c_open (c : actx) (a : attr) : option value :=
  if asvalue a then c_imm c (at_id a)
  else if unaligned a then innermost (at_id a) (c_una c)
  else if last_is (at_id a) (c_reg c) then innermost (at_id a) (c_reg c) else None.
Definition c_end (c : actx) (a : attr) : actx :=
  if asvalue a then with_imm c (at_id a) None else with_lst c a (rm_innermost (at_id a) (lst c a)).
(* what a callback or reader sees for the attribute: its list of open entries / its value *)
Definition c_see (c : actx) (a : attr) : list (N * value) :=
  if asvalue a then match c_imm c (at_id a) with Some v => [(at_id a, v)] | None => [] end else lst c a.

(* program state *)
Record ast := mkast { a_thr : N -> actx; a_proc : actx; a_err : N -> bool; a_act : list N; a_log : list ev }.
Definition ast_init : ast := mkast (fun _ => ctx_empty) ctx_empty (fun _ => false) [] [].

Definition a_ctx (s : ast) (t : N) (a : attr) : actx :=
  match scope_of a with ScThread => a_thr s t | ScProcess => a_proc s | ScOther => ctx_empty end.
Definition a_put (s : ast) (t : N) (a : attr) (c : actx) : ast :=
  match scope_of a with
  | ScThread => mkast (upd (a_thr s) t c) (a_proc s) (a_err s) (a_act s) (a_log s)
  | ScProcess => mkast (a_thr s) c (a_err s) (a_act s) (a_log s)
  | ScOther => s
  end.
(* one callback per active channel, in order, seeing the current context *)
Definition a_fire (s : ast) (k : evk) (t : N) (a : attr) (v : value) : ast :=
  if run_events a then
    mkast (a_thr s) (a_proc s) (a_err s) (a_act s)
      (a_log s ++ map (fun c => mkev k c t (at_id a) v (c_see (a_ctx s t a) a)) (a_act s))
  else s.
Definition a_fail (s : ast) (t : N) : ast := mkast (a_thr s) (a_proc s) (upd (a_err s) t true) (a_act s) (a_log s).
Definition is_other (a : attr) : bool := match scope_of a with ScOther => true | _ => false end.

Definition a_close (s : ast) (t : N) (a : attr) (ok : value -> bool) : ast * out :=
  if a_err s t then (s, ODone)
  else if is_other a then (s, ODone)
  else match c_open (a_ctx s t a) a with
       | None => (a_fail s t, OError)
       | Some w =>
           if ok w then
             let s1 := a_fire s PreEnd t a w in (a_put s1 t a (c_end (a_ctx s1 t a) a), ODone)
           else (a_fail s t, OError)
       end.
Definition a_step (s : ast) (t : N) (o : rop) : ast * out :=
  match o with
  | OBegin a v =>
      if a_err s t then (s, ODone)
      else let s1 := a_fire s PreBegin t a v in
           let s2 := a_put s1 t a (c_begin (a_ctx s1 t a) a v) in
           (a_fire s2 PostBegin t a v, ODone)
  | OEnd a => a_close s t a (fun _ => true)
  | OEndCheck a v => a_close s t a (veqb v)
  | OSet a v =>
      if a_err s t then (s, ODone)
      else let s1 := a_fire s PreSet t a v in (a_put s1 t a (c_set (a_ctx s1 t a) a v), ODone)
  | OGet a => (s, OVal (if is_other a then None else c_get (a_ctx s t a) a))
  | OActivate c =>
      (mkast (a_thr s) (a_proc s) (a_err s) (if existsb (N.eqb c) (a_act s) then a_act s else a_act s ++ [c]) (a_log s), ODone)
  | ODeactivate c => (mkast (a_thr s) (a_proc s) (a_err s) (remove1 c (a_act s)) (a_log s), ODone)
  | OTree _ => (s, ODone)
  end.
Fixpoint a_run (s : ast) (ops : list (N * rop)) : ast * list out :=
  match ops with
  | [] => (s, [])
  | (t, o) :: r => let (s1, x) := a_step s t o in let (s2, xs) := a_run s1 r in (s2, x :: xs)
  end.

(* a run of the code *)
Fixpoint rt_run (s : rt) (ops : list (N * rop)) : option (rt * list out) :=
  match ops with
  | [] => Some (s, [])
  | (t, o) :: r => match rt_step s t o with
                   | SOk s1 x => match rt_run s1 r with Some (s2, xs) => Some (s2, x :: xs) | None => None end
                   | _ => None
                   end
  end.

(* Attributes used in a history: user attributes (id beyond the bootstrap nodes) whose node
   is an attribute node of the tree *)
Definition attr_ok (tr : tree) (a : attr) : Prop :=
  12 <= at_id a /\ exists n, In n (t_nodes tr) /\ n_id n = at_id a /\ n_attr n = NAME_ATTR_ID.
(* The tree operations of other modules hold valid pointers *)
Definition rop_ok (s : rt) (o : rop) : Prop :=
  match o with
  | OBegin a _ | OEnd a | OEndCheck a _ | OSet a _ | OGet a => attr_ok (r_tree s) a
  | OTree o => op_ok (r_tree s) o /\ op_small (r_tree s) o
  | _ => True
  end.
Fixpoint ops_ok (s : rt) (ops : list (N * rop)) : Prop :=
  match ops with
  | [] => True
  | (t, o) :: r => rop_ok s o /\ match rt_step s t o with SOk s1 _ => ops_ok s1 r | _ => True end
  end.

(* what the API shows of a state: for thread t, the open regions, the unaligned entries, the
   as-value attributes, and the same for the process scope *)
Definition bb_regions (tr : tree) (m : bb) : list (N * value) := ent_view tr (bget m REGION_KEY).
Definition bb_unaligned (tr : tree) (m : bb) : list (N * value) := ent_view tr (bget m UNALIGNED_KEY).
Definition shows (tr : tree) (m : bb) (c : actx) : Prop :=
  bb_regions tr m = c_reg c /\ bb_unaligned tr m = c_una c /\
  (forall k, 12 <= k -> option_map snd (bget m k) = c_imm c k).

(* histories of the whole library: from initialisation, any threads, any interleaving of API
   calls; not_full: the context tree has not run out of node blocks (C17) *)
Definition rt_history (ops : list (N * rop)) (s : rt) (xs : list out) : Prop :=
  exists npb nblk t0 tr, cfg_ok npb nblk /\ tree_init npb nblk t0 = Some tr /\
    ops_ok (rt_init tr) ops /\ rt_run (rt_init tr) ops = Some (s, xs) /\ not_full (r_tree s).
Definition rt_reach (s : rt) : Prop := exists ops xs, rt_history ops s xs.

(* the operations of thread t, and their results *)
Definition ops_of (t : N) (ops : list (N * rop)) : list rop := map snd (filter (fun p => fst p =? t) ops).
Definition outs_of (t : N) (ops : list (N * rop)) (xs : list out) : list out :=
  map snd (filter (fun p => fst (fst p) =? t) (combine ops xs)).

(* the attribute an operation works on *)
Definition op_attr (o : rop) : option attr :=
  match o with OBegin a _ | OEnd a | OEndCheck a _ | OSet a _ | OGet a => Some a | _ => None end.
(* operations that do not touch the process-wide context *)
Definition no_process (o : rop) : Prop := forall a, op_attr o = Some a -> scope_of a <> ScProcess.

(* properly nested annotations: every begin is closed by its end around a properly nested
   body; reading values, channel and tree operations may occur anywhere.  An as-value
   attribute must not be begun again within its own begin/end pair. *)
Inductive nested : list rop -> Prop :=
| ne_nil : nested []
| ne_region a v e body rest : asvalue a = false -> (e = OEnd a \/ e = OEndCheck a v) -> nested body -> nested rest ->
    nested (OBegin a v :: body ++ e :: rest)
| ne_value a v e body rest : asvalue a = true -> (e = OEnd a \/ e = OEndCheck a v) ->
    (forall b w, In (OBegin b w) body -> at_id b <> at_id a) -> nested body -> nested rest ->
    nested (OBegin a v :: body ++ e :: rest)
| ne_get a rest : nested rest -> nested (OGet a :: rest)
| ne_activate c rest : nested rest -> nested (OActivate c :: rest)
| ne_deactivate c rest : nested rest -> nested (ODeactivate c :: rest)
| ne_tree o rest : nested rest -> nested (OTree o :: rest).

(* the context visible in two states is the same *)
Definition same_ctx (tr : tree) (m : bb) (tr' : tree) (m' : bb) : Prop :=
  bb_regions tr m = bb_regions tr' m' /\ bb_unaligned tr m = bb_unaligned tr' m' /\
  (forall k, 12 <= k -> option_map snd (bget m k) = option_map snd (bget m' k)).

(* the open entries of the class attribute a belongs to (regions or unaligned), outermost first *)
Definition entries (s : rt) (t : N) (a : attr) : list (N * value) :=
  if unaligned a then bb_unaligned (r_tree s) (get_bb s t a) else bb_regions (r_tree s) (get_bb s t a).
(* what a callback for attribute a finds in the context *)
Definition seen (s : rt) (t : N) (a : attr) : list (N * value) :=
  if asvalue a then match rt_get s t a with Some v => [(at_id a, v)] | None => [] end else entries s t a.

(* callbacks a channel gets from properly nested annotations of one thread: the events mirror
   the nesting and an end event carries the value of its begin *)
Inductive nested_trace : list rop -> list (evk * N * value) -> Prop :=
| nt_nil : nested_trace [] []
| nt_region a v e body rest eb er : scope_of a <> ScOther -> (e = OEnd a \/ e = OEndCheck a v) ->
    (asvalue a = true -> forall b w, In (OBegin b w) body -> at_id b <> at_id a) ->
    nested_trace body eb -> nested_trace rest er ->
    nested_trace (OBegin a v :: body ++ e :: rest)
      ((if run_events a then [(PreBegin, at_id a, v); (PostBegin, at_id a, v)] else []) ++ eb ++
       (if run_events a then [(PreEnd, at_id a, v)] else []) ++ er)
| nt_get a rest er : nested_trace rest er -> nested_trace (OGet a :: rest) er
| nt_activate c rest er : nested_trace rest er -> nested_trace (OActivate c :: rest) er
| nt_deactivate c rest er : nested_trace rest er -> nested_trace (ODeactivate c :: rest) er
| nt_tree o rest er : nested_trace rest er -> nested_trace (OTree o :: rest) er.
(* the callbacks channel c received from thread t *)
Definition received (c t : N) (log : list ev) : list (evk * N * value) :=
  map (fun e => (ev_kind e, ev_attr e, ev_val e)) (filter (fun e => (ev_thr e =? t) && (ev_chn e =? c)) log).
