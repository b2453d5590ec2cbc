(* What a binding should do: the tool sees the regions the program opens and closes. *)
From Verif Require Import Base VariantModel VariantSpec TreeModel RFilterModel RuntimeModel RuntimeSpec EventModel ProfSpec BindModel.
Open Scope N_scope.

(* the attributes a configuration selects *)
Definition selects (triggers : list bytes) (a : eattr) : Prop :=
  has_flag (ea_prop a) P_SKIP_EVENTS = false /\
  ((triggers = [] /\ has_flag (ea_prop a) P_NESTED = true) \/ In (ea_name a) triggers).
(* the calls of one thread *)
Definition thread_call (t : N) (x : bcall) : bool := match x with CBegin u _ _ | CEnd u _ _ => u =? t | CMark _ => false end.
Definition calls_of (t : N) (l : list bcall) : list bcall := filter (thread_call t) l.
(* the tool's stack of open ranges: on_begin opens one, on_end must close the innermost *)
Definition tool_step (st : option (list (N * value))) (x : bcall) : option (list (N * value)) :=
  match st, x with
  | Some l, CBegin _ a v => Some (l ++ [(a, v)])
  | Some l, CEnd _ a v =>
      match rev l with
      | (b, w) :: r => if (b =? a) && (if value_eq_dec w v then true else false) then Some (rev r) else None
      | [] => None
      end
  | st, _ => st
  end.
Definition tool_stack (l : list bcall) : option (list (N * value)) := fold_left tool_step l (Some []).
(* the open regions of a thread, outermost first *)
Definition open_regions (s : rt) (t : N) : list (N * value) := bb_regions (r_tree s) (r_tbb s t).
(* the regions the tool is to know of *)
Definition known (marks : list N) (ok : value -> bool) (l : list (N * value)) : list (N * value) :=
  filter (fun x => existsb (N.eqb (fst x)) marks && ok (snd x)) l.
(* the steps considered: region and internal attributes are used, the channel is not switched off, bound
   attributes are not changed with set, and an attribute is not bound while thread t has a region of it open *)
Definition step_fine (c : bcfg) (t : N) (p : rt * bst) (x : bop) : Prop :=
  match x with
  | XApi u o => rop_ok (fst p) o /\ plain_op o /\ leaves_channel (bc_chn c) o /\
                (forall a v, o = OSet a v -> u = t -> ~ In (at_id a) (b_marks (snd p)))
  | XCreate a | XSubscribe a => forall v, ~ In (ea_id a, v) (open_regions (fst p) t)
  end.
Fixpoint run_fine (rx : bytes -> bytes -> bool) (dat : value -> bytes) (c : bcfg) (t : N) (p : rt * bst) (l : list bop) : Prop :=
  match l with
  | [] => True
  | x :: r => step_fine c t p x /\ match bstep rx dat c p x with Some q => run_fine rx dat c t q r | None => True end
  end.
(* calls for a properly nested program: each region the tool is to know of gives one on_begin and one on_end
   with the same value, around the calls of its body *)
Inductive nested_calls (bd : N -> value -> bool) (t : N) : list rop -> list bcall -> Prop :=
| nc_nil : nested_calls bd t [] []
| nc_region a v e body rest cb cr : scope_of a <> ScOther -> (e = OEnd a \/ e = OEndCheck a v) ->
    (asvalue a = true -> forall b w, In (OBegin b w) body -> at_id b <> at_id a) ->
    nested_calls bd t body cb -> nested_calls bd t rest cr ->
    nested_calls bd t (OBegin a v :: body ++ e :: rest)
      (if run_events a && bd (at_id a) v then CBegin t (at_id a) v :: cb ++ CEnd t (at_id a) v :: cr else cb ++ cr)
| nc_get a rest cr : nested_calls bd t rest cr -> nested_calls bd t (OGet a :: rest) cr
| nc_activate k rest cr : nested_calls bd t rest cr -> nested_calls bd t (OActivate k :: rest) cr
| nc_deactivate k rest cr : nested_calls bd t rest cr -> nested_calls bd t (ODeactivate k :: rest) cr
| nc_tree o rest cr : nested_calls bd t rest cr -> nested_calls bd t (OTree o :: rest) cr.
