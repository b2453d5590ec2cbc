(* Model of the validator service, src/services/validator/validator.cpp *)
From Verif Require Import Base VariantModel VariantSpec TreeModel RuntimeModel.

(* CALI_ATTR_NESTED, cali_types.h:98; Attribute::is_nested *)
Definition P_NESTED : N := 256.
Definition nested (a : attr) : bool := has_flag (at_prop a) P_NESTED.

(* m_region_stack, a std::map ordered by attribute id (Attribute.h:80-83): the stored vectors are
   never empty *)
Definition stacks := list (N * list value).
Fixpoint sget (m : stacks) (a : N) : list value :=
  match m with [] => [] | (b, x) :: r => if b =? a then x else sget r a end.
Fixpoint sput (m : stacks) (a : N) (l : list value) : stacks :=
  match m with
  | [] => match l with [] => [] | _ => [(a, l)] end
  | (b, x) :: r => if b =? a then match l with [] => r | _ => (a, l) :: r end
                   else if a <? b then match l with [] => m | _ => (a, l) :: m end
                   else (b, x) :: sput r a l
  end.

(* what is printed (validator.cpp:116-146, 152-166) *)
Inductive msg :=
| MNoBegin (a : N) (v : value)               (* end has no matching begin *)
| MAttr (a : N) (v : value) (cur : N)        (* trying to end a=v but current attribute is cur *)
| MValue (a : N) (v : value) (cur : value)   (* trying to end a=v but current value is cur *)
| MOpen (a : N) (vs : list value).           (* regions not closed *)

(* class StackValidator, validator.cpp:56-177 *)
Record sv := mksv { sv_stk : stacks; sv_err : bool }.
Definition sv_new : sv := mksv [] false.
(* s_class_nested_attr; vid: Variant::to_id *)
Section V.
Variable nest : N.
Definition vid (v : value) : N := match v with VUint n => n | _ => INV_ID end.
(* push, 62-70: make_tree_entry returns a node with the given value (C16) *)
Definition push (m : stacks) (a : N) (v : value) : stacks := sput m a (sget m a ++ [v]).
(* pop, 72-89: the empty variant if there is nothing *)
Definition pop (m : stacks) (a : N) : value * stacks :=
  match rev (sget m a) with [] => (VInv, m) | v :: r => (v, sput m a (rev r)) end.
Definition is_inv (v : value) : bool := match v with VInv => true | _ => false end.
(* check_begin, 93-104 *)
Definition check_begin (s : sv) (a : attr) (v : value) : sv * bool :=
  if sv_err s then (s, true)
  else let m := push (sv_stk s) (at_id a) v in
       (mksv (if nested a then push m nest (VUint (at_id a)) else m) false, false).
(* check_end, 106-150 *)
Definition check_end (s : sv) (a : attr) (v : value) : sv * bool * list msg :=
  if sv_err s then (s, true, [])
  else let (w, m) := pop (sv_stk s) (at_id a) in
       if is_inv w then (mksv m true, true, [MNoBegin (at_id a) v])
       else let (wa, m2) := if nested a then pop m nest else (VInv, m) in
            if nested a && negb (at_id a =? vid wa) then (mksv m2 true, true, [MAttr (at_id a) v (vid wa)])
            else if negb (veqb v w) then (mksv m2 true, true, [MValue (at_id a) v w])
            else (mksv m2 false, false, []).
(* check_final, 152-173 *)
Definition final_msgs (s : sv) : list msg := map (fun p => MOpen (fst p) (snd p)) (filter (fun p => negb (fst p =? nest) && negb (match snd p with [] => true | _ => false end)) (sv_stk s)).
Definition check_final (s : sv) : bool := sv_err s || match final_msgs s with [] => false | _ => true end.

(* class ValidatorService: the process stack, the thread stacks in order of creation, the error
   counter and the messages *)
Record vst := mkvst { vs_proc : sv; vs_thr : list (N * sv); vs_errors : nat; vs_log : list msg }.
Definition vst_init : vst := mkvst sv_new [] 0 [].
Inductive vev := VB (a : attr) (v : value) | VE (a : attr) (v : value).
Definition vattr (e : vev) : attr := match e with VB a _ | VE a _ => a end.
Definition on_stack (s : sv) (e : vev) : sv * bool * list msg :=
  match e with VB a v => (check_begin s a v, []) | VE a v => check_end s a v end.
(* aquire_thread_stack, 189-205: the stack hangs off the thread's blackboard *)
Fixpoint tget (l : list (N * sv)) (t : N) : sv :=
  match l with [] => sv_new | (u, s) :: r => if u =? t then s else tget r t end.
Fixpoint tput (l : list (N * sv)) (t : N) (s : sv) : list (N * sv) :=
  match l with [] => [(t, s)] | (u, x) :: r => if u =? t then (t, s) :: r else (u, x) :: tput r t s end.
Definition bump (b : bool) (n : nat) : nat := if b then S n else n.
(* begin_cb, end_cb, 241-271 *)
Definition v_step (s : vst) (x : N * vev) : vst :=
  let (t, e) := x in
  match scope_of (vattr e) with
  | ScProcess => let '(p, b, l) := on_stack (vs_proc s) e in mkvst p (vs_thr s) (bump b (vs_errors s)) (vs_log s ++ l)
  | _ => let '(p, b, l) := on_stack (tget (vs_thr s) t) e in mkvst (vs_proc s) (tput (vs_thr s) t p) (bump b (vs_errors s)) (vs_log s ++ l)
  end.
Definition v_run (evs : list (N * vev)) : vst := fold_left v_step evs vst_init.
(* finalize_cb, 207-239: the number of errors; "Annotation nesting errors found" if it is positive *)
Definition v_final (s : vst) : nat :=
  fold_left (fun n p => bump (check_final (snd p)) n) (vs_thr s) (bump (check_final (vs_proc s)) (vs_errors s)).
Definition v_final_log (s : vst) : list msg := vs_log s ++ final_msgs (vs_proc s) ++ flat_map (fun p => final_msgs (snd p)) (vs_thr s).
Definition errors_found (s : vst) : bool := Nat.ltb 0 (v_final s).
End V.
