(* Specification: a finite map from keys to (value, visible?) with a capacity *)
From Verif Require Import Base VariantModel CodecModel BlackboardModel.
Local Open Scope nat_scope.

Definition CAP : nat := 910.      (* entries that can be stored *)

Definition smap := list (N * (entry * bool)).
Fixpoint slookup (m : smap) (k : N) : option (entry * bool) :=
  match m with [] => None | (k', x) :: r => if (k' =? k)%N then Some x else slookup r k end.
Fixpoint sremove (m : smap) (k : N) : smap :=
  match m with [] => [] | (k', x) :: r => if (k' =? k)%N then r else (k', x) :: sremove r k end.
Fixpoint supdate (m : smap) (k : N) (v : entry) : smap :=
  match m with [] => [] | (k', (e, b)) :: r => if (k' =? k)%N then (k', (v, b)) :: r else (k', (e, b)) :: supdate r k v end.

(* state: map, number of skipped entries *)
Record sbb := mksbb { s_map : smap; s_skipped : nat }.
Definition s_put (s : sbb) (k : N) (v : entry) (incl : bool) : sbb :=
  match slookup (s_map s) k with
  | Some _ => mksbb (supdate (s_map s) k v) (s_skipped s)
  | None => if length (s_map s) <? CAP then mksbb ((k, (v, incl)) :: s_map s) (s_skipped s)
            else mksbb (s_map s) (S (s_skipped s))
  end.
Definition s_get (s : sbb) (k : N) : entry := match slookup (s_map s) k with Some (v, _) => v | None => EEmpty end.
Definition s_step (s : sbb) (o : bb_op) : sbb * entry :=
  match o with
  | BSet k v i => (s_put s k v i, EEmpty)
  | BExch k v i => (s_put s k v i, s_get s k)
  | BDel k => (mksbb (sremove (s_map s) k) (s_skipped s), EEmpty)
  | BGet k => (s, s_get s k)
  end.
Fixpoint s_run (s : sbb) (ops : list bb_op) : sbb * list entry :=
  match ops with
  | [] => (s, [])
  | o :: r => let (s', e) := s_step s o in let (s'', es) := s_run s' r in (s'', e :: es)
  end.
Definition s_init : sbb := mksbb [] 0.

(* the visible values *)
Definition visible (m : smap) : list entry := map (fun x => fst (snd x)) (filter (fun x => snd (snd x)) m).

Definition op_key (o : bb_op) : N := match o with BSet k _ _ | BDel k | BExch k _ _ | BGet k => k end.
Definition keys_ok (ops : list bb_op) : Prop := Forall (fun o => op_key o <> INV_ID) ops.
