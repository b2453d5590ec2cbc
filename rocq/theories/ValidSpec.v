(* Specification of proper nesting, independent of any stack *)
From Verif Require Import Base VariantModel VariantSpec TreeModel RuntimeModel ValidModel.

(* brackets: (true, x) opens x, (false, x) closes x *)
Inductive wn {A : Type} : list (bool * A) -> Prop :=
| wn_nil : wn []
| wn_app l1 l2 : wn l1 -> wn l2 -> wn (l1 ++ l2)
| wn_wrap x l : wn l -> wn ((true, x) :: l ++ [(false, x)]).
(* l leaves exactly the brackets vs open, outermost first *)
Inductive opened {A : Type} : list (bool * A) -> list A -> Prop :=
| op_wn l : wn l -> opened l []
| op_open l vs v w : opened l vs -> wn w -> opened (l ++ (true, v) :: w) (vs ++ [v]).

(* the regions of one attribute, by value *)
Definition regions_of (a : N) (evs : list vev) : list (bool * value) :=
  flat_map (fun e => if at_id (vattr e) =? a then match e with VB _ v => [(true, v)] | VE _ v => [(false, v)] end else []) evs.
(* the nested regions of all attributes *)
Definition nested_regions (evs : list vev) : list (bool * (N * value)) :=
  flat_map (fun e => if nested (vattr e) then match e with VB a v => [(true, (at_id a, v))] | VE a v => [(false, (at_id a, v))] end else []) evs.
Definition well_nested (evs : list vev) : Prop :=
  wn (nested_regions evs) /\ forall a, wn (regions_of a evs).
(* no violation so far: all ends match, but regions may be open *)
Definition nesting_ok (evs : list vev) : Prop :=
  (exists ps, opened (nested_regions evs) ps) /\ forall a, exists vs, opened (regions_of a evs) vs.

(* the events that concern one thread, or the process *)
Definition on_process (evs : list (N * vev)) : list vev :=
  flat_map (fun x => match scope_of (vattr (snd x)) with ScProcess => [snd x] | _ => [] end) evs.
Definition on_thread (t : N) (evs : list (N * vev)) : list vev :=
  flat_map (fun x => match scope_of (vattr (snd x)) with ScProcess => [] | _ => if fst x =? t then [snd x] else [] end) evs.

(* the service's own attribute is not used by the program; an id denotes one attribute; begin
   values are not empty *)
Definition ev_ok (nest : N) (att : N -> attr) (e : vev) : Prop :=
  at_id (vattr e) <> nest /\ at_id (vattr e) <> INV_ID /\ vattr e = att (at_id (vattr e)) /\ match e with VB _ v => v <> VInv | _ => True end.
