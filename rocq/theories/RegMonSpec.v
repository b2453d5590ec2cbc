(* Specification: properly nested region programs, and which region instances are measured *)
From Verif Require Import Base RegMonModel.

(* A region is identified by its path: its own name followed by those of the enclosing regions.
   idof: the context tree node of a path (one node per path: C15) *)
Definition rpath := list N.
Definition node_of (idof : rpath -> N) (q : rpath) : option (N * option N) :=
  Some (idof q, match tl q with [] => None | p => Some (idof p) end).

(* properly nested programs below path p: regions, regions with attributes that have no tree node,
   and arbitrary begin / end events of attributes that are not nested *)
Definition not_nested (e : rev_) : Prop := match e with RB n _ _ => n = false | RE n _ _ => n = false end.
Inductive prog (idof : rpath -> N) : rpath -> list rev_ -> Prop :=
| pg_nil p : prog idof p []
| pg_other p e r : not_nested e -> prog idof p r -> prog idof p (e :: r)
| pg_value p t t' l r : prog idof p l -> prog idof p r -> prog idof p (RB true None t :: l ++ RE true None t' :: r)
| pg_region p x t t' l r : prog idof (x :: p) l -> prog idof p r ->
    prog idof p (RB true (node_of idof (x :: p)) t :: l ++ RE true (node_of idof (x :: p)) t' :: r).

(* finished region instances that were observed, oldest first: path and duration *)
Definition rhist := list (rpath * Z).
(* the duration of the last instance of q longer than min (0: there is none) *)
Fixpoint last_long (min : Z) (h : rhist) (q : rpath) (acc : Z) : Z :=
  match h with
  | [] => acc
  | (q', d) :: r => last_long min r q (if list_eq_dec N.eq_dec q' q then (if (min <? d)%Z then d else acc) else acc)
  end.
(* the time of all instances of child regions of q longer than min *)
Fixpoint child_sum (min : Z) (h : rhist) (q : rpath) : Z :=
  match h with
  | [] => 0
  | (q', d) :: r => (if list_eq_dec N.eq_dec (tl q') q then (if (min <? d)%Z then d else 0) else 0) + child_sum min r q
  end%Z.
Definition heavy (min : Z) (h : rhist) (q : rpath) : Prop := (last_long min h q 0 > 2 * child_sum min h q)%Z.

(* what the monitor does with a program below path p after the history h: the history after it, and the
   measured region instances in order.  A region instance that is heavy when it begins is measured; nothing
   inside it is observed. *)
Inductive monitored (idof : rpath -> N) (min : Z) : rpath -> rhist -> list rev_ -> rhist -> list rpath -> Prop :=
| mo_nil p h : monitored idof min p h [] h []
| mo_other p h e r h' o : not_nested e -> monitored idof min p h r h' o -> monitored idof min p h (e :: r) h' o
| mo_value p h t t' l r h1 h2 o1 o2 : monitored idof min p h l h1 o1 -> monitored idof min p h1 r h2 o2 ->
    monitored idof min p h (RB true None t :: l ++ RE true None t' :: r) h2 (o1 ++ o2)
| mo_light p h x t t' l r h1 h2 o1 o2 : ~ heavy min h (x :: p) ->
    monitored idof min (x :: p) h l h1 o1 -> monitored idof min p (h1 ++ [(x :: p, (t' - t)%Z)]) r h2 o2 ->
    monitored idof min p h (RB true (node_of idof (x :: p)) t :: l ++ RE true (node_of idof (x :: p)) t' :: r) h2 (o1 ++ o2)
| mo_measured p h x t t' l r h2 o2 : heavy min h (x :: p) ->
    prog idof (x :: p) l -> monitored idof min p (h ++ [(x :: p, (t' - t)%Z)]) r h2 o2 ->
    monitored idof min p h (RB true (node_of idof (x :: p)) t :: l ++ RE true (node_of idof (x :: p)) t' :: r) h2 ((x :: p) :: o2).

(* one measurement: timers reset when the instance begins, a snapshot when it ends *)
Definition measurements (idof : rpath -> N) (o : list rpath) : list rout :=
  flat_map (fun q => [Pull (idof q); Push]) o.
