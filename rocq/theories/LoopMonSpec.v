(* Specification: programs of nested loops and iterations *)
From Verif Require Import Base LoopMonModel.

(* properly nested events *)
Inductive bal : list lev -> Prop :=
| bal_nil : bal []
| bal_loop n l r : bal l -> bal r -> bal (LB n :: l ++ LE :: r)
| bal_iter v b l r : bal l -> bal r -> bal (IB v :: l ++ IE b :: r).
(* an iteration: its number, and whether it ended more than time_interval seconds after the last
   snapshot *)
Definition iter := (Z * bool)%type.
(* body l vs: l is the body of a loop whose own iterations are vs, in order.  Iterations
   contain inner loops with their own iterations, but no further iteration of the same loop. *)
Inductive body : list lev -> list iter -> Prop :=
| body_nil : body [] []
| body_loop n l r vs : bal l -> body r vs -> body (LB n :: l ++ LE :: r) vs
| body_iter v b l r vs : (0 <= v)%Z -> body l [] -> body r vs -> body (IB v :: l ++ IE b :: r) ((v, b) :: vs).
(* program l loops: the executions of target loops in l (not inside another target loop), each with
   its iterations *)
Inductive program (target : bytes -> Prop) : list lev -> list (list iter) -> Prop :=
| p_nil : program target [] []
| p_target n l vs r rest : target n -> body l vs -> program target r rest -> program target (LB n :: l ++ LE :: r) (vs :: rest)
| p_other n l r a b : ~ target n -> program target l a -> program target r b -> program target (LB n :: l ++ LE :: r) (a ++ b)
| p_iter v t l r a b : program target l a -> program target r b -> program target (IB v :: l ++ IE t :: r) (a ++ b).
(* target loops: all loops, or those whose name begins with one of the given names *)
Definition selected (targets : list bytes) (name : bytes) : Prop :=
  targets = [] \/ exists t rest, In t targets /\ name = t ++ rest.
(* what a snapshot says about a group of iterations: their number, and the number of the first *)
Definition describes (g : list iter) : lsnap := (Z.of_nat (length g), hd_error (map fst g)).
(* a group is complete if it has iteration_interval iterations, or if its last one is late *)
Definition complete (c : lcfg) (g : list iter) : Prop :=
  exists g' v b, g = g' ++ [(v, b)] /\ ((0 < lc_iter c /\ Z.of_nat (length g) = lc_iter c)%Z \/ (lc_time c = true /\ b = true)).
(* the groups of the iterations vs: each one ends where it is first complete, the last group holds the
   remaining iterations (possibly none) *)
Definition groups (c : lcfg) (vs : list iter) (gs : list (list iter)) : Prop :=
  concat gs = vs /\
  exists full last, gs = full ++ [last] /\
    Forall (fun g => complete c g /\ forall p q, g = p ++ q -> q <> [] -> ~ complete c p) full /\
    (forall p q, last = p ++ q -> ~ complete c p).
