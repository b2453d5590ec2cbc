(* Specification: loops, iterations and other regions, with the times they begin and end *)
From Verif Require Import Base LoopStatModel.
Open Scope N_scope.

(* a properly nested piece of a program: regions of each kind around further pieces *)
Inductive prog :=
| PNil
| PRegion (k : lkind) (t0 t1 : N) (body rest : prog).
(* its callbacks *)
Fixpoint events (p : prog) : list sev :=
  match p with
  | PNil => []
  | PRegion k t0 t1 body rest => SBegin k t0 :: events body ++ SEnd k t1 :: events rest
  end.
(* the number of iterations in a piece that do not belong to a loop inside it *)
Fixpoint iterations (p : prog) : N :=
  match p with
  | PNil => 0
  | PRegion k _ _ body rest => match k with KLoop => 0 | KIter => 1 + iterations body | KOther => iterations body end + iterations rest
  end.
(* what is to be recorded: at the end of each loop the number of its iterations, at the end of each iteration of a loop
   its duration.  inl: the piece is inside of a loop *)
Fixpoint report (inl : bool) (p : prog) : list ssnap :=
  match p with
  | PNil => []
  | PRegion k t0 t1 body rest =>
      match k with
      | KLoop => report true body ++ [Count (iterations body)]
      | KIter => report inl body ++ (if inl then [Duration (t1 - t0)] else [])
      | KOther => report inl body
      end ++ report inl rest
  end.
(* iterations of one loop are not nested in each other *)
Fixpoint proper (p : prog) : Prop :=
  match p with
  | PNil => True
  | PRegion k _ _ body rest => (k = KIter -> iterations body = 0) /\ proper body /\ proper rest
  end.
(* the rest of a program that is inside of regions already: pieces, separated by the ends of the open regions *)
Fixpoint inside (l : list (prog * lkind * N)) : list sev :=
  match l with [] => [] | (p, k, now) :: r => events p ++ SEnd k now :: inside r end.
(* the beginning of a program: pieces before, between and in open regions.  The loops that are open, innermost first, with
   the number of iterations they have begun so far *)
Fixpoint upto (l : list (prog * lkind * N)) (last : prog) : list sev :=
  match l with [] => events last | (p, k, now) :: r => events p ++ SBegin k now :: upto r last end.
Definition bump (n : N) (l : list N) : list N := match l with x :: r => (x + n) :: r | [] => [] end.
Fixpoint open_loops (cur : list N) (l : list (prog * lkind * N)) (last : prog) : list N :=
  match l with
  | [] => bump (iterations last) cur
  | (p, k, _) :: r =>
      let c1 := bump (iterations p) cur in
      open_loops (match k with KLoop => 0 :: c1 | KIter => bump 1 c1 | KOther => c1 end) r last
  end.
