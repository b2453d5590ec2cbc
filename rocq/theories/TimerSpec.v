(* Specification vocabulary for the timer: who did what when, without timer stacks. *)
From Verif Require Import Base TimerModel.
Open Scope N_scope.

Definition ev_thread (e : tev) : nat := match e with TThread t => t | TSnap t _ _ _ => t end.
(* values of a kind in the output of one event *)
Definition offsets (o : list tout) : list N := flat_map (fun x => match x with OOffset n => [n] | _ => [] end) o.
Definition durations (o : list tout) : list N := flat_map (fun x => match x with ODuration n => [n] | _ => [] end) o.
Definition inclusives (o : list tout) : list N := flat_map (fun x => match x with OInclusive n => [n] | _ => [] end) o.
Definition nsum (l : list N) : N := fold_right N.add 0 l.

(* the thread is known to the service once something happened on it outside of a signal handler *)
Definition announces (t : nat) (e : tev) : bool :=
  Nat.eqb (ev_thread e) t && match e with TThread _ => true | TSnap _ sg _ _ => negb sg end.
Definition known (t : nat) (l : list tev) : bool := existsb (announces t) l.

(* the begin and end events of attribute a on thread t that the timer gets to see *)
Inductive mark := MB (time : N) | ME (time : N).
Definition mark_of (c : tcfg) (t : nat) (a : N) (e : tev) : list mark :=
  match e with
  | TSnap u false n (Some p) =>
      if Nat.eqb u t then
        match attr_get p (tc_begin c), attr_get p (tc_end c) with
        | Some b, _ => if b =? a then [MB n] else []
        | None, Some b => if b =? a then [ME n] else []
        | None, None => []
        end
      else []
  | _ => []
  end.
Definition marks (c : tcfg) (t : nat) (a : N) (l : list tev) : list mark := flat_map (mark_of c t a) l.
(* properly nested begin/end pairs *)
Inductive balanced : list mark -> Prop :=
| bal_nil : balanced []
| bal_pair : forall x y l1 l2, balanced l1 -> balanced l2 -> balanced (MB x :: l1 ++ ME y :: l2).
(* after history h, the innermost open begin event happened at time b *)
Definition open_begin (h : list mark) (b : N) : Prop := exists h1 h2, h = h1 ++ MB b :: h2 /\ balanced h2.

(* what the service does with event e after history l *)
Definition out_after (c : tcfg) (l : list tev) (e : tev) : list tout := fst (tstep c (snd (trun c ts_init l)) e).
Definition errors_after (c : tcfg) (l : list tev) : N := ts_errs (snd (trun c ts_init l)).
(* the outputs of thread t's events in a history *)
Fixpoint thread_outs (t : nat) (l : list tev) (os : list (list tout)) : list (list tout) :=
  match l, os with
  | e :: l', o :: os' => if Nat.eqb (ev_thread e) t then o :: thread_outs t l' os' else thread_outs t l' os'
  | _, _ => []
  end.
Definition outs (c : tcfg) (t : nat) (l : list tev) : list (list tout) := thread_outs t l (fst (trun c ts_init l)).
(* durations recorded by thread t, and the offsets of the same snapshots *)
Definition thread_durations (c : tcfg) (t : nat) (l : list tev) : list N := flat_map durations (outs c t l).
Definition timed_offsets (c : tcfg) (t : nat) (l : list tev) : list N :=
  flat_map offsets (filter (fun o => match durations o with [] => false | _ => true end) (outs c t l)).
(* a steady clock: the times are 64-bit numbers that never decrease *)
Definition steady (l : list N) : Prop :=
  Forall (fun n => n < W64) l /\ forall i j x y, (i < j)%nat -> nth_error l i = Some x -> nth_error l j = Some y -> x <= y.
