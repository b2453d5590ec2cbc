(* Specification in terms of the log of events *)
From Verif Require Import Base BufModel.

(* records saved by thread u; records of thread u that a flush wrote *)
Definition saved (u : N) (l : list ev) : list N :=
  flat_map (fun e => match e with ESaved v r => if v =? u then [r] else [] | _ => [] end) l.
Definition written (u : N) (l : list ev) : list N :=
  flat_map (fun e => match e with EOut v r => if v =? u then [r] else [] | _ => [] end) l.
(* records of thread u that were saved and not removed since *)
Definition keep (u : N) (acc : list N) (e : ev) : list N :=
  match e with
  | ESaved v r => if v =? u then acc ++ [r] else acc
  | EReset v | EFree v => if v =? u then [] else acc
  | _ => acc
  end.
Definition content (u : N) (l : list ev) : list N := fold_left (keep u) l [].
(* no flush or clear begins or ends in l *)
Definition is_mark (e : ev) : bool := match e with EBegin _ _ | EEnd _ => true | _ => false end.
Definition quiet (l : list ev) : Prop := forallb (fun e => negb (is_mark e)) l = true.
(* flushes and clears do not overlap: begins and ends alternate *)
Fixpoint serial_from (open : option N) (l : list ev) : Prop :=
  match l with
  | [] => True
  | EBegin t _ :: r => open = None /\ serial_from (Some t) r
  | EEnd t :: r => open = Some t /\ serial_from None r
  | _ :: r => serial_from open r
  end.
Definition serial (l : list ev) : Prop := serial_from None l.
(* a flush or clear is in progress after l *)
Definition busy (l : list ev) : Prop := exists l1 t clr l2, l = l1 ++ EBegin t clr :: l2 /\ quiet l2.
Definition prefix (a b : list N) : Prop := exists c, b = a ++ c.

(* records thread t handed over; records of thread t saved or dropped; number of dropped records *)
Definition started (t : N) (l : list ev) : list N :=
  flat_map (fun e => match e with EStart v r => if v =? t then [r] else [] | _ => [] end) l.
Definition handled (t : N) (l : list ev) : list N :=
  flat_map (fun e => match e with ESaved v r | EDropped v r => if v =? t then [r] else [] | _ => [] end) l.
Definition drops (l : list ev) : nat := length (filter (fun e => match e with EDropped _ _ => true | _ => false end) l).
(* the record of a call in progress *)
Definition pending (p : pc) : list N := match p with Link _ (Some r) | Loaded _ r | Save _ r => [r] | _ => [] end.
