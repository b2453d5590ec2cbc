(* What a user of the allocation tracker expects, in terms of a plain list of live allocations. *)
From Verif Require Import Base SplayModel SplaySpec AllocModel.
Open Scope N_scope.

(* the allocations the service knows *)
Definition live (s : asvc) (a : ainf) : Prop := held (al_tree s) a.
Definition covers (a : ainf) (addr : N) : Prop := ai_start a <= addr /\ addr < ai_start a + ai_size a.
(* live allocations do not overlap and do not reach the end of the address space *)
Definition disjoint (s : asvc) : Prop :=
  (forall a, live s a -> ai_start a + ai_size a < W64) /\
  (forall a b, live s a -> live s b -> ai_start a < ai_start b -> ai_start a + ai_size a <= ai_start b).
(* the element size is a positive size_t *)
Definition elem_ok (o : aop) : Prop := match o with ATrackA _ elem _ => elem <> 0 /\ elem < W64 | _ => True end.
Definition nsum (l : list N) : N := fold_right N.add 0 l.
(* no thread tracks an address that is still tracked: an allocation enters the tree only if its address
   is not live there *)
Fixpoint fresh_tracks (s : asvc) (l : list aop) : Prop :=
  match l with
  | [] => True
  | o :: r =>
      (match o with
       | ATrackB k => forall i a, nth_error (al_pins s) k = Some i -> live s a -> ai_start a <> ai_start i
       | _ => True end) /\
      match al_step s o with Some (_, s1) => fresh_tracks s1 r | None => True end
  end.
(* the values of the counter of active memory during a run *)
Fixpoint actives (s : asvc) (l : list aop) : list N :=
  match l with
  | [] => []
  | o :: r => match al_step s o with Some (_, s1) => al_active s1 :: actives s1 r | None => [] end
  end.
Definition is_record (o : aop) : bool := match o with ARecord => true | _ => false end.
(* total size of everything tracked in a history *)
Definition tracked_total (l : list aop) : N :=
  nsum (flat_map (fun o => match o with ATrackA _ elem dims => [total_size elem dims] | _ => [] end) l).
Definition max_of (a : N) (l : list N) : N := fold_left N.max l a.
