(* What the record at the end of a communication region should have: the messages since the region began, in terms of
   MsgTraceSpec's messages. *)
From Verif Require Import Base MsgTraceModel MsgTraceSpec MsgPatModel.
From Coq Require Import ZArith.
Open Scope Z_scope.

Definition sent (ms : list msg) : list (Z * Z) := flat_map (fun m => match m with MSent _ dst _ b => [(dst, b)] | _ => [] end) ms.
Definition received (ms : list msg) : list (Z * Z) := flat_map (fun m => match m with MReceived _ src _ b => [(src, b)] | _ => [] end) ms.
(* the bytes of the collective operations, 0 for barriers *)
Definition collective (ms : list msg) : list Z := flat_map (fun m => match m with MColl _ _ b _ => [match b with Some b => b | None => 0 end] | _ => [] end) ms.
Definition number {A} (l : list A) : Z := Z.of_nat (length l).
Definition distinct (l : list Z) : Z := number (nodup Z.eq_dec l).
Definition totals_of (ms : list msg) : totals :=
  mktot (number (sent ms)) (number (received ms)) (number (collective ms)) (distinct (map fst (sent ms))) (distinct (map fst (received ms)))
        (zsum (map snd (received ms))) (zsum (map snd (sent ms))) (zsum (collective ms)).
(* every value fits into int *)
Definition fits (t : totals) : Prop := Forall int_ok [o_sends t; o_recvs t; o_colls t; o_rsize t; o_ssize t; o_csize t].

(* an open region: the messages since its begin, and whether no other region began since then *)
Definition region : Type := list msg * bool.
Section SPEC.
Context (tysz : Z -> Z).
(* the regions as they end, innermost first *)
Fixpoint regions (w : world) (open : list region) (xs : list pcall) : list region :=
  match xs with
  | [] => []
  | Mpi x :: xs => let (w1, m) := mpi tysz w x in regions w1 (map (fun r => (fst r ++ m, snd r)) open) xs
  | RegionBegin :: xs => regions w (([], true) :: map (fun r => (fst r, false)) open) xs
  | RegionEnd :: xs => match open with r :: open => r :: regions w open xs | [] => regions w [] xs end
  end.
(* calls as in C83, without its conditions on message sizes and communicator handles; every end has its begin *)
Definition plain_pat (w : world) (x : call) : Prop :=
  match x with
  | CommNew _ _ => True
  | SendInit _ _ _ d _ _ => d <> MPI_PROC_NULL
  | Scatterv counts displs _ _ _ => zsum displs = zsum counts
  | Alltoall _ _ _ | Alltoallv _ _ _ => True
  | _ => plain_call tysz w x
  end.
Fixpoint proper_pat (w : world) (depth : nat) (xs : list pcall) : Prop :=
  match xs with
  | [] => True
  | Mpi x :: xs => legal tysz w x /\ plain_pat w x /\ proper_pat (fst (mpi tysz w x)) depth xs
  | RegionBegin :: xs => proper_pat w (S depth) xs
  | RegionEnd :: xs => match depth with O => False | S d => proper_pat w d xs end
  end.
End SPEC.
