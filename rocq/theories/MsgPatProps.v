(* C84: MPI message pattern analysis: the record at the end of a communication region *)
From Verif Require Import Base MsgTraceModel MsgTraceSpec MsgTraceProofs MsgTraceProofs2 MsgTraceProps MsgPatModel MsgPatSpec MsgPatProofs.
From Coq Require Import ZArith.
Open Scope Z_scope.

(* For every sequence of MPI calls and communication regions, every region end gives one record; the record of a
   region in which no other region began has the numbers of messages sent, messages received and collective
   operations since the region began, the numbers of different destination and source ranks, and the bytes, if
   they fit into int *)
Theorem C84_regions : forall tysz comms xs, proper_pat tysz (start_world comms) 0 xs ->
  exists p recs, prun tysz comms pat0 xs = Some (p, recs) /\
    Forall2 (fun r o => snd r = true -> fits (totals_of (fst r)) -> o = totals_of (fst r)) (regions tysz (start_world comms) [] xs) recs.
Proof.
  intros tysz comms xs P. apply (prun_ok tysz xs (start_world comms) pat0 []); auto.
  - split; [|reflexivity]. split; cbn [start_world w_reqs pat0 p_reqs find]; [reflexivity|discriminate].
  - split; [exact Logic.I|constructor].
Qed.

Ltac proper_pat_now := unfold proper_pat, plain_pat, start_world, x_comms; proper_now.
Definition y_calls : list pcall :=
  map Mpi [Isend 100 5 4 2 7 10; Irecv 101 8 10] ++ [RegionBegin] ++
  map Mpi [Waitall [100; 101] [x_st0; mkst 3 9 16]; SendInit 102 3 4 2 8 10; RecvInit 103 4 10; Start [102; 103]; Wait 103 (mkst 3 5 12); Wait 102 x_st0; Start [102]] ++ [RegionEnd] ++
  map Mpi [Send 9 4 0 0 10] ++ [RegionBegin] ++
  map Mpi [Alltoallv [1; 0; 2; 3] 4 10; Barrier 10; Send 1 4 2 3 10; Sendrecv 2 4 0 1 4 10 (mkst 0 1 8)] ++ [RegionEnd].
Theorem C84_ex : proper_pat x_ty (start_world x_comms) 0 y_calls /\
  map (fun r => (totals_of (fst r), snd r)) (regions x_ty (start_world x_comms) [] y_calls) = [(mktot 2 2 0 1 1 28 24 0, true); (mktot 2 1 2 2 1 8 12 24, true)] /\
  fits (mktot 2 2 0 1 1 28 24 0) /\ fits (mktot 2 1 2 2 1 8 12 24) /\
  exists p, prun x_ty x_comms pat0 y_calls = Some (p, [mktot 2 2 0 1 1 28 24 0; mktot 2 1 2 2 1 8 12 24]).
Proof.
  split; [|split; [|split; [|split]]].
  - unfold y_calls. cbn [map app]. proper_pat_now.
  - vm_compute. reflexivity.
  - repeat constructor; cbn; lia.
  - repeat constructor; cbn; lia.
  - eexists. vm_compute. reflexivity.
Qed.

(* ---------- where it fails ---------- *)
(* a region that contains another region: its record has only what came after the inner region began *)
Definition y_nested : list pcall := [RegionBegin] ++ map Mpi [Send 1 4 2 3 10; Send 1 4 3 3 10] ++ [RegionBegin; Mpi (Send 1 4 0 3 10); RegionEnd; RegionEnd].
Theorem C84_nested_refuted : proper_pat x_ty (start_world x_comms) 0 y_nested /\
  map (fun r => totals_of (fst r)) (regions x_ty (start_world x_comms) [] y_nested) = [mktot 1 0 0 1 0 0 4 0; mktot 3 0 0 3 0 0 12 0] /\
  exists p, prun x_ty x_comms pat0 y_nested = Some (p, [mktot 1 0 0 1 0 0 4 0; mktot 1 0 0 1 0 0 4 0]).
Proof. split; [|split]; [unfold y_nested; cbn [map app]; proper_pat_now|vm_compute; reflexivity|eexists; vm_compute; reflexivity]. Qed.
(* more than 2 GiB in a region: the sum is negative *)
Definition y_large : list pcall := [RegionBegin; Mpi (Send 300000000 4 2 3 10); Mpi (Send 300000000 4 2 3 10); RegionEnd].
Theorem C84_large_refuted : proper_pat x_ty (start_world x_comms) 0 y_large /\
  map (fun r => totals_of (fst r)) (regions x_ty (start_world x_comms) [] y_large) = [mktot 2 0 0 1 0 0 2400000000 0] /\
  exists p, prun x_ty x_comms pat0 y_large = Some (p, [mktot 2 0 0 1 0 0 (-1894967296) 0]).
Proof. split; [|split]; [unfold y_large; proper_pat_now|vm_compute; reflexivity|eexists; vm_compute; reflexivity]. Qed.
(* the exceptions of C83 apply: a message to MPI_PROC_NULL and the completion of an inactive receive are counted *)
Definition y_null : list pcall := [RegionBegin; Mpi (Send 3 4 MPI_PROC_NULL 7 10); Mpi (RecvInit 100 4 10); Mpi (Wait 100 x_st0); RegionEnd].
Theorem C84_null_refuted :
  legal_all x_ty (start_world x_comms) [Send 3 4 MPI_PROC_NULL 7 10; RecvInit 100 4 10; Wait 100 x_st0] /\
  map (fun r => totals_of (fst r)) (regions x_ty (start_world x_comms) [] y_null) = [mktot 0 0 0 0 0 0 0 0] /\
  exists p, prun x_ty x_comms pat0 y_null = Some (p, [mktot 1 1 0 1 1 0 12 0]).
Proof. split; [|split]; [unfold legal_all; proper_now|vm_compute; reflexivity|eexists; vm_compute; reflexivity]. Qed.
