(* C83: MPI message tracing records the messages of the process *)
From Verif Require Import Base MsgTraceModel MsgTraceSpec MsgTraceProofs MsgTraceProofs2.
From Coq Require Import ZArith.
Open Scope Z_scope.

(* For every sequence of MPI calls (with any results of the library) that is legal and has the properties
   plain_call lists, the tracer pushes one event per message and collective operation, in order, with the
   right peer, tag, size, root and communicator, and no other event *)
Theorem C83_traced : forall tysz comms xs, start_ok comms -> proper tysz (start_world comms) xs -> traced_ok tysz comms xs.
Proof.
  intros tysz comms xs H P. destruct (run_ok tysz xs _ _ _ (start_inv comms H) P) as (t & evs & L & E & _ & I & F).
  exists t, evs, L. split; [exact E|]. split; [exact (i_u _ _ _ I)|]. split; [exact (i_n _ _ _ I)|exact F].
Qed.

(* data types: handle = size *)
Definition x_ty (ty : Z) : Z := ty.
Definition x_world : comm := mkcomm 0 4 None 1.
Definition x_comms : list (Z * comm) := [(10, x_world); (11, mkcomm 1 1 (Some [1]) 0)].
Definition x_st0 : status := mkst (-1) (-1) 0.
Definition x_calls : list call :=
  [ Isend 100 5 4 2 7 10; Irecv 101 8 10; Waitall [100; 101] [x_st0; mkst 3 9 16];
    SendInit 102 3 4 2 8 10; RecvInit 103 4 10; Start [102; 103]; Waitsome [102; 103; 0] [0%nat; 1%nat] [x_st0; mkst 2 5 12; x_st0];
    CommNew 12 (mkcomm 7 2 (Some [1; 3]) 0); OneToAll 10 8 0 12; AllToOne 6 8 0 10; Start [103]; Waitany [103; 102] (Some 0%nat) (mkst 0 6 4);
    Alltoallv [1; 0; 2; 3] 4 10; ReqFree 102; Send 1 4 1 3 12; CommFree 12; Sendrecv 2 4 0 1 4 10 (mkst 0 1 8) ].
Ltac proper_now := repeat (first [ exact Logic.I | match goal with
  | |- _ /\ _ => split
  | |- Forall _ _ => constructor
  | |- forall _, _ => intro
  | |- ~ _ => intro
  | |- exists _, _ => eexists
  | H : _ \/ _ |- _ => destruct H
  | H : Some _ = Some ?r |- _ => injection H as <-
  end | progress unfold legal, plain_call, known, fresh, whole, int_ok, bytes, x_ty in * | progress cbn in * | lia | discriminate | congruence | reflexivity ]).
Lemma x_start : start_ok x_comms.
Proof. split; repeat constructor; cbn; intuition discriminate. Qed.
Theorem C83_ex : start_ok x_comms /\ proper x_ty (start_world x_comms) x_calls /\
  exists t, run x_ty x_comms tr_init x_calls = Some (t,
   let w := mkcn 4 None 2 in let c := mkcn 2 (Some [1; 3]) 3 in
   [ ESend w 2 7 20; ERecv w 3 9 16; ESend w 2 8 12; ERecv w 2 5 12; EColl c K12N (Some 80) (Some 0); EColl w KN21 (Some 48) (Some 0);
     ERecv w 0 6 4; EColl w KNxN (Some 24) None; ESend c 1 3 4; ESend w 0 1 8; ERecv w 0 1 8 ]).
Proof.
  split; [exact x_start|]. split; [|eexists; vm_compute; reflexivity].
  unfold x_calls. proper_now.
Qed.

(* ---------- where it fails: legal calls whose trace does not show the messages ---------- *)
Ltac not_ok := intros (t & evs & L & E & _ & _ & F); vm_compute in E; first [discriminate E | injection E as _ <-; vm_compute in F;
  repeat match type of F with Forall2 _ (_ :: _) (_ :: _) => let S := fresh in inversion F as [|? ? ? ? S F']; clear F; rename F' into F; inversion S; subst; clear S end; inversion F].
Definition wrong (comms : list (Z * comm)) (xs : list call) : Prop := start_ok comms /\ legal_all x_ty (start_world comms) xs /\ ~ traced_ok x_ty comms xs.
Ltac wrong_now := split; [exact x_start|split; [unfold legal_all; proper_now|not_ok]].

(* MPI_Waitsome: the i-th status belongs to the request at indices[i]; the tracer takes the status at indices[i]:
   here the second receive completes, and the event has the source, tag and size found in the second status *)
Theorem C83_waitsome_refuted :
  wrong x_comms [Irecv 100 4 10; Irecv 101 4 10; Waitsome [100; 101] [1%nat] [mkst 2 7 8; x_st0]].
Proof. wrong_now. Qed.
(* MPI_Waitany / Testany with no active request: index MPI_UNDEFINED (-32766) is used as an array index *)
Theorem C83_waitany_refuted :
  wrong x_comms [SendInit 100 1 4 2 7 10; Waitany [100] None x_st0] /\
  run x_ty x_comms tr_init [SendInit 100 1 4 2 7 10; Waitany [100] None x_st0] = None /\
  run x_ty x_comms tr_init [SendInit 100 1 4 2 7 10; Testany [100] true None x_st0] = None.
Proof. split; [wrong_now|]. split; vm_compute; reflexivity. Qed.
(* waiting for an inactive persistent receive returns at once with an empty status; an event is recorded *)
Theorem C83_inactive_refuted :
  wrong x_comms [RecvInit 100 4 10; Wait 100 x_st0] /\
  messages x_ty (start_world x_comms) [RecvInit 100 4 10; Wait 100 x_st0] = [] /\
  exists t, run x_ty x_comms tr_init [RecvInit 100 4 10; Wait 100 x_st0] = Some (t, [ERecv (mkcn 4 None 2) (-1) (-1) 0]).
Proof. split; [wrong_now|]. split; [vm_compute; reflexivity|eexists; vm_compute; reflexivity]. Qed.
(* a send to MPI_PROC_NULL sends nothing; an event is recorded *)
Theorem C83_proc_null_refuted : wrong x_comms [Send 3 4 MPI_PROC_NULL 7 10].
Proof. wrong_now. Qed.
(* MPI_Scatterv: the root records the sum of the displacements instead of the counts *)
Theorem C83_scatterv_refuted :
  wrong x_comms [Scatterv [5; 5; 5; 5] [0; 5; 10; 15] 4 1 10] /\
  messages x_ty (start_world x_comms) [Scatterv [5; 5; 5; 5] [0; 5; 10; 15] 4 1 10] = [MColl x_world K12N (Some 80) (Some 1)] /\
  exists t, run x_ty x_comms tr_init [Scatterv [5; 5; 5; 5] [0; 5; 10; 15] 4 1 10] = Some (t, [EColl (mkcn 4 None 2) K12N (Some 120) (Some 1)]).
Proof. split; [wrong_now|]. split; [vm_compute; reflexivity|eexists; vm_compute; reflexivity]. Qed.
(* a communicator is freed and its handle is used for another one: events name the old communicator *)
Definition x_reuse : list call :=
  [CommNew 12 (mkcomm 7 2 (Some [1; 3]) 0); Barrier 12; CommFree 12; CommNew 12 (mkcomm 8 3 (Some [0; 1; 2]) 1); Send 1 4 2 9 12].
Theorem C83_comm_reuse_refuted :
  wrong x_comms x_reuse /\
  exists t, let old := mkcn 2 (Some [1; 3]) 2 in run x_ty x_comms tr_init x_reuse = Some (t, [EColl old KBarrier None None; ESend old 2 9 4]).
Proof.
  split; [split; [exact x_start|split; [unfold x_reuse, legal_all; proper_now|]]|eexists; vm_compute; reflexivity].
  intros (t & evs & L & E & _ & _ & F); vm_compute in E. injection E as _ <-. vm_compute in F.
  inversion F as [|? ? ? ? _ F1]. inversion F1 as [|? ? ? ? S _]. inversion S as [? ? ? ? ? (S1 & _)| |]. discriminate S1.
Qed.
(* the size of a message of 2 GiB is negative *)
Theorem C83_size_refuted :
  wrong x_comms [Send 536870912 4 2 7 10] /\
  exists t, run x_ty x_comms tr_init [Send 536870912 4 2 7 10] = Some (t, [ESend (mkcn 4 None 2) 2 7 (-2147483648)]).
Proof. split; [wrong_now|]. eexists. vm_compute. reflexivity. Qed.
(* a request completed while the channel was inactive stays in the tracer's table: a later send request with
   the same handle is recorded as a receive too *)
Definition x_off : list call := [Irecv 100 4 10; SetActive false; Wait 100 (mkst 2 7 8); SetActive true].
Definition x_on : list call := [Isend 100 1 4 2 9 10; Wait 100 x_st0].
Theorem C83_inactive_channel_refuted :
  legal_all x_ty (start_world x_comms) (x_off ++ x_on) /\
  messages x_ty (fold_left (fun w x => fst (mpi x_ty w x)) x_off (start_world x_comms)) x_on = [MSent x_world 2 9 4] /\
  exists t t', run x_ty x_comms tr_init x_off = Some (t, []) /\
    run x_ty x_comms t x_on = Some (t', [ESend (mkcn 4 None 2) 2 9 4; ERecv (mkcn 4 None 2) (-1) (-1) 0]).
Proof.
  split; [unfold x_off, x_on; cbn [app]; unfold legal_all; proper_now|].
  split; [vm_compute; reflexivity|].
  eexists _, _. split; [vm_compute; reflexivity|]. vm_compute. reflexivity.
Qed.
