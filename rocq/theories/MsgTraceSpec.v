(* What MPI message tracing should record: the messages of the process, in terms of MPI's own notions
   (requests that are active or not, communicators with an identity), not of the tracer's tables. *)
From Verif Require Import Base MsgTraceModel.
From Coq Require Import ZArith.
Open Scope Z_scope.

(* a request: receive or send; persistent; active (started and not complete); for sends peer, tag and
   bytes; for receives the element type *)
Record req := mkreq { rq_recv : bool; rq_pers : bool; rq_active : bool; rq_peer : Z; rq_tag : Z; rq_bytes : Z; rq_ty : Z; rq_comm : comm }.
(* what MPI knows: the valid communicator handles, the communicator handles ever used, the live requests *)
Record world := mkw { w_comms : list (Z * comm); w_old : list (Z * nat); w_reqs : list (Z * req) }.
(* messages: sent / received bytes with peer, tag and communicator; collective operations with the bytes this
   process contributes and the root *)
Inductive msg :=
| MSent (cm : comm) (dst tag bytes : Z)
| MReceived (cm : comm) (src tag bytes : Z)
| MColl (cm : comm) (k : ckind) (bytes root : option Z).

Section SPEC.
Context (tysz : Z -> Z).
(* a message to or from MPI_PROC_NULL is none *)
Definition real (peer : Z) (m : msg) : list msg := if peer =? MPI_PROC_NULL then [] else [m].
Definition bytes (ty count : Z) : Z := tysz ty * count.
Definition with_comm (w : world) (c : Z) (f : comm -> list msg) : list msg := match find c (w_comms w) with Some cm => f cm | None => [] end.
Definition with_reqs (w : world) (l : list (Z * req)) : world := mkw (w_comms w) (w_old w) l.
Definition new_req (w : world) (h c : Z) (r : comm -> req) : world := match find c (w_comms w) with Some cm => with_reqs w (put h (r cm) (w_reqs w)) | None => w end.
(* request h completes with status st: an active receive is a received message; the request becomes inactive
   if it is persistent and is released otherwise.  MPI_REQUEST_NULL and inactive requests: nothing *)
Definition done1 (w : world) (h : Z) (st : status) : world * list msg :=
  match find h (w_reqs w) with
  | Some r => (with_reqs w (if rq_pers r then put h (mkreq (rq_recv r) (rq_pers r) false (rq_peer r) (rq_tag r) (rq_bytes r) (rq_ty r) (rq_comm r)) (w_reqs w) else del h (w_reqs w)),
               if rq_recv r && rq_active r then real (st_src st) (MReceived (rq_comm r) (st_src st) (st_tag st) (st_bytes st)) else [])
  | None => (w, [])
  end.
Fixpoint done (w : world) (l : list (Z * status)) : world * list msg :=
  match l with
  | [] => (w, [])
  | (h, st) :: l => let (w1, m1) := done1 w h st in let (w2, m2) := done w1 l in (w2, m1 ++ m2)
  end.
Fixpoint started (w : world) (hs : list Z) : world * list msg :=
  match hs with
  | [] => (w, [])
  | h :: hs =>
      let '(w1, m1) := match find h (w_reqs w) with
                       | Some r => (with_reqs w (put h (mkreq (rq_recv r) (rq_pers r) true (rq_peer r) (rq_tag r) (rq_bytes r) (rq_ty r) (rq_comm r)) (w_reqs w)),
                                    if rq_recv r then [] else real (rq_peer r) (MSent (rq_comm r) (rq_peer r) (rq_tag r) (rq_bytes r)))
                       | None => (w, []) end in
      let (w2, m2) := started w1 hs in (w2, m1 ++ m2)
  end.
(* the requests a call completes, each with its status, as MPI defines it: Waitsome's i-th status belongs to
   its i-th index *)
Definition completed (x : call) : list (Z * status) :=
  match x with
  | Wait h st => [(h, st)]
  | Waitall hs sts => combine hs sts
  | Waitany hs (Some i) st => [(nth i hs 0, st)]
  | Waitsome hs idx sts => combine (map (fun i => nth i hs 0) idx) sts
  | Test h true st => [(h, st)]
  | Testall hs true sts => combine hs sts
  | Testany hs true (Some i) st => [(nth i hs 0, st)]
  | _ => []
  end.
Definition mpi (w : world) (x : call) : world * list msg :=
  match x with
  | Send count ty dest tag c => (w, with_comm w c (fun cm => real dest (MSent cm dest tag (bytes ty count))))
  | Isend h count ty dest tag c => (new_req w h c (mkreq false false true dest tag (bytes ty count) ty), with_comm w c (fun cm => real dest (MSent cm dest tag (bytes ty count))))
  | SendInit h count ty dest tag c => (new_req w h c (mkreq false true false dest tag (bytes ty count) ty), [])
  | Recv ty c st => (w, with_comm w c (fun cm => real (st_src st) (MReceived cm (st_src st) (st_tag st) (st_bytes st))))
  | Sendrecv scount sty dest stag rty c st => (w, with_comm w c (fun cm => real dest (MSent cm dest stag (bytes sty scount)) ++ real (st_src st) (MReceived cm (st_src st) (st_tag st) (st_bytes st))))
  | Irecv h ty c => (new_req w h c (mkreq true false true 0 0 0 ty), [])
  | RecvInit h ty c => (new_req w h c (mkreq true true false 0 0 0 ty), [])
  | Start hs => started w hs
  | Wait _ _ | Waitall _ _ | Waitany _ _ _ | Waitsome _ _ _ | Test _ _ _ | Testall _ _ _ | Testany _ _ _ _ => done w (completed x)
  | ReqFree h => (with_reqs w (del h (w_reqs w)), [])
  | CommNew c cm => (mkw (put c cm (w_comms w)) ((c, cm_uid cm) :: w_old w) (w_reqs w), [])
  | CommFree c => (mkw (del c (w_comms w)) (w_old w) (w_reqs w), [])
  | Barrier c => (w, with_comm w c (fun cm => [MColl cm KBarrier None None]))
  | OneToAll count ty root c => (w, with_comm w c (fun cm => [MColl cm K12N (Some (if cm_rank cm =? root then bytes ty count else 0)) (Some root)]))
  | Scatterv counts _ ty root c => (w, with_comm w c (fun cm => [MColl cm K12N (Some (if cm_rank cm =? root then bytes ty (zsum counts) else 0)) (Some root)]))
  | AllToOne count ty root c => (w, with_comm w c (fun cm => [MColl cm KN21 (Some (if cm_rank cm =? root then 0 else bytes ty count)) (Some root)]))
  | AllToAll count ty c => (w, with_comm w c (fun cm => [MColl cm KNxN (Some (bytes ty count)) None]))
  | ReduceScatter counts ty c => (w, with_comm w c (fun cm => [MColl cm KNxN (Some (bytes ty (nth (Z.to_nat (cm_rank cm)) counts 0))) None]))
  | Alltoall count ty c => (w, with_comm w c (fun cm => [MColl cm KNxN (Some (bytes ty (cm_size cm * count))) None]))
  | Alltoallv counts ty c => (w, with_comm w c (fun cm => [MColl cm KNxN (Some (bytes ty (zsum counts))) None]))
  | SetActive _ => (w, [])
  end.
Fixpoint messages (w : world) (xs : list call) : list msg :=
  match xs with [] => [] | x :: xs => let (w1, m) := mpi w x in m ++ messages w1 xs end.

(* ---------- calls a correct program and library make ---------- *)
Definition int_ok (z : Z) : Prop := -2147483648 <= z < 2147483648.
Definition known (w : world) (c : Z) : Prop := find c (w_comms w) <> None.
Definition fresh (w : world) (h : Z) : Prop := find h (w_reqs w) = None.
(* a received message is a whole number of elements of the receive type *)
Definition whole (ty : Z) (st : status) : Prop := 0 <= tysz ty /\ (tysz ty = 0 -> st_bytes st = 0) /\ (tysz ty <> 0 -> st_bytes st mod tysz ty = 0).
(* one after the other, the completions of l are of active requests (each receive getting whole elements) or of
   no request at all *)
Fixpoint completions (ok : req -> status -> Prop) (w : world) (l : list (Z * status)) : Prop :=
  match l with
  | [] => True
  | (h, st) :: l => (forall r, find h (w_reqs w) = Some r -> rq_recv r = true -> ok r st) /\ completions ok (fst (done1 w h st)) l
  end.
Definition legal (w : world) (x : call) : Prop :=
  match x with
  | Send _ _ _ _ c | Barrier c | OneToAll _ _ _ c | AllToOne _ _ _ c | AllToAll _ _ c | Alltoall _ _ c => known w c
  | Isend h _ _ _ _ c | SendInit h _ _ _ _ c | Irecv h _ c | RecvInit h _ c => known w c /\ fresh w h
  | Recv ty c st | Sendrecv _ _ _ _ ty c st => known w c /\ whole ty st
  | Start hs => Forall (fun h => exists r, find h (w_reqs w) = Some r /\ rq_pers r = true) hs
  | Waitall hs sts | Testall hs _ sts => length hs = length sts
  | Waitany hs (Some i) _ | Testany hs _ (Some i) _ => (i < length hs)%nat
  | Waitsome hs idx sts => Forall (fun i => (i < length hs)%nat) idx /\ length hs = length sts /\ (length idx <= length hs)%nat
  | Scatterv counts displs _ _ c => exists cm, find c (w_comms w) = Some cm /\ length counts = Z.to_nat (cm_size cm) /\ length displs = length counts
  | Alltoallv counts _ c => exists cm, find c (w_comms w) = Some cm /\ length counts = Z.to_nat (cm_size cm)
  | ReduceScatter counts _ c => exists cm, find c (w_comms w) = Some cm /\ length counts = Z.to_nat (cm_size cm) /\ 0 <= cm_rank cm < cm_size cm
  | CommNew c cm => find c (w_comms w) = None /\ ~ In (cm_uid cm) (map snd (w_old w))
  | _ => True
  end /\ completions (fun r st => whole (rq_ty r) st) w (completed x).
(* ---------- what the tracer needs in addition ---------- *)
Definition plain_call (w : world) (x : call) : Prop :=
  match x with
  (* no messages to MPI_PROC_NULL *)
  | Send _ _ d _ _ | Isend _ _ _ d _ _ => d <> MPI_PROC_NULL
  | SendInit _ count ty d _ _ => d <> MPI_PROC_NULL /\ int_ok (bytes ty count)
  | Recv _ _ st => st_src st <> MPI_PROC_NULL
  | Sendrecv _ _ d _ _ _ st => d <> MPI_PROC_NULL /\ st_src st <> MPI_PROC_NULL
  (* an any-call completes a request *)
  | Waitany (_ :: _) None _ | Testany _ true None _ => False
  (* the statuses are where the tracer looks for them *)
  | Waitsome _ idx sts => map (nth_error sts) idx = map (nth_error sts) (seq 0 (length idx))
  (* the displacements happen to have the same sum as the counts *)
  | Scatterv counts displs _ _ _ => zsum displs = zsum counts /\ int_ok (zsum counts)
  | Alltoallv counts _ _ => int_ok (zsum counts)
  | Alltoall count _ c => forall cm, find c (w_comms w) = Some cm -> int_ok (cm_size cm * count)
  (* communicator handles are not used again *)
  | CommNew c _ => ~ In c (map fst (w_old w))
  (* the channel stays active *)
  | SetActive b => b = true
  | _ => True
  end /\
  (* no completion call names an inactive (persistent) receive request, nothing is received from MPI_PROC_NULL *)
  completions (fun r st => rq_active r = true /\ st_src st <> MPI_PROC_NULL) w (completed x).
(* the sizes fit into int *)
Definition small (m : msg) : Prop :=
  match m with MSent _ _ _ b | MReceived _ _ _ b | MColl _ _ (Some b) _ => int_ok b | MColl _ _ None _ => True end.
Fixpoint proper (w : world) (xs : list call) : Prop :=
  match xs with
  | [] => True
  | x :: xs => legal w x /\ plain_call w x /\ Forall small (snd (mpi w x)) /\ proper (fst (mpi w x)) xs
  end.
Fixpoint legal_all (w : world) (xs : list call) : Prop :=
  match xs with [] => True | x :: xs => legal w x /\ legal_all (fst (mpi w x)) xs end.
End SPEC.
(* the communicators when tracing starts: MPI_COMM_WORLD, MPI_COMM_SELF, ...; different handles are different
   communicators *)
Definition start_world (comms : list (Z * comm)) : world := mkw comms (map (fun p => (fst p, cm_uid (snd p))) comms) [].
Definition start_ok (comms : list (Z * comm)) : Prop := NoDup (map fst comms) /\ NoDup (map (fun p => cm_uid (snd p)) comms).
(* an event shows a message: same kind, peer, tag and size, and a node that shows the communicator's size and
   members and its number in L, a one-to-one numbering of communicators *)
Definition shows_comm (L : list (nat * nat)) (cm : comm) (n : cnode) : Prop := cn_size n = cm_size cm /\ cn_ranks n = cm_ranks cm /\ In (cm_uid cm, cn_id n) L.
Inductive shows (L : list (nat * nat)) : msg -> event -> Prop :=
| sh_sent cm n p t b : shows_comm L cm n -> shows L (MSent cm p t b) (ESend n p t b)
| sh_received cm n p t b : shows_comm L cm n -> shows L (MReceived cm p t b) (ERecv n p t b)
| sh_coll cm n k b r : shows_comm L cm n -> shows L (MColl cm k b r) (EColl n k b r).
(* the trace of the calls shows the messages of the process, in order, each once *)
Definition traced_ok (tysz : Z -> Z) (comms : list (Z * comm)) (xs : list call) : Prop :=
  exists t evs L, run tysz comms tr_init xs = Some (t, evs) /\ NoDup (map fst L) /\ NoDup (map snd L) /\
    Forall2 (shows L) (messages tysz (start_world comms) xs) evs.
