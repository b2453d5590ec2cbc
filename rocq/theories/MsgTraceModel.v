(* Model of MPI message tracing: src/services/mpiwrap/MpiTracing.cpp and the parts of the MPI wrapper functions
   in src/services/mpiwrap/Wrapper.w that drive it.
   The MPI library is the environment: a call carries what the library returned (request handles, flags,
   indices, statuses).  C++ int is Z; products of ints are reduced to 32 bits (overflow of int is undefined
   behaviour; this is what the compiled code does).  Handles (MPI_Request, MPI_Comm, MPI_Datatype) are numbers.
   One thread; cancelled requests, MPI_Comm_dup and the like appear only as the creation of a communicator.
   Not modelled: error return codes, the mpi.function annotation, the pattern service, other threads. *)
From Verif Require Import Base.
From Coq Require Import ZArith.
Open Scope Z_scope.

Definition i32 (z : Z) : Z := (z + 2147483648) mod 4294967296 - 2147483648.
Definition MPI_UNDEFINED : Z := -32766.
Definition MPI_PROC_NULL : Z := -2.

(* a communicator: an identity (what MPI means by "the same communicator"), its size, the world ranks of its
   members (None if it is identical or congruent to MPI_COMM_WORLD), the rank of this process *)
Record comm := mkcomm { cm_uid : nat; cm_size : Z; cm_ranks : option (list Z); cm_rank : Z }.
(* MPI_Status: source, tag and number of bytes received *)
Record status := mkst { st_src : Z; st_tag : Z; st_bytes : Z }.

(* MPI calls of the process, with the results of the library.  MPI_Sendrecv_replace is Sendrecv with the same
   type twice; Bcast / Scatter, Gather / Gatherv / Reduce, and Scan / Exscan / Allreduce / Allgather(v) pass
   the same arguments to the tracer and are one constructor each. *)
Inductive call :=
| Send (count ty dest tag c : Z)                          (* MPI_Send, Bsend, Rsend, Ssend *)
| Isend (h count ty dest tag c : Z)                       (* MPI_Isend ...: the new request is h *)
| SendInit (h count ty dest tag c : Z)
| Recv (ty c : Z) (st : status)
| Sendrecv (scount sty dest stag rty c : Z) (st : status)
| Irecv (h ty c : Z)
| RecvInit (h ty c : Z)
| Start (hs : list Z)                                     (* MPI_Start, MPI_Startall *)
| Wait (h : Z) (st : status)
| Waitall (hs : list Z) (sts : list status)
| Waitany (hs : list Z) (idx : option nat) (st : status)  (* None: MPI_UNDEFINED *)
| Waitsome (hs : list Z) (idx : list nat) (sts : list status) (* MPI_Waitsome, Testsome: indices and the status array *)
| Test (h : Z) (flag : bool) (st : status)
| Testall (hs : list Z) (flag : bool) (sts : list status)
| Testany (hs : list Z) (flag : bool) (idx : option nat) (st : status)
| ReqFree (h : Z)
| CommNew (c : Z) (cm : comm)                             (* the library creates a communicator with handle c *)
| CommFree (c : Z)
| Barrier (c : Z)
| OneToAll (count ty root c : Z)                          (* MPI_Bcast, MPI_Scatter *)
| Scatterv (counts displs : list Z) (ty root c : Z)
| AllToOne (count ty root c : Z)                          (* MPI_Gather, Gatherv, Reduce *)
| AllToAll (count ty c : Z)                               (* MPI_Scan, Exscan, Allreduce, Allgather, Allgatherv *)
| ReduceScatter (counts : list Z) (ty c : Z)
| Alltoall (count ty c : Z)
| Alltoallv (counts : list Z) (ty c : Z)
| SetActive (b : bool).                                   (* the Caliper channel is activated / deactivated *)

(* the node for a communicator: mpi.comm.size, mpi.comm.is_world or mpi.comm.list, mpi.comm *)
Record cnode := mkcn { cn_size : Z; cn_ranks : option (list Z); cn_id : nat }.
Inductive ckind := KBarrier | KNxN | K12N | KN21.
(* the pushed snapshots: push_send_event, push_recv_event (MpiTracing.cpp:174-184, 220-230), push_coll_event
   (:339-357: size for NxN, size and root for 12N and N21) *)
Inductive event :=
| ESend (n : cnode) (dst tag size : Z)
| ERecv (n : cnode) (src tag size : Z)
| EColl (n : cnode) (k : ckind) (size root : option Z).

(* MpiTracing.cpp:42-54 RequestInfo.  For a non-persistent receive the code leaves size unset; it is not used *)
Record rinfo := mkri { ri_send : bool; ri_pers : bool; ri_target : Z; ri_tag : Z; ri_type : Z; ri_size : Z; ri_node : cnode }.
(* MpiTracing.cpp:56-65: comm_id, comm_map, req_map; and whether the channel is active *)
Record tr := mktr { t_next : nat; t_comms : list (Z * cnode); t_reqs : list (Z * rinfo); t_on : bool }.

(* std::unordered_map find, operator[]=, erase *)
Fixpoint find {A} (k : Z) (l : list (Z * A)) : option A :=
  match l with [] => None | (k', a) :: l => if k' =? k then Some a else find k l end.
Definition del {A} (k : Z) (l : list (Z * A)) : list (Z * A) := filter (fun p => negb (fst p =? k)) l.
Definition put {A} (k : Z) (a : A) (l : list (Z * A)) : list (Z * A) := (k, a) :: del k l.

(* MpiTracing.cpp:114-119 init_mpi: entries for MPI_COMM_WORLD and MPI_COMM_SELF are made (ids 0 and 1) but not
   put into comm_map *)
Definition tr_init : tr := mktr 2 [] [] true.

Section MPI.
(* PMPI_Type_size: datatype handles keep their meaning *)
Context (tysz : Z -> Z).

(* PMPI_Get_count *)
Definition get_count (st : status) (ty : Z) : Z :=
  if tysz ty =? 0 then 0 else if st_bytes st mod tysz ty =? 0 then st_bytes st / tysz ty else MPI_UNDEFINED.

(* MpiTracing.cpp:123-158 make_comm_entry; cm is what the library says about the handle now *)
Definition make_comm_entry (t : tr) (cm : comm) : cnode * tr :=
  (mkcn (cm_size cm) (cm_ranks cm) (t_next t), mktr (S (t_next t)) (t_comms t) (t_reqs t) (t_on t)).
(* MpiTracing.cpp:160-172 lookup_comm *)
Definition lookup_comm (t : tr) (c : Z) (cm : comm) : cnode * tr :=
  match find c (t_comms t) with
  | Some n => (n, t)
  | None => let (n, t1) := make_comm_entry t cm in (n, mktr (t_next t1) (put c n (t_comms t1)) (t_reqs t1) (t_on t1))
  end.
Definition set_req (t : tr) (h : Z) (i : rinfo) : tr := mktr (t_next t) (t_comms t) (put h i (t_reqs t)) (t_on t).
Definition del_req (t : tr) (h : Z) : tr := mktr (t_next t) (t_comms t) (del h (t_reqs t)) (t_on t).
(* MpiTracing.cpp:232-240 handle_recv *)
Definition recv_event (n : cnode) (ty : Z) (st : status) : event := ERecv n (st_src st) (st_tag st) (i32 (tysz ty * get_count st ty)).
(* MpiTracing.cpp:291-306 handle_start *)
Definition start1 (t : tr) (h : Z) : list event :=
  match find h (t_reqs t) with
  | Some i => if ri_send i then [ESend (ri_node i) (ri_target i) (ri_tag i) (ri_size i)] else []
  | None => []
  end.
(* MpiTracing.cpp:308-333 handle_completion, one request *)
Definition complete1 (t : tr) (h : Z) (st : status) : tr * list event :=
  match find h (t_reqs t) with
  | None => (t, [])
  | Some i => (if ri_pers i then t else del_req t h, if ri_send i then [] else [recv_event (ri_node i) (ri_type i) st])
  end.
(* the loop of handle_completion over requests and statuses *)
Fixpoint complete (t : tr) (l : list (Z * status)) : tr * list event :=
  match l with
  | [] => (t, [])
  | (h, st) :: l => let (t1, e1) := complete1 t h st in let (t2, e2) := complete t1 l in (t2, e1 ++ e2)
  end.
(* pointer arithmetic into an array: None is an access outside of it *)
Fixpoint at_all {A} (l : list A) (idx : list nat) : option (list A) :=
  match idx with
  | [] => Some []
  | i :: idx => match nth_error l i, at_all l idx with Some a, Some r => Some (a :: r) | _, _ => None end
  end.
Definition arr {A B} (l : list A) (m : list B) : option (list (A * B)) :=
  if (length l =? length m)%nat then Some (combine l m) else None.
Definition zsum (l : list Z) : Z := fold_right Z.add 0 l.

(* what the wrapper functions do after (Request_free: before) the MPI call.  find c comms is the library's
   information on communicator handle c.  None: access outside of an array, or an invalid communicator *)
Definition on_comm (comms : list (Z * comm)) (t : tr) (c : Z) (k : cnode -> comm -> tr -> option (tr * list event)) : option (tr * list event) :=
  match find c comms with Some cm => let (n, t1) := lookup_comm t c cm in k n cm t1 | None => None end.
Definition traced (comms : list (Z * comm)) (t : tr) (x : call) : option (tr * list event) :=
  match x with
  (* Wrapper.w:295-319, MpiTracing.cpp:376-383 *)
  | Send count ty dest tag c | Isend _ count ty dest tag c =>
      on_comm comms t c (fun n _ t => Some (t, [ESend n dest tag (i32 (tysz ty * count))]))
  (* Wrapper.w:321-345, MpiTracing.cpp:186-214 *)
  | SendInit h count ty dest tag c =>
      on_comm comms t c (fun n _ t => Some (set_req t h (mkri true true dest tag ty (i32 (tysz ty * count)) n), []))
  (* Wrapper.w:347-376 *)
  | Recv ty c st => on_comm comms t c (fun n _ t => Some (t, [recv_event n ty st]))
  (* Wrapper.w:378-446 *)
  | Sendrecv scount sty dest stag rty c st =>
      on_comm comms t c (fun n _ t => Some (t, [ESend n dest stag (i32 (tysz sty * scount)); recv_event n rty st]))
  (* Wrapper.w:448-472, MpiTracing.cpp:242-263 *)
  | Irecv h ty c => on_comm comms t c (fun n _ t => Some (set_req t h (mkri false false 0 0 ty 0 n), []))
  (* Wrapper.w:474-498, MpiTracing.cpp:265-289 *)
  | RecvInit h ty c => on_comm comms t c (fun n _ t => Some (set_req t h (mkri false true 0 0 ty 0 n), []))
  (* Wrapper.w:500-550 *)
  | Start hs => Some (t, flat_map (start1 t) hs)
  (* Wrapper.w:552-587 *)
  | Wait h st => Some (complete1 t h st)
  (* Wrapper.w:589-643 *)
  | Waitall hs sts => match hs with [] => Some (t, []) | _ => match arr hs sts with Some l => Some (complete t l) | None => None end end
  (* Wrapper.w:645-695: tmp_req + *index without a test for MPI_UNDEFINED *)
  | Waitany hs idx st =>
      match hs with
      | [] => Some (t, [])
      | _ => match idx with Some i => match nth_error hs i with Some h => Some (complete1 t h st) | None => None end | None => None end
      end
  (* Wrapper.w:697-753: the request at indices[i] goes with the status at indices[i] *)
  | Waitsome hs idx sts =>
      match at_all hs idx, at_all sts idx with Some l, Some m => Some (complete t (combine l m)) | _, _ => None end
  (* Wrapper.w:755-788 *)
  | Test h flag st => if flag then Some (complete1 t h st) else Some (t, [])
  (* Wrapper.w:790-847 *)
  | Testall hs flag sts => if flag then match arr hs sts with Some l => Some (complete t l) | None => None end else Some (t, [])
  (* Wrapper.w:849-901 *)
  | Testany hs flag idx st =>
      if flag then match idx with Some i => match nth_error hs i with Some h => Some (complete1 t h st) | None => None end | None => None end
      else Some (t, [])
  (* Wrapper.w:903-925, MpiTracing.cpp:335-339 *)
  | ReqFree h => Some (del_req t h, [])
  (* not wrapped *)
  | CommNew _ _ | CommFree _ => Some (t, [])
  (* Wrapper.w:931-955 *)
  | Barrier c => on_comm comms t c (fun n _ t => Some (t, [EColl n KBarrier None None]))
  (* Wrapper.w:957-1007, MpiTracing.cpp handle_12n *)
  | OneToAll count ty root c =>
      on_comm comms t c (fun n cm t => Some (t, [EColl n K12N (Some (i32 ((if cm_rank cm =? root then count else 0) * tysz ty))) (Some root)]))
  (* Wrapper.w:1009-1039: the sum is taken over argument 2, the displacements *)
  | Scatterv counts displs ty root c =>
      on_comm comms t c (fun n cm t =>
        if (length displs <? Z.to_nat (cm_size cm))%nat then None
        else Some (t, [EColl n K12N (Some (i32 ((if cm_rank cm =? root then i32 (zsum (firstn (Z.to_nat (cm_size cm)) displs)) else 0) * tysz ty))) (Some root)]))
  (* Wrapper.w:1041-1112, MpiTracing.cpp handle_n21 *)
  | AllToOne count ty root c =>
      on_comm comms t c (fun n cm t => Some (t, [EColl n KN21 (Some (i32 ((if negb (cm_rank cm =? root) then count else 0) * tysz ty))) (Some root)]))
  (* Wrapper.w:1114-1136, 1168-1237, MpiTracing.cpp handle_n2n *)
  | AllToAll count ty c => on_comm comms t c (fun n _ t => Some (t, [EColl n KNxN (Some (i32 (count * tysz ty))) None]))
  (* Wrapper.w:1138-1166 *)
  | ReduceScatter counts ty c =>
      on_comm comms t c (fun n cm t => match nth_error counts (Z.to_nat (cm_rank cm)) with Some k => Some (t, [EColl n KNxN (Some (i32 (k * tysz ty))) None]) | None => None end)
  (* Wrapper.w:1239-1267 *)
  | Alltoall count ty c => on_comm comms t c (fun n cm t => Some (t, [EColl n KNxN (Some (i32 (i32 (cm_size cm * count) * tysz ty))) None]))
  (* Wrapper.w:1269-1300 *)
  | Alltoallv counts ty c =>
      on_comm comms t c (fun n cm t =>
        if (length counts <? Z.to_nat (cm_size cm))%nat then None
        else Some (t, [EColl n KNxN (Some (i32 (i32 (zsum (firstn (Z.to_nat (cm_size cm)) counts)) * tysz ty))) None]))
  | SetActive _ => Some (t, [])
  end.
(* the library's communicators *)
Definition lib_step (comms : list (Z * comm)) (x : call) : list (Z * comm) :=
  match x with CommNew c cm => put c cm comms | CommFree c => del c comms | _ => comms end.
(* the wrappers call the tracer only while the channel is active *)
Definition step (comms : list (Z * comm)) (t : tr) (x : call) : option (tr * list event) :=
  match x with
  | SetActive b => Some (mktr (t_next t) (t_comms t) (t_reqs t) b, [])
  | _ => if t_on t then traced comms t x else Some (t, [])
  end.
Fixpoint run (comms : list (Z * comm)) (t : tr) (xs : list call) : option (tr * list event) :=
  match xs with
  | [] => Some (t, [])
  | x :: xs =>
      match step comms t x with
      | Some (t1, e1) => match run (lib_step comms x) t1 xs with Some (t2, e2) => Some (t2, e1 ++ e2) | None => None end
      | None => None
      end
  end.
End MPI.
