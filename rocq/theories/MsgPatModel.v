(* Model of MPI message pattern analysis: src/services/mpiwrap/MpiPattern.cpp, the wrappers of Wrapper.w that drive
   it and the callbacks for communication regions (Wrapper.w:1437-1450; cali_begin_comm_region, cali.cpp:394-404).
   The MPI library and the calls are those of MsgTraceModel.  Not modelled: the irecv.req_wait_gap timer events
   (handle_pre_completion), MPI_Init and MPI_Finalize, other threads. *)
From Verif Require Import Base MsgTraceModel.
From Coq Require Import ZArith.
Open Scope Z_scope.

(* MpiPattern.cpp:41-52 RequestInfo (tag and count are stored but not used) *)
Record pinfo := mkpi { pi_send : bool; pi_pers : bool; pi_target : Z; pi_type : Z; pi_size : Z }.
(* MpiPattern.cpp:112-120: six int counters and two sets of ranks *)
Record cnt := mkcnt { k_sends : Z; k_recvs : Z; k_colls : Z; k_ssize : Z; k_rsize : Z; k_csize : Z; k_dests : list Z; k_srcs : list Z }.
Record pat := mkpat { p_reqs : list (Z * pinfo); p_cnt : cnt; p_on : bool }.
(* the record pushed at the end of a communication region: total.send.count, total.recv.count, total.coll.count,
   total.dest.ranks, total.src.ranks, mpi.recv.size, mpi.send.size, mpi.coll.size *)
Record totals := mktot { o_sends : Z; o_recvs : Z; o_colls : Z; o_dests : Z; o_srcs : Z; o_rsize : Z; o_ssize : Z; o_csize : Z }.
Inductive pcall := Mpi (x : call) | RegionBegin | RegionEnd.

Definition cnt0 : cnt := mkcnt 0 0 0 0 0 0 [] [].
Definition pat0 : pat := mkpat [] cnt0 true.
(* std::set<int>::insert *)
Definition sins (x : Z) (l : list Z) : list Z := if existsb (Z.eqb x) l then l else l ++ [x].
(* MpiPattern.cpp:122-128 push_send_event *)
Definition push_send (size dest : Z) (k : cnt) : cnt :=
  mkcnt (i32 (k_sends k + 1)) (k_recvs k) (k_colls k) (i32 (k_ssize k + size)) (k_rsize k) (k_csize k) (sins dest (k_dests k)) (k_srcs k).
(* MpiPattern.cpp:160-166 push_recv_event *)
Definition push_recv (src size : Z) (k : cnt) : cnt :=
  mkcnt (k_sends k) (i32 (k_recvs k + 1)) (k_colls k) (k_ssize k) (i32 (k_rsize k + size)) (k_csize k) (k_dests k) (sins src (k_srcs k)).
(* MpiPattern.cpp:293-297 push_coll_event *)
Definition push_coll (size : Z) (k : cnt) : cnt :=
  mkcnt (k_sends k) (k_recvs k) (i32 (k_colls k + 1)) (k_ssize k) (k_rsize k) (i32 (k_csize k + size)) (k_dests k) (k_srcs k).
Definition on_cnt (f : cnt -> cnt) (p : pat) : pat := mkpat (p_reqs p) (f (p_cnt p)) (p_on p).
Definition set_preq (h : Z) (i : pinfo) (p : pat) : pat := mkpat (put h i (p_reqs p)) (p_cnt p) (p_on p).
Definition del_preq (h : Z) (p : pat) : pat := mkpat (del h (p_reqs p)) (p_cnt p) (p_on p).
(* MpiPattern.cpp:311-325 handle_comm_end *)
Definition report (k : cnt) : totals :=
  mktot (k_sends k) (k_recvs k) (k_colls k) (Z.of_nat (length (k_dests k))) (Z.of_nat (length (k_srcs k))) (k_rsize k) (k_ssize k) (k_csize k).

Section MPI.
Context (tysz : Z -> Z).
(* MpiPattern.cpp:168-176 handle_recv *)
Definition precv (ty : Z) (st : status) : pat -> pat := on_cnt (push_recv (st_src st) (i32 (tysz ty * get_count tysz st ty))).
(* MpiPattern.cpp:228-243 handle_start *)
Fixpoint pstart (p : pat) (hs : list Z) : pat :=
  match hs with
  | [] => p
  | h :: hs =>
      pstart (match find h (p_reqs p) with
              | Some i => if pi_send i then on_cnt (push_send (pi_size i) (pi_target i)) p else p
              | None => p end) hs
  end.
(* MpiPattern.cpp:259-285 handle_completion *)
Definition pcomplete1 (p : pat) (h : Z) (st : status) : pat :=
  match find h (p_reqs p) with
  | None => p
  | Some i =>
      let p1 := if pi_send i then p else precv (pi_type i) st p in
      if pi_pers i then p1 else del_preq h p1
  end.
Fixpoint pcomplete (p : pat) (l : list (Z * status)) : pat :=
  match l with [] => p | (h, st) :: l => pcomplete (pcomplete1 p h st) l end.
Definition rank_of (comms : list (Z * comm)) (c : Z) (k : comm -> option pat) : option pat := match find c comms with Some cm => k cm | None => None end.
Definition coll (size : Z) (p : pat) : option pat := Some (on_cnt (push_coll (i32 size)) p).

(* the wrappers while the channel is active; None: access outside of an array, or an invalid communicator *)
Definition ptraced (comms : list (Z * comm)) (p : pat) (x : call) : option pat :=
  match x with
  (* Wrapper.w:295-319, MpiPattern.cpp:346-353 *)
  | Send count ty dest tag c | Isend _ count ty dest tag c => Some (on_cnt (push_send (i32 (tysz ty * count)) dest) p)
  (* Wrapper.w:321-345, MpiPattern.cpp:130-158 *)
  | SendInit h count ty dest tag c => Some (set_preq h (mkpi true true dest ty (i32 (tysz ty * count))) p)
  (* Wrapper.w:347-376 *)
  | Recv ty c st => Some (precv ty st p)
  (* Wrapper.w:378-446 *)
  | Sendrecv scount sty dest stag rty c st => Some (precv rty st (on_cnt (push_send (i32 (tysz sty * scount)) dest) p))
  (* Wrapper.w:448-472, MpiPattern.cpp:178-201 *)
  | Irecv h ty c => Some (set_preq h (mkpi false false 0 ty 0) p)
  (* Wrapper.w:474-498, MpiPattern.cpp:203-226 *)
  | RecvInit h ty c => Some (set_preq h (mkpi false true 0 ty 0) p)
  (* Wrapper.w:500-550 *)
  | Start hs => Some (pstart p hs)
  (* Wrapper.w:552-587 *)
  | Wait h st => Some (pcomplete1 p h st)
  (* Wrapper.w:589-643 *)
  | Waitall hs sts => match hs with [] => Some p | _ => match arr hs sts with Some l => Some (pcomplete p l) | None => None end end
  (* Wrapper.w:645-695 *)
  | Waitany hs idx st =>
      match hs with
      | [] => Some p
      | _ => match idx with Some i => match nth_error hs i with Some h => Some (pcomplete1 p h st) | None => None end | None => None end
      end
  (* Wrapper.w:697-753 *)
  | Waitsome hs idx sts =>
      match at_all hs idx, at_all sts idx with Some l, Some m => Some (pcomplete p (combine l m)) | _, _ => None end
  (* Wrapper.w:755-788 *)
  | Test h flag st => if flag then Some (pcomplete1 p h st) else Some p
  (* Wrapper.w:790-847 *)
  | Testall hs flag sts => if flag then match arr hs sts with Some l => Some (pcomplete p l) | None => None end else Some p
  (* Wrapper.w:849-901 *)
  | Testany hs flag idx st =>
      if flag then match idx with Some i => match nth_error hs i with Some h => Some (pcomplete1 p h st) | None => None end | None => None end
      else Some p
  (* Wrapper.w:903-925, MpiPattern.cpp:287-292 *)
  | ReqFree h => Some (del_preq h p)
  | CommNew _ _ | CommFree _ | SetActive _ => Some p
  (* Wrapper.w:931-955, MpiPattern.cpp:463-466 *)
  | Barrier c => coll 0 p
  (* Wrapper.w:957-1007, MpiPattern.cpp:433-441 *)
  | OneToAll count ty root c => rank_of comms c (fun cm => coll ((if cm_rank cm =? root then count else 0) * tysz ty) p)
  (* Wrapper.w:1009-1039: argument 2 again, the displacements *)
  | Scatterv counts displs ty root c =>
      rank_of comms c (fun cm =>
        if (length displs <? Z.to_nat (cm_size cm))%nat then None
        else coll ((if cm_rank cm =? root then i32 (zsum (firstn (Z.to_nat (cm_size cm)) displs)) else 0) * tysz ty) p)
  (* Wrapper.w:1041-1112, MpiPattern.cpp:443-451 *)
  | AllToOne count ty root c => rank_of comms c (fun cm => coll ((if negb (cm_rank cm =? root) then count else 0) * tysz ty) p)
  (* Wrapper.w:1114-1136, 1168-1237, MpiPattern.cpp:453-461 *)
  | AllToAll count ty c => coll (count * tysz ty) p
  (* Wrapper.w:1138-1166 *)
  | ReduceScatter counts ty c =>
      rank_of comms c (fun cm => match nth_error counts (Z.to_nat (cm_rank cm)) with Some n => coll (n * tysz ty) p | None => None end)
  (* Wrapper.w:1239-1267 *)
  | Alltoall count ty c => rank_of comms c (fun cm => coll (i32 (cm_size cm * count) * tysz ty) p)
  (* Wrapper.w:1269-1300 *)
  | Alltoallv counts ty c =>
      rank_of comms c (fun cm =>
        if (length counts <? Z.to_nat (cm_size cm))%nat then None
        else coll (i32 (zsum (firstn (Z.to_nat (cm_size cm)) counts)) * tysz ty) p)
  end.
(* MpiPattern.cpp:299-325; region events and wrappers work on active channels only *)
Definition pstep (comms : list (Z * comm)) (p : pat) (x : pcall) : option (pat * list totals) :=
  match x with
  | Mpi (SetActive b) => Some (mkpat (p_reqs p) (p_cnt p) b, [])
  | Mpi x => if p_on p then match ptraced comms p x with Some p1 => Some (p1, []) | None => None end else Some (p, [])
  | RegionBegin => Some (if p_on p then mkpat (p_reqs p) cnt0 (p_on p) else p, [])
  | RegionEnd => Some (p, if p_on p then [report (p_cnt p)] else [])
  end.
Fixpoint prun (comms : list (Z * comm)) (p : pat) (xs : list pcall) : option (pat * list totals) :=
  match xs with
  | [] => Some (p, [])
  | x :: xs =>
      match pstep comms p x with
      | Some (p1, e1) => match prun (match x with Mpi c => lib_step comms c | _ => comms end) p1 xs with Some (p2, e2) => Some (p2, e1 ++ e2) | None => None end
      | None => None
      end
  end.
End MPI.
