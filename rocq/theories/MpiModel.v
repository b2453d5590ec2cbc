(* Model of the cross-process aggregation, src/caliper/aggregate_over_mpi.cpp.

   Every rank runs the loop of aggregate_over_mpi (lines 160-179) as a sequential program of MPI
   calls; MPI is represented by its guarantees for point-to-point messages: messages between one
   pair of ranks are not reordered, a receive with a tag takes the first message with that tag,
   and MPI_Send either returns at once (the message is buffered) or waits for the matching
   receive; which of the two happens is the MPI library's choice, at every call.
   What a rank knows (metadata database and aggregator) and the contents of the node and snapshot
   buffers are parameters: C04, C05 cover the buffers, C29 merging the metadata and C32 merging
   partial aggregation results.  Not modelled: int overflow of 2 * steppow2 for more than 2^30
   ranks, message sizes above 2^31 bytes. *)
From Verif Require Import Base VariantModel TreeModel.
Open Scope nat_scope.

(* ---------------- MPI ---------------- *)
Section MPI.
(* local memory of a rank, message contents *)
Context {L M : Type}.
(* what a call of MPI_Send with this tag sends, and what the rank does with a received message *)
Variable snd_ : nat -> L -> M * L.
Variable rcv_ : nat -> M -> L -> L.
Inductive op := OSend (dst tag : nat) | ORecv (src tag : nat).
(* programs still to run, memories, messages in flight from one rank to another (oldest first) *)
Record world := mkworld { w_prog : nat -> list op; w_mem : nat -> L; w_chan : nat -> nat -> list (nat * M) }.
Definition nupd {A} (f : nat -> A) (k : nat) (x : A) : nat -> A := fun j => if Nat.eqb j k then x else f j.
Definition nupd2 {A} (f : nat -> nat -> A) (k l : nat) (x : A) : nat -> nat -> A := nupd f k (nupd (f k) l x).
(* first message with a tag *)
Fixpoint take_tag (t : nat) (l : list (nat * M)) : option (M * list (nat * M)) :=
  match l with
  | [] => None
  | (u, m) :: r => if Nat.eqb u t then Some (m, r) else match take_tag t r with Some (x, r') => Some (x, (u, m) :: r') | None => None end
  end.
Inductive mkind := Buffered | Receive | Rendezvous.
Inductive mstep : mkind -> world -> world -> Prop :=
| ms_buffered w r d t p m l : w_prog w r = OSend d t :: p -> snd_ t (w_mem w r) = (m, l) ->
    mstep Buffered w (mkworld (nupd (w_prog w) r p) (nupd (w_mem w) r l) (nupd2 (w_chan w) r d (w_chan w r d ++ [(t, m)])))
| ms_receive w r s t p m c : w_prog w r = ORecv s t :: p -> take_tag t (w_chan w s r) = Some (m, c) ->
    mstep Receive w (mkworld (nupd (w_prog w) r p) (nupd (w_mem w) r (rcv_ t m (w_mem w r))) (nupd2 (w_chan w) s r c))
| ms_rendezvous w s d t p q m l : s <> d -> w_prog w s = OSend d t :: p -> w_prog w d = ORecv s t :: q -> take_tag t (w_chan w s d) = None -> snd_ t (w_mem w s) = (m, l) ->
    mstep Rendezvous w (mkworld (nupd (nupd (w_prog w) s p) d q) (nupd (nupd (w_mem w) s l) d (rcv_ t m (w_mem w d))) (w_chan w)).
Inductive mrun : nat -> world -> world -> Prop :=
| mr_nil w : mrun 0 w w
| mr_step n k w1 w2 w3 : mrun n w1 w2 -> mstep k w2 w3 -> mrun (S n) w1 w3.
End MPI.
Arguments world : clear implicits.

(* ---------------- the program ---------------- *)
(* pack_and_send, aggregate_over_mpi.cpp:47-77: four messages *)
Definition pack_and_send (dest : nat) : list op := [OSend dest 1; OSend dest 2; OSend dest 3; OSend dest 4].
(* receive_and_merge, lines 79-152 *)
Definition receive_and_merge (source : nat) : list op := [ORecv source 1; ORecv source 2; ORecv source 3; ORecv source 4].
(* the body of the loop of aggregate_over_mpi, lines 170-176 *)
Definition body (size rank s : nat) : list op :=
  (if Nat.eqb (rank mod (2 * s)) 0 && (rank + s <? size) then receive_and_merge (rank + s) else []) ++
  (if Nat.eqb (rank mod s) 0 && negb (Nat.eqb (rank mod (2 * s)) 0) then pack_and_send (rank - s) else []).
(* the loop, line 168 *)
Fixpoint steps (fuel size rank s : nat) : list op :=
  match fuel with
  | O => []
  | S f => if s <? size then body size rank s ++ steps f size rank (2 * s) else []
  end.
Definition aggregate_over_mpi (size rank : nat) : list op := steps size size rank 1.

(* ---------------- the data ---------------- *)
Section DATA.
(* database and aggregator of a rank; node buffer, snapshot buffer; id map *)
Context {A NB SB IM : Type}.
(* Aggregator::flush into the buffers (pack_and_send 49-64) *)
Variable pack : A -> NB * SB * A.
(* number of entries, NodeBuffer::count, SnapshotBuffer::count *)
Variable ncount : NB -> N.
Variable scount : SB -> N.
(* merging the nodes (96-98) and the snapshots (125-137) of count and contents received *)
Variable merge_nodes : A -> N -> NB -> A * IM.
Variable merge_snaps : A -> IM -> N -> SB -> A.
Inductive msg := MCount (n : N) | MNodes (b : NB) | MSnaps (b : SB) | MNone.
(* l_out: buffers being sent; l_cnt, l_idm: count received last, id map of the current receive_and_merge *)
Record local := mklocal { l_a : A; l_out : option (NB * SB); l_cnt : N; l_idm : option IM }.
Definition do_send (t : nat) (l : local) : msg * local :=
  match t, l_out l with
  | 1, _ => let '(nb, sb, a) := pack (l_a l) in (MCount (ncount nb), mklocal a (Some (nb, sb)) (l_cnt l) (l_idm l))
  | 2, Some (nb, _) => (MNodes nb, l)
  | 3, Some (_, sb) => (MCount (scount sb), l)
  | 4, Some (_, sb) => (MSnaps sb, l)
  | _, _ => (MNone, l)
  end.
Definition do_recv (t : nat) (m : msg) (l : local) : local :=
  match t, m, l_idm l with
  | 1, MCount n, _ => mklocal (l_a l) (l_out l) n (l_idm l)
  | 2, MNodes b, _ => let (a, i) := merge_nodes (l_a l) (l_cnt l) b in mklocal a (l_out l) (l_cnt l) (Some i)
  | 3, MCount n, _ => mklocal (l_a l) (l_out l) n (l_idm l)
  | 4, MSnaps b, Some i => mklocal (merge_snaps (l_a l) i (l_cnt l) b) (l_out l) (l_cnt l) (l_idm l)
  | _, _, _ => l
  end.
(* all ranks call aggregate_over_mpi *)
Definition mpi_start (size : nat) (a : nat -> A) : world local msg :=
  mkworld (fun r => if r <? size then aggregate_over_mpi size r else []) (fun r => mklocal (a r) None 0%N None) (fun _ _ => []).
End DATA.

(* ---------------- the node buffer ---------------- *)
Open Scope N_scope.
(* recursive_append_path, aggregate_over_mpi.cpp:22-45.  buf: nodes appended so far, oldest first;
   their ids are written_nodes.  None: recursion deeper than fuel. *)
Definition in_buf (i : N) (buf : list tnode) : bool := existsb (fun n => n_id n =? i) buf.
Fixpoint append_path (fuel : nat) (db : N -> option tnode) (node : option tnode) (buf : list tnode) : option (list tnode) :=
  match fuel with
  | O => None
  | S f =>
      match node with
      | None => Some buf
      | Some n =>
          if (n_id n =? INV_ID) || in_buf (n_id n) buf then Some buf
          else
            match (if n_attr n <? n_id n then append_path f db (db (n_attr n)) buf else Some buf) with
            | None => None
            | Some b1 =>
                match append_path f db (match n_par n with Some p => db p | None => None end) b1 with
                | None => None
                | Some b2 => Some (if in_buf (n_id n) b2 then b2 else b2 ++ [n])
                end
            end
      end
  end.
(* pack_and_send, 56-62: the nodes of the entries of one record *)
Fixpoint append_record (fuel : nat) (db : N -> option tnode) (nodes : list N) (buf : list tnode) : option (list tnode) :=
  match nodes with
  | [] => Some buf
  | i :: r => match append_path fuel db (db i) buf with None => None | Some b => append_record fuel db r b end
  end.
