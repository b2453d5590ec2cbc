(* Model of the trace service, src/services/trace/Trace.cpp (on top of the chunk model in
   CodecModel.v).  Each thread's buffer is a chain of chunks, newest first
   (TraceBufferChunk::m_next).  One operation = one callback; a flush is split in two
   operations per buffer because other threads keep running during it.
   Simplifications: the counter dropped_snapshots is incremented atomically (the code uses a
   plain size_t shared by all threads); operator new does not fail; a released thread
   processes no further snapshots. *)
From Verif Require Import Base VlencModel VariantModel CodecModel.

Inductive policy := PFlush | PGrow | PStop.                         (* Trace.cpp:30 *)

(* TraceBuffer, Trace.cpp:32-50 *)
Record tbuf := mktb { tb_stopped : bool; tb_retired : bool; tb_chunks : list chunk }.

(* per-thread buffer (looked up on the thread's blackboard, acquire_tbuf:72-96), dropped_snapshots *)
Record trace := mktr { tr_buf : nat -> option tbuf; tr_dropped : nat }.
Definition trace_init : trace := mktr (fun _ => None) 0.

Inductive trace_op :=
| TSnap (t : nat) (can_alloc : bool) (rec : list entry)   (* process_snapshot_cb; can_alloc = not in a signal handler *)
| TCreate (t : nat)                                        (* create_thread_cb *)
| TRelease (t : nat)                                       (* release_thread_cb *)
| TFlushStart (t : nat) | TFlushEnd (t : nat)              (* flush_cb, one buffer: stopped = true / false *)
| TClear.                                                  (* clear_cb *)

(* what became of a snapshot *)
Inductive outcome := OStored | ODropped | OLost | ONone.

Definition upd (f : nat -> option tbuf) (t : nat) (b : tbuf) : nat -> option tbuf :=
  fun x => if (x =? t)%nat then Some b else f x.

Definition new_tbuf (size : N) : tbuf := mktb false false [chunk_new size].

(* tbuf->chunks->save_snapshot(rec) *)
Definition save_head (s : trace) (t : nat) (b : tbuf) (rec : list entry) : option trace :=
  match tb_chunks b with
  | [] => None
  | c :: r => match chunk_save c rec with
              | None => None
              | Some c' => Some (mktr (upd (tr_buf s) t (mktb (tb_stopped b) (tb_retired b) (c' :: r))) (tr_dropped s))
              end
  end.

(* flush_cb, Trace.cpp:151-173, effect on all buffers: leaves stopped = false, chunks unchanged *)
Definition flush_all (s : trace) : trace :=
  mktr (fun t => option_map (fun b => mktb false (tb_retired b) (tb_chunks b)) (tr_buf s t)) (tr_dropped s).

(* process_snapshot_cb once the buffer is known to exist, Trace.cpp:137-148, with
   handle_overflow, Trace.cpp:98-132.  The Flush policy writes the output (assuming a service
   that flushes is active) and then saves into the same, still full, chunk. *)
Definition snap_in (p : policy) (size : N) (s : trace) (t : nat) (b : tbuf) (rec : list entry) : option (trace * outcome) :=
  if tb_stopped b then Some (mktr (tr_buf s) (S (tr_dropped s)), ODropped)
  else match tb_chunks b with
  | [] => None
  | c :: _ =>
      if chunk_fits c rec then option_map (fun s' => (s', OStored)) (save_head s t b rec)
      else match p with
      | PStop => Some (mktr (upd (tr_buf s) t (mktb true (tb_retired b) (tb_chunks b))) (tr_dropped s), OLost)
      | PGrow => option_map (fun s' => (s', OStored))
                   (save_head s t (mktb false (tb_retired b) (chunk_new size :: tb_chunks b)) rec)
      | PFlush => option_map (fun s' => (s', OStored)) (save_head (flush_all s) t b rec)
      end
  end.

Definition trace_step (p : policy) (size : N) (s : trace) (o : trace_op) : option (trace * outcome) :=
  match o with
  | TSnap t can_alloc rec =>
      match tr_buf s t with
      | Some b => snap_in p size s t b rec
      | None => if can_alloc
                then snap_in p size (mktr (upd (tr_buf s) t (new_tbuf size)) (tr_dropped s)) t (new_tbuf size) rec
                else Some (mktr (tr_buf s) (S (tr_dropped s)), ODropped)
      end
  | TCreate t =>
      match tr_buf s t with
      | Some _ => Some (s, ONone)
      | None => Some (mktr (upd (tr_buf s) t (new_tbuf size)) (tr_dropped s), ONone)
      end
  | TRelease t =>
      match tr_buf s t with
      | Some b => Some (mktr (upd (tr_buf s) t (mktb (tb_stopped b) true (tb_chunks b))) (tr_dropped s), ONone)
      | None => Some (s, ONone)
      end
  | TFlushStart t =>
      match tr_buf s t with
      | Some b => Some (mktr (upd (tr_buf s) t (mktb true (tb_retired b) (tb_chunks b))) (tr_dropped s), ONone)
      | None => Some (s, ONone)
      end
  | TFlushEnd t =>
      match tr_buf s t with
      | Some b => Some (mktr (upd (tr_buf s) t (mktb false (tb_retired b) (tb_chunks b))) (tr_dropped s), ONone)
      | None => Some (s, ONone)
      end
  | TClear =>                                  (* Trace.cpp:175-231; TraceBufferChunk::reset *)
      Some (mktr (fun t => match tr_buf s t with
                           | None => None
                           | Some b => if tb_retired b then None
                                       else Some (mktb false false
                                              (match tb_chunks b with [] => [] | c :: _ => [chunk_new (ck_size c)] end))
                           end) (tr_dropped s), ONone)
  end.

Fixpoint trace_run (p : policy) (size : N) (s : trace) (ops : list trace_op) : option (trace * list (trace_op * outcome)) :=
  match ops with
  | [] => Some (s, [])
  | o :: r => match trace_step p size s o with
              | None => None
              | Some (s', out) => match trace_run p size s' r with
                                  | None => None
                                  | Some (s'', tr) => Some (s'', (o, out) :: tr)
                                  end
              end
  end.

(* the records a flush hands to its callback for thread t: head chunk, then m_next
   (TraceBufferChunk::flush, TraceBufferChunk.cpp:42-77) *)
Fixpoint flush_chunks (db : metadb) (l : list chunk) : option (list (list entry)) :=
  match l with
  | [] => Some []
  | c :: r => match chunk_flush db c, flush_chunks db r with
              | Some a, Some b => Some (a ++ b)
              | _, _ => None
              end
  end.
Definition flush_out (db : metadb) (s : trace) (t : nat) : option (list (list entry)) :=
  match tr_buf s t with None => Some [] | Some b => flush_chunks db (tb_chunks b) end.
