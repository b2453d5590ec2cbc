(* Model of the per-thread buffers of the trace and aggregate services, with threads that record,
   flush, clear and exit concurrently.
   src/services/trace/Trace.cpp: TraceBuffer 32-52, acquire_tbuf 72-96, process_snapshot_cb 134-149,
   flush_cb 151-173, clear_cb 175-232, release_thread_cb 253-262.
   src/services/aggregate/Aggregate.cpp: ThreadDB 43-65, acquire_tdb 79-101, flush_cb 153-171,
   clear_cb 173-230, process_snapshot_cb 232-240, release_thread_cb 282-288.
   The two differ in flush_lock, which only Trace.cpp has: parameter lk.
   Simplified: the contents of a buffer are the list of its records (the chunks of Trace.cpp with the
   grow policy, C07; the database of Aggregate.cpp, C37); saving a record, flushing and resetting the
   contents of one buffer are atomic, and so are the critical sections of the spinlock tbuf_lock;
   every other access to shared memory is a step of its own.  Signal handlers, log output, the
   statistics and the destructor are left out.  Memory is sequentially consistent. *)
From Verif Require Import Base.

(* one TraceBuffer / ThreadDB.  c_owner: the thread whose blackboard points to it (not a field) *)
Record cell := mkcell { c_owner : N; c_stop : bool; c_ret : bool; c_next : option N; c_prev : option N; c_data : list N }.
(* what a thread is about to do *)
Inductive pc :=
| Idle
| Link (a : N) (r : option N)      (* acquire: pointer stored, before linking the buffer; r: then record r *)
| Loaded (a r : N)                 (* process_snapshot: before stopped.load *)
| Save (a r : N)                   (* before save_snapshot / db.process_snapshot *)
| Lock (clr : bool)                (* flush_cb (false) or clear_cb (true): before flush_lock *)
| Head (clr : bool)                (* before reading tbuf_list *)
| At (clr : bool) (o : option N)   (* loop head *)
| FRead (a : N) | FUnstop (a : N) | FNext (a : N)
| CReset (a : N) | CUnstop (a : N) | CTest (a : N) | CNext (a : N)
| CTmp (a : N) | CUnlink (a : N) (tmp : option N) | CDelete (a : N) (tmp : option N).
(* what happens *)
Inductive ev :=
| EStart (t r : N)         (* thread t calls process_snapshot with record r *)
| ESaved (t r : N) | EDropped (t r : N)
| EBegin (t : N) (clr : bool) | EEnd (t : N)   (* flush or clear by thread t *)
| EOut (u r : N)           (* the flush writes record r of thread u *)
| EReset (u : N)           (* the clear empties the buffer of thread u *)
| EFree (u : N)            (* the buffer of thread u is deleted *)
| ENew (t : N)             (* a buffer is created for thread t *)
| ERelease (t : N).        (* thread t exits *)
(* s_fault: an access to deleted memory, or a second delete *)
Record st := mkst {
  s_heap : N -> option cell; s_fresh : N; s_list : option N; s_lock : option N;
  s_own : N -> option N; s_gone : N -> bool; s_pc : N -> pc; s_dropped : nat; s_fault : bool; s_log : list ev }.
Definition set {A} (f : N -> A) (k : N) (x : A) : N -> A := fun j => if j =? k then x else f j.
Definition st_init : st := mkst (fun _ => None) 0 None None (fun _ => None) (fun _ => false) (fun _ => Idle) 0 false [].

Definition w_pc (s : st) (t : N) (p : pc) : st :=
  mkst (s_heap s) (s_fresh s) (s_list s) (s_lock s) (s_own s) (s_gone s) (set (s_pc s) t p) (s_dropped s) (s_fault s) (s_log s).
Definition w_heap (s : st) (h : N -> option cell) : st :=
  mkst h (s_fresh s) (s_list s) (s_lock s) (s_own s) (s_gone s) (s_pc s) (s_dropped s) (s_fault s) (s_log s).
Definition w_list (s : st) (o : option N) : st :=
  mkst (s_heap s) (s_fresh s) o (s_lock s) (s_own s) (s_gone s) (s_pc s) (s_dropped s) (s_fault s) (s_log s).
Definition w_lock (s : st) (o : option N) : st :=
  mkst (s_heap s) (s_fresh s) (s_list s) o (s_own s) (s_gone s) (s_pc s) (s_dropped s) (s_fault s) (s_log s).
Definition w_log (s : st) (l : list ev) : st :=
  mkst (s_heap s) (s_fresh s) (s_list s) (s_lock s) (s_own s) (s_gone s) (s_pc s) (s_dropped s) (s_fault s) (s_log s ++ l).
Definition w_fault (s : st) : st :=
  mkst (s_heap s) (s_fresh s) (s_list s) (s_lock s) (s_own s) (s_gone s) (s_pc s) (s_dropped s) true (s_log s).
Definition w_gone (s : st) (t : N) : st :=
  mkst (s_heap s) (s_fresh s) (s_list s) (s_lock s) (s_own s) (set (s_gone s) t true) (s_pc s) (s_dropped s) (s_fault s) (s_log s).
Definition w_drop (s : st) : st :=
  mkst (s_heap s) (s_fresh s) (s_list s) (s_lock s) (s_own s) (s_gone s) (s_pc s) (S (s_dropped s)) (s_fault s) (s_log s).
(* new TraceBuffer / new ThreadDB; the pointer goes to the thread's blackboard *)
Definition alloc (s : st) (t : N) : st :=
  mkst (set (s_heap s) (s_fresh s) (Some (mkcell t false false None None []))) (s_fresh s + 1) (s_list s) (s_lock s)
       (set (s_own s) t (Some (s_fresh s))) (s_gone s) (s_pc s) (s_dropped s) (s_fault s) (s_log s).

Definition stop_c (b : bool) (c : cell) : cell := mkcell (c_owner c) b (c_ret c) (c_next c) (c_prev c) (c_data c).
Definition ret_c (c : cell) : cell := mkcell (c_owner c) (c_stop c) true (c_next c) (c_prev c) (c_data c).
Definition next_c (o : option N) (c : cell) : cell := mkcell (c_owner c) (c_stop c) (c_ret c) o (c_prev c) (c_data c).
Definition prev_c (o : option N) (c : cell) : cell := mkcell (c_owner c) (c_stop c) (c_ret c) (c_next c) o (c_data c).
Definition data_c (l : list N) (c : cell) : cell := mkcell (c_owner c) (c_stop c) (c_ret c) (c_next c) (c_prev c) l.
(* p->... : an access through a pointer *)
Definition acc (s : st) (a : N) (f : cell -> st) : st := match s_heap s a with Some c => f c | None => w_fault s end.
Definition upd (s : st) (a : N) (f : cell -> cell) : st := acc s a (fun c => w_heap s (set (s_heap s) a (Some (f c)))).
Definition upd_opt (s : st) (o : option N) (f : cell -> cell) : st := match o with Some a => upd s a f | None => s end.

Definition oeqb (a b : option N) : bool := match a, b with Some x, Some y => x =? y | None, None => true | _, _ => false end.
(* linking under tbuf_lock, Trace.cpp:84-90, Aggregate.cpp:91-97 *)
Definition link (s : st) (a : N) : st :=
  let s1 := upd_opt s (s_list s) (prev_c (Some a)) in
  w_list (upd s1 a (next_c (s_list s1))) (Some a).
(* unlink and the head test under tbuf_lock, Trace.cpp:45-51, 205-214; Aggregate.cpp:56-62, 203-209 *)
Definition unlink (s : st) (a : N) (tmp : option N) : st :=
  acc s a (fun c =>
    let s1 := upd_opt s (c_next c) (prev_c (c_prev c)) in
    let s2 := upd_opt s1 (c_prev c) (next_c (c_next c)) in
    if oeqb (s_list s2) (Some a) then w_list s2 tmp else s2).

(* calls an idle thread can make *)
Inductive op := OCreate | OProc (r : N) | OFlush (clr : bool) | ORelease.
Section B.
Variable lk : bool.
Definition call (s : st) (t : N) (o : op) : st :=
  if s_gone s t then s   (* an exited thread makes no more calls *)
  else match o with
  | OCreate => match s_own s t with Some _ => s | None => let a := s_fresh s in w_pc (alloc (w_log s [ENew t]) t) t (Link a None) end
  | OProc r =>
      match s_own s t with
      | Some a => w_pc (w_log s [EStart t r]) t (Loaded a r)
      | None => let a := s_fresh s in w_pc (alloc (w_log s [EStart t r; ENew t]) t) t (Link a (Some r))
      end
  | OFlush clr => w_pc s t (Lock clr)
  | ORelease =>
      let s1 := w_log (w_gone s t) [ERelease t] in
      match s_own s t with Some a => upd s1 a ret_c | None => s1 end
  end.
Definition step (s : st) (x : N * op) : st :=
  let (t, o) := x in
  match s_pc s t with
  | Idle => call s t o
  | Link a r => w_pc (link s a) t (match r with Some n => Loaded a n | None => Idle end)
  | Loaded a r => acc s a (fun c => if c_stop c then w_log (w_drop (w_pc s t Idle)) [EDropped t r] else w_pc s t (Save a r))
  | Save a r => acc s a (fun c => w_log (upd (w_pc s t Idle) a (data_c (c_data c ++ [r]))) [ESaved t r])
  | Lock clr =>
      match lk, s_lock s with
      | true, Some _ => s    (* blocked *)
      | _, _ => w_log (w_lock (w_pc s t (Head clr)) (Some t)) [EBegin t clr]
      end
  | Head clr => w_pc s t (At clr (s_list s))
  | At _ None => w_log (w_lock (w_pc s t Idle) None) [EEnd t]
  | At false (Some a) => w_pc (upd s a (stop_c true)) t (FRead a)
  | FRead a => acc s a (fun c => w_log (w_pc s t (FUnstop a)) (map (EOut (c_owner c)) (c_data c)))
  | FUnstop a => w_pc (upd s a (stop_c false)) t (FNext a)
  | FNext a => acc s a (fun c => w_pc s t (At false (c_next c)))
  | At true (Some a) => w_pc (upd s a (stop_c true)) t (CReset a)
  | CReset a => acc s a (fun c => w_log (w_pc (upd s a (data_c [])) t (CUnstop a)) [EReset (c_owner c)])
  | CUnstop a => w_pc (upd s a (stop_c false)) t (CTest a)
  | CTest a => acc s a (fun c => w_pc s t (if c_ret c then CTmp a else CNext a))
  | CNext a => acc s a (fun c => w_pc s t (At true (c_next c)))
  | CTmp a => acc s a (fun c => w_pc s t (CUnlink a (c_next c)))
  | CUnlink a tmp => w_pc (unlink s a tmp) t (CDelete a tmp)
  | CDelete a tmp => acc s a (fun c => w_log (w_pc (w_heap s (set (s_heap s) a None)) t (At true tmp)) [EFree (c_owner c)])
  end.
Definition run (sched : list (N * op)) : st := fold_left step sched st_init.
End B.
