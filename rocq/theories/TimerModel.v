(* Model of the timer service, src/services/timer/Timer.cpp.  One service object (one channel); the
   clock is an arbitrary input.  A thread's TimerInfo is found through its thread-local blackboard, which
   is modelled as a function from thread numbers (C22 is about the blackboards themselves).  One callback
   is one step: it only touches the calling thread's TimerInfo and the error counter (a plain int that is
   not protected against concurrent updates; wrap-around of that int is not modelled). *)
From Verif Require Import Base.
Open Scope N_scope.

(* TimerInfo, Timer.cpp:30-38.  std::map<cali_id_t, std::vector<uint64_t>> as a function; a vector is a
   list whose head is the back of the vector; no entry = None *)
Record tinfo := mkti { ti_prev : N; ti_stack : N -> option (list N) }.
Definition ti_new : tinfo := mkti 0 (fun _ => None).
(* the service: TimerInfo per thread, n_stack_errors, and its configuration: record_inclusive_duration
   (after post_init_cb) and the ids of cali.event.begin and cali.event.end *)
Record tcfg := mktc { tc_incl : bool; tc_begin : N; tc_end : N }.
Record tsvc := mkts { ts_info : nat -> option tinfo; ts_errs : N }.
Definition ts_init : tsvc := mkts (fun _ => None) 0.
Definition set_info (s : tsvc) (t : nat) (i : tinfo) : tsvc :=
  mkts (fun u => if Nat.eqb u t then Some i else ts_info s u) (ts_errs s).

(* acquire_timerinfo, Timer.cpp:62-77: get or create, not created from a signal handler *)
Definition acquire (s : tsvc) (t : nat) (signal : bool) : option tinfo * tsvc :=
  match ts_info s t with
  | Some i => (Some i, s)
  | None => if signal then (None, s) else (Some ti_new, set_info s t ti_new)
  end.

(* Attribute::get, src/common/Attribute.cpp:55-62, on the path of an attribute's node from the node up
   to the root: (attribute id, value) of each node; the values of interest are ids (uint) *)
Definition attr_path := list (N * N).
Fixpoint attr_get (p : attr_path) (a : N) : option N :=
  match p with [] => None | (b, v) :: r => if b =? a then Some v else attr_get r a end.

(* what is appended to the snapshot record *)
Inductive tout := OOffset (n : N) | ODuration (n : N) | OInclusive (n : N).
(* uint64_t subtraction *)
Definition sub64 (a b : N) : N := (a + W64 - b) mod W64.

(* snapshot_cb, Timer.cpp:78-113.  nsec: nanoseconds since tstart as uint64_t; info: the trigger info
   entry's attribute, None when the view is empty.  v_id.to_id() of a uint is the value itself *)
Definition snapshot_cb (c : tcfg) (s : tsvc) (t : nat) (signal : bool) (nsec : N) (info : option attr_path)
  : list tout * tsvc :=
  match acquire s t signal with
  | (None, s1) => ([OOffset nsec], s1)
  | (Some ti, s1) =>
      let o := [OOffset nsec; ODuration (sub64 nsec (ti_prev ti))] in
      let ti1 := mkti nsec (ti_stack ti) in
      let s2 := set_info s1 t ti1 in
      match (if tc_incl c && negb signal then info else None) with
      | None => (o, s2)
      | Some p =>
          match attr_get p (tc_begin c) with
          | Some id =>
              let st := match ti_stack ti1 id with Some l => l | None => [] end in
              (o, set_info s2 t (mkti nsec (fun j => if j =? id then Some (nsec :: st) else ti_stack ti1 j)))
          | None =>
              match attr_get p (tc_end c) with
              | None => (o, s2)
              | Some id =>
                  match ti_stack ti1 id with
                  | Some (b :: r) =>
                      (o ++ [OInclusive (sub64 nsec b)],
                       set_info s2 t (mkti nsec (fun j => if j =? id then Some r else ti_stack ti1 j)))
                  | _ => (o, mkts (ts_info s2) (ts_errs s2 + 1))
                  end
              end
          end
      end
  end.

(* what happens to the service: post_init_cb / create_thread_evt on a thread (Timer.cpp:115-133, 201)
   and snapshots *)
Inductive tev := TThread (t : nat) | TSnap (t : nat) (signal : bool) (nsec : N) (info : option attr_path).
Definition tstep (c : tcfg) (s : tsvc) (e : tev) : list tout * tsvc :=
  match e with
  | TThread t => ([], snd (acquire s t false))
  | TSnap t sg n i => snapshot_cb c s t sg n i
  end.
Fixpoint trun (c : tcfg) (s : tsvc) (l : list tev) : list (list tout) * tsvc :=
  match l with
  | [] => ([], s)
  | e :: r => let '(o, s1) := tstep c s e in let '(os, s2) := trun c s1 r in (o :: os, s2)
  end.
