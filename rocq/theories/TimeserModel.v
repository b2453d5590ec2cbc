(* The time-series service: snapshots of its channel hand on and restart a time profile.
   src/services/monitor/Timeseries.cpp: snapshot_cb 42-73, post_init_cb 75-79, constructor 86-100;
   Aggregate.cpp: flush_cb 142-161, clear_cb 163-214; Caliper.cpp: flush 892-913, clear 937-942, exchange.
   The profile channel (services aggregate, event, timer; spec lines 159-173) is the model of ProfModel.
   Simplified: snapshots are taken between the API calls of the other channels' callbacks; calls of other
   threads may come between flush and clear, but not within either; the order of the threads' databases
   (m_tdb_list) is a parameter, the databases of finished threads are not deleted; the list may name
   threads without records.  The blackboard entry timeseries.starttime is kept apart from the runtime's
   blackboards: it is an immediate value that the profile channel neither aggregates nor groups by. *)
From Verif Require Import Base VariantModel VariantSpec FloatModel ArithModel TreeModel RuntimeModel EventModel TimerModel RtAggModel ProfModel.
Open Scope N_scope.

(* the profile channel and the ids of timeseries.starttime, timeseries.snapshot, timeseries.duration *)
Record tscfg := mktcfg { q_prof : pcfg; q_start : N; q_snap : N; q_dur : N }.
(* the profile channel's state, each thread's starttime entry (bits of a double), m_snapshots (unsigned) *)
Record tsst := mkts { z_prof : pst; z_start : N -> option N; z_snaps : N }.
(* a snapshot of the time-series channel: by which thread, at what time (double), with which trigger info;
   the API calls before it, since the previous snapshot, and those made between its flush and clear *)
Record round := mkround { rd_calls : list (N * N * rop); rd_thr : N; rd_clock : N; rd_info : list rent; rd_during : list (N * N * rop) }.
(* what it produces: the records handed to m_channel's process_snapshot, and the entries added to
   the record of the snapshot itself *)
Record sout := mkout { o_recs : list (list rent); o_own : list rent }.

Section Ts.
Variable rx : bytes -> bytes -> bool.
Variable ea : N -> eattr.
Variable cv : value -> cvar.
Variable m : memory.
Variable c : tscfg.
Variable ths : list N.   (* the threads in the order of m_tdb_list *)

(* Variant(v_prev): the empty variant when the thread has no entry *)
Definition start_var (o : option N) : cvar := match o with Some d => make_double d | None => empty_var end.
(* ts_entries, Timeseries.cpp:47-48 *)
Definition stamps (prev : option N) (n : N) : list rent := [RImm (q_start c) (start_var prev); RImm (q_snap c) (make_uint n)].
(* flush_cb, Aggregate.cpp:142-161 *)
Fixpoint flush_all (db : N -> adb) (l : list N) : option (list (list rent)) :=
  match l with
  | [] => Some []
  | u :: r => match aflush (db u) (pc_info (q_prof c)), flush_all db r with Some a, Some b => Some (a ++ b) | _, _ => None end
  end.
(* clear_cb, Aggregate.cpp:163-214 *)
Fixpoint clear_all (db : N -> adb) (l : list N) : option (N -> adb) :=
  match l with
  | [] => Some db
  | u :: r => match aclear (db u) with Some d => clear_all (fun w => if w =? u then d else db w) r | None => None end
  end.
(* snapshot_cb, Timeseries.cpp:42-73 *)
Definition snapshot (s : tsst) (r : round) : option (tsst * sout) :=
  let prev := z_start s (rd_thr r) in
  let st := stamps prev (z_snaps s) in
  match flush_all (p_db (z_prof s)) ths with
  | None => None
  | Some recs =>
      match prun rx ea cv m (q_prof c) (z_prof s) (rd_during r) with
      | None => None
      | Some p =>
          match clear_all (p_db p) ths with
          | None => None
          | Some db => Some (mkts (mkp (p_rt p) (p_es p) (p_ts p) db) (fun u => if u =? rd_thr r then Some (rd_clock r) else z_start s u) ((z_snaps s + 1) mod 4294967296),
                             mkout (map (fun f => f ++ rd_info r ++ st) recs) (st ++ [RImm (q_dur c) (make_double (dsub (rd_clock r) (to_double (start_var prev))))]))
          end
      end
  end.
Definition tround (s : tsst) (r : round) : option (tsst * sout) :=
  match prun rx ea cv m (q_prof c) (z_prof s) (rd_calls r) with
  | Some p => snapshot (mkts p (z_start s) (z_snaps s)) r
  | None => None
  end.
Fixpoint trun (s : tsst) (rs : list round) : option (tsst * list sout) :=
  match rs with
  | [] => Some (s, [])
  | r :: q => match tround s r with
              | Some (s1, o) => match trun s1 q with Some (s2, os) => Some (s2, o :: os) | None => None end
              | None => None
              end
  end.
(* after create and post_init_cb, called by thread u at time now *)
Definition tstart (s : rt) (es : esvc) (sk u now : N) : tsst := mkts (pstart s es sk) (fun w => if w =? u then Some now else None) 0.
End Ts.
