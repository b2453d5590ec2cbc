(* A channel with the event, timer and aggregate services at work: the annotation interface
   (RuntimeModel), the event service (EventModel), the timer (TimerModel) and the runtime aggregation
   (RtAggModel) put together by Caliper::push_snapshot.
   src/caliper/Caliper.cpp: push_snapshot 856-871; EventTrigger.cpp: pre_begin_cb, pre_set_cb, pre_end_cb 152-266;
   Timer.cpp: snapshot_cb 78-113; Aggregate.cpp: process_snapshot_cb 232-240, one database per thread
   (acquire_tdb 79-101).
   Simplified: enable_snapshot_info is off, as in the built-in profiling configurations
   (src/caliper/controllers), so that no event.begin/end attributes are added to the records; the
   services were created before the history starts, and no attribute is created that the event or
   aggregate service would have to react to; no flush or clear runs meanwhile (C68); snapshots are not taken in
   signal handlers.  Each API call comes with the time the clock shows during the call. *)
From Verif Require Import Base VariantModel VariantSpec TreeModel RuntimeModel EventModel TimerModel RtAggModel.
Open Scope N_scope.

(* configuration: event service, timer, channel id, ids of the attributes time.offset,
   time.duration, time.inclusive, region.count, and the aggregate service's attribute lists *)
Record pcfg := mkpc { pc_event : ecfg; pc_timer : tcfg; pc_chn : N; pc_off : N; pc_dur : N; pc_inc : N; pc_cnt : N; pc_info : ainfo }.
(* runtime, event service, timer service, one aggregation database per thread *)
Record pst := mkp { p_rt : rt; p_es : esvc; p_ts : tsvc; p_db : N -> adb }.
Section Prof.
Variable rx : bytes -> bytes -> bool.   (* std::regex_match *)
Variable ea : N -> eattr.               (* Caliper::get_attribute *)
Variable cv : value -> cvar.            (* the C representation of values, in memory m *)
Variable m : memory.
Variable c : pcfg.

(* entries of the blackboards (Entry.h:30-64): reference or immediate *)
Definition ent_rent (tr : tree) (e : N * value) : rent :=
  match node_at tr (fst e) with
  | Some n => if n_attr n =? NAME_ATTR_ID then RImm (fst e) (cv (snd e)) else RRef (fst e)
  | None => RRef (fst e)
  end.
(* Blackboard::snapshot of the thread and the process blackboard, Caliper.cpp:861-863 *)
Definition snap_ctx (s : rt) (t : N) : list rent := map (ent_rent (r_tree s)) (bb_visible (r_tbb s t) ++ bb_visible (r_pbb s)).
(* SnapshotBuilder::append, SnapshotRecord.h:104-120: entries beyond the capacity are skipped *)
Definition add_ents (l es : list rent) : list rent := l ++ firstn (SNAP_MAX - length l) es.
Definition tout_rent (o : tout) : rent :=
  match o with OOffset n => RImm (pc_off c) (make_uint n) | ODuration n => RImm (pc_dur c) (make_uint n) | OInclusive n => RImm (pc_inc c) (make_uint n) end.
(* Caliper::push_snapshot with the trigger info of the event service (Caliper.cpp:856-871) *)
Definition push_snapshot (p : pst) (s : rt) (t now : N) (x : epush) : option pst :=
  let r1 := add_ents [] (snap_ctx s t) in
  let r2 := add_ents r1 (if p_count x then [RImm (pc_cnt c) (make_uint 1)] else []) in
  let (outs, ts) := snapshot_cb (pc_timer c) (p_ts p) (N.to_nat t) false now None in
  let r3 := add_ents r2 (map tout_rent outs) in
  match process m (p_db p t) (pc_info c) true r3 with
  | Some d => Some (mkp (p_rt p) (p_es p) ts (fun u => if u =? t then d else p_db p u))
  | None => None
  end.
(* a callback of the channel, EventTrigger.cpp:343-372; s: the runtime when it is invoked *)
Definition on_event (p : pst) (s : rt) (now : N) (e : ev) : option pst :=
  if ev_chn e =? pc_chn c then
    let a := ea (ev_attr e) in let v := cv (ev_val e) in
    let (pushes, es) :=
      match ev_kind e with
      | PreBegin => pre_open rx (pc_event c) KBegin (p_es p) a v m
      | PreSet => pre_open rx (pc_event c) KSet (p_es p) a v m
      | PreEnd => pre_end rx (pc_event c) (p_es p) a v m
      | PostBegin => ([], p_es p)
      end in
    fold_left (fun q x => match q with Some q => push_snapshot q s (ev_thr e) now x | None => None end)
      pushes (Some (mkp (p_rt p) es (p_ts p) (p_db p)))
  else Some p.
(* one API call by thread t at time now.  The pre-callbacks see the state before the call's update;
   the event service has no post-callbacks *)
Definition pstep (p : pst) (x : N * N * rop) : option pst :=
  let '(t, now, o) := x in
  match rt_step (p_rt p) t o with
  | SOk s _ =>
      match fold_left (fun q e => match q with Some q => on_event q (p_rt p) now e | None => None end)
              (skipn (length (r_log (p_rt p))) (r_log s)) (Some p) with
      | Some q => Some (mkp s (p_es q) (p_ts q) (p_db q))
      | None => None
      end
  | _ => None
  end.
Fixpoint prun (p : pst) (h : list (N * N * rop)) : option pst :=
  match h with
  | [] => Some p
  | x :: r => match pstep p x with Some p1 => prun p1 r | None => None end
  end.
(* a channel just created in runtime state s; sk: the node of the SKIPPED record *)
Definition pstart (s : rt) (es : esvc) (sk : N) : pst := mkp s es ts_init (fun _ => adb_init sk).
End Prof.
