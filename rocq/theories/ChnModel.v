(* Model of the channel interface: Channel / ChannelBody, Caliper::create_channel ...
   Caliper::finalize and the channel part of cali.cpp.  Services (the subscribers of a channel's
   callbacks) are not modelled: the log records every callback invocation on the channel. *)
From Verif Require Import Base VariantModel VariantSpec TreeModel RuntimeModel.

(* struct ChannelBody, Caliper.cpp:156-184: is_active, flush_on_exit (from the channel
   configuration), channel_blackboard.  Name and callback lists are not modelled. *)
Record body := mkbody { b_active : bool; b_flush : bool; b_bb : bb }.

(* callback invocations (struct Channel::Events, Caliper.h:66-140): annotation callbacks,
   post_init_evt, pre_finish_evt, finish_evt, write_output_evt (with the entries of the flush
   record), snapshot + process_snapshot, clear_evt, create_thread_evt, release_thread_evt *)
Inductive kev :=
| KAnn (e : ev)
| KPostInit (c : N) | KPreFinish (c : N) | KFinish (c : N)
| KWrite (c t : N) (info : list (list (N * value)))
| KSnap (c t : N) (trigger : list (list (N * value)))
| KClear (c : N)
| KNewThread (c t : N) | KRelThread (c t : N).

(* GlobalData (Caliper.cpp:283-330): the annotation state of RuntimeModel (its r_act is
   active_channels), next channel id, all_channels, the channel bodies (kept for the holders of
   Channel handles after deletion), threads with thread data, the initial thread,
   s_init_lock == 0, and the callback log *)
Record kst := mkk { k_rt : rt; k_next : N; k_all : list N; k_body : N -> option body;
                    k_thr : list N; k_main : N; k_live : bool; k_log : list kev }.

Definition klog (s : kst) (l : list kev) : kst :=
  mkk (k_rt s) (k_next s) (k_all s) (k_body s) (k_thr s) (k_main s) (k_live s) (k_log s ++ l).
Definition with_rt (s : kst) (r : rt) : kst :=
  mkk r (k_next s) (k_all s) (k_body s) (k_thr s) (k_main s) (k_live s) (k_log s).
Definition with_body (s : kst) (c : N) (b : body) : kst :=
  mkk (k_rt s) (k_next s) (k_all s) (upd (k_body s) c (Some b)) (k_thr s) (k_main s) (k_live s) (k_log s).
Definition with_all (s : kst) (l : list N) : kst :=
  mkk (k_rt s) (k_next s) l (k_body s) (k_thr s) (k_main s) (k_live s) (k_log s).
Definition with_thr (s : kst) (l : list N) : kst :=
  mkk (k_rt s) (k_next s) (k_all s) (k_body s) l (k_main s) (k_live s) (k_log s).
Definition with_dead (s : kst) : kst :=
  mkk (k_rt s) (k_next s) (k_all s) (k_body s) (k_thr s) (k_main s) false (k_log s).
Definition with_tree (r : rt) (tr : tree) : rt := mkrt tr (r_tbb r) (r_pbb r) (r_err r) (r_act r) (r_log r).
Definition drop_log (r : rt) : rt := mkrt (r_tree r) (r_tbb r) (r_pbb r) (r_err r) (r_act r) [].

(* results of API calls *)
Inductive kout := KDone | KErr | KVal (v : option value) | KChn (c : option N) | KBool (b : bool) | KChns (l : list N).
(* KBad: a null pointer is dereferenced (empty Channel handle, or use after finalization);
   KFull: the context tree ran out of memory *)
Inductive kres := KOk (s : kst) (o : kout) | KFull (tr : tree) | KBad.

(* Caliper::instance, Caliper.cpp:1463-1508, when Caliper is initialized: a thread's first call
   creates its thread data and notifies all channels (lines 1500-1506) *)
Definition ensure (s : kst) (t : N) : kst :=
  if existsb (N.eqb t) (k_thr s) then s
  else klog (with_thr s (k_thr s ++ [t])) (map (fun c => KNewThread c t) (k_all s)).

(* The annotation interface (begin/end/set/get on thread and process scope), RuntimeModel *)
Definition conv (x : out) : kout := match x with ODone => KDone | OError => KErr | OVal v => KVal v end.
Definition k_api (s : kst) (t : N) (o : rop) : kres :=
  match rt_step (k_rt s) t o with
  | SOk r x => KOk (klog (with_rt s (drop_log r)) (map KAnn (r_log r))) (conv x)
  | SCrash tr => KFull tr
  | SUB => KBad
  end.

(* "if (run_events && chB->is_active) chB->events.xxx_evt(this, chB, attr, data)" *)
Definition kfire (s : kst) (k : evk) (t c : N) (a : attr) (v : value) : kst :=
  match k_body s c with
  | Some b => if run_events a && b_active b
              then klog s [KAnn (mkev k c t (at_id a) v (ent_view (r_tree (k_rt s)) (bget (b_bb b) (bb_key a))))] else s
  | None => s
  end.
(* store the new channel blackboard *)
Definition put_chn (s : kst) (c : N) (tr : tree) (m : bb) : kst :=
  match k_body s c with
  | Some b => with_body (with_rt s (with_tree (k_rt s) tr)) c (mkbody (b_active b) (b_flush b) m)
  | None => s
  end.
Definition kcommit (s : kst) (c : N) (h : hres) (k : kst -> kres) : kres :=
  match h with HOk tr m => k (put_chn s c tr m) | HCrash tr => KFull tr | HUB => KBad end.

(* Caliper::begin(ChannelBody*, ...), Caliper.cpp:1107-1126 *)
Definition chn_begin (s : kst) (t c : N) (a : attr) (v : value) : kres :=
  match k_body s c with
  | None => KBad
  | Some b => kcommit (kfire s PreBegin t c a v) c (handle_begin (r_tree (k_rt s)) t a v (b_bb b))
                      (fun s2 => KOk (kfire s2 PostBegin t c a v) KDone)
  end.
(* Caliper::end(ChannelBody*, ...), Caliper.cpp:1128-1158: an unmatched end sets the THREAD's
   stack_error flag *)
Definition chn_end (s : kst) (t c : N) (a : attr) : kres :=
  match k_body s c with
  | None => KBad
  | Some b =>
      let cur := load_current (r_tree (k_rt s)) a (bb_key a) (b_bb b) in
      match snd cur with
      | None => KOk (with_rt s (set_err (k_rt s) t)) KErr
      | Some (_, v) => kcommit (kfire s PreEnd t c a v) c (handle_end (r_tree (k_rt s)) t a cur (bb_key a) (b_bb b))
                               (fun s2 => KOk s2 KDone)
      end
  end.
(* Caliper::set(ChannelBody*, ...), Caliper.cpp:1160-1173 *)
Definition chn_set (s : kst) (t c : N) (a : attr) (v : value) : kres :=
  match k_body s c with
  | None => KBad
  | Some b => kcommit (kfire s PreSet t c a v) c (handle_set (r_tree (k_rt s)) t a v (b_bb b)) (fun s2 => KOk s2 KDone)
  end.
(* Caliper::get(ChannelBody*, ...), Caliper.cpp:1213-1221 *)
Definition chn_get (s : kst) (c : N) (a : attr) : kres :=
  match k_body s c with
  | None => KBad
  | Some b => KOk s (KVal (option_map snd (ent_get (r_tree (k_rt s)) (bget (b_bb b) (bb_key a)) (at_id a))))
  end.

(* Caliper::create_channel, Caliper.cpp:1337-1376: l are the cali.channel, starttime.sec and
   starttime.nsec attributes (created in the tree before, see OTree) with their values;
   registering the services is not modelled *)
Fixpoint chn_sets (s : kst) (t c : N) (l : list (attr * value)) : kres :=
  match l with
  | [] => KOk s KDone
  | (a, v) :: r => match chn_set s t c a v with KOk s1 _ => chn_sets s1 t c r | x => x end
  end.
Definition chn_create (s : kst) (t : N) (flush : bool) (l : list (attr * value)) : kres :=
  let c := k_next s in
  let s0 := mkk (k_rt s) (c + 1) (k_all s ++ [c]) (upd (k_body s) c (Some (mkbody false flush [])))
                (k_thr s) (k_main s) (k_live s) (k_log s) in
  match chn_sets s0 t c l with
  | KOk s1 _ => KOk (klog s1 [KPostInit c]) (KChn (Some c))
  | x => x
  end.

(* Caliper::get_channel, Caliper.cpp:1378-1385 *)
Definition chn_find (s : kst) (i : N) : option N := find (N.eqb i) (k_all s).
(* Caliper::delete_channel, Caliper.cpp:1393-1409.  is_active is not changed. *)
Definition chn_delete (s : kst) (c : N) : kres :=
  match k_body s c with
  | None => KBad
  | Some _ => let s1 := klog s [KPreFinish c] in
              let s2 := with_rt s1 (rt_deactivate (k_rt s1) c) in
              let s3 := with_all s2 (remove1 c (k_all s2)) in
              KOk (klog s3 [KFinish c]) KDone
  end.
(* Caliper::activate_channel, Caliper.cpp:1411-1420 *)
Definition chn_activate (s : kst) (c : N) : kres :=
  match k_body s c with
  | None => KBad
  | Some b => let s1 := with_body s c (mkbody true (b_flush b) (b_bb b)) in
              KOk (with_rt s1 (rt_activate (k_rt s1) c)) KDone
  end.
(* Caliper::deactivate_channel, Caliper.cpp:1422-1429 *)
Definition chn_deactivate (s : kst) (c : N) : kres :=
  match k_body s c with
  | None => KBad
  | Some b => let s1 := with_rt s (rt_deactivate (k_rt s) c) in
              KOk (with_body s1 c (mkbody false (b_flush b) (b_bb b))) KDone
  end.
(* Channel::is_active, Caliper.cpp:225-228 *)
Definition chn_is_active (s : kst) (c : N) : kres :=
  KOk s (KBool (match k_body s c with Some b => b_active b | None => false end)).

(* Caliper::flush_and_write, Caliper.cpp:914-935, with an empty input record: the visible entries
   of the channel, process and thread blackboards; the record holds SNAP_MAX entries (lines 36-41),
   further ones are dropped (C45) *)
Definition views (tr : tree) (m : bb) : list (list (N * value)) := map (fun e => ent_view tr (Some e)) (bb_visible m).
Definition SNAP_MAX : nat := 120.
Definition flush_rec (r : rt) (t : N) (m : bb) : list (list (N * value)) :=
  firstn SNAP_MAX (views (r_tree r) m ++ views (r_tree r) (r_pbb r) ++ views (r_tree r) (r_tbb r t)).
Definition chn_write (s : kst) (t c : N) : kres :=
  match k_body s c with
  | None => KBad
  | Some b => KOk (klog s [KWrite c t (flush_rec (k_rt s) t (b_bb b))]) KDone
  end.
(* Caliper::clear, Caliper.cpp:937-942 *)
Definition chn_clear (s : kst) (c : N) : kres :=
  match k_body s c with None => KBad | Some _ => KOk (klog s [KClear c]) KDone end.

(* Caliper::finalize, Caliper.cpp:1440-1452; fuel: the number of channels *)
Fixpoint fin_loop (n : nat) (s : kst) (t : N) : kres :=
  match n with
  | O => KOk s KDone
  | S n' =>
      match k_all s with
      | [] => KOk s KDone
      | c :: _ =>
          let r := match k_body s c with
                   | Some b => if b_flush b then chn_write s t c else KOk s KDone
                   | None => KBad
                   end in
          match r with
          | KOk s1 _ => match chn_delete s1 c with KOk s2 _ => fin_loop n' s2 t | x => x end
          | x => x
          end
      end
  end.
(* finalize + ~GlobalData (s_init_lock = 2), Caliper.cpp:301-330, 1515-1524 *)
Definition k_release (s : kst) (t : N) : kres :=
  match fin_loop (length (k_all s)) s t with
  | KOk s1 _ => KOk (with_dead s1) KDone
  | x => x
  end.
(* ~S_TLSObject, Caliper.cpp:436-451: the initial thread finalizes, another thread notifies all
   channels (release_thread, Caliper.cpp:1432-1438) *)
Definition k_thread_exit (s : kst) (t : N) : kres :=
  if existsb (N.eqb t) (k_thr s) then
    if t =? k_main s then k_release s t
    else KOk (klog (with_thr s (remove1 t (k_thr s))) (map (fun c => KRelThread c t) (k_all s))) KDone
  else KOk s KDone.

(* cali_push_snapshot, cali.cpp:122-150: trigger record given as entries; all channels whose
   is_active flag is set *)
Definition k_push (s : kst) (t : N) (trig : list (list (N * value))) : kst :=
  klog s (map (fun c => KSnap c t trig)
              (filter (fun c => match k_body s c with Some b => b_active b | None => false end) (k_all s))).

Inductive kop :=
| KApi (o : rop)                                            (* thread/process annotations; OTree *)
| KCreate (flush : bool) (an asec ansec : attr) (vn vsec vnsec : value)
| KDelete (c : N) | KActivate (c : N) | KDeactivate (c : N) | KIsActive (c : N)   (* C++: by handle *)
| KBegin (c : N) (a : attr) (v : value) | KEnd (c : N) (a : attr) | KSet (c : N) (a : attr) (v : value) | KGet (c : N) (a : attr)
| KFlushWrite (c : N)
| KFind (i : N) | KAll
| KPush (trig : list (list (N * value)))
| KRelease | KThreadExit
(* the C interface: channels are looked up by id, cali.cpp:645-745 *)
| KcDelete (i : N) | KcActivate (i : N) | KcDeactivate (i : N) | KcIsActive (i : N)
| KcFlush (clear : bool) | KcChannelFlush (i : N) (clear : bool).

Definition then_clear (r : kres) (clear : bool) (c : N) : kres :=
  match r with KOk s1 o => if clear then chn_clear s1 c else KOk s1 o | x => x end.

Definition k_run1 (s : kst) (t : N) (o : kop) : kres :=
  match o with
  | KApi o => k_api s t o
  | KCreate f an asec ansec vn vsec vnsec => chn_create s t f [(an, vn); (asec, vsec); (ansec, vnsec)]
  | KDelete c => chn_delete s c
  | KActivate c => chn_activate s c
  | KDeactivate c => chn_deactivate s c
  | KIsActive c => chn_is_active s c
  | KBegin c a v => chn_begin s t c a v
  | KEnd c a => chn_end s t c a
  | KSet c a v => chn_set s t c a v
  | KGet c a => chn_get s c a
  | KFlushWrite c => chn_write s t c
  | KFind i => KOk s (KChn (chn_find s i))
  | KAll => KOk s (KChns (k_all s))
  | KPush trig => KOk (k_push s t trig) KDone
  | KRelease => k_release s t
  | KThreadExit => k_thread_exit s t
  (* cali_delete_channel, cali.cpp:663-672; an unknown id is only reported in the log *)
  | KcDelete i => match chn_find s i with Some c => chn_delete s c | None => KOk s KErr end
  (* cali_activate_channel, cali.cpp:674-683 *)
  | KcActivate i => match chn_find s i with Some c => chn_activate s c | None => KOk s KErr end
  (* cali_deactivate_channel, cali.cpp:685-694 *)
  | KcDeactivate i => match chn_find s i with Some c => chn_deactivate s c | None => KOk s KErr end
  (* cali_channel_is_active, cali.cpp:696-706 *)
  | KcIsActive i => match chn_find s i with Some c => chn_is_active s c | None => KOk s (KBool false) end
  (* cali_flush, cali.cpp:708-719: channel id 0 *)
  | KcFlush clear => match chn_find s 0 with Some c => then_clear (chn_write s t c) clear c | None => KOk s KDone end
  (* cali_channel_flush, cali.cpp:721-730: no check of the returned handle *)
  | KcChannelFlush i clear => match chn_find s i with Some c => then_clear (chn_write s t c) clear c | None => KBad end
  end.

(* An API call of thread t.  The Caliper object of the call (Caliper::instance) registers a new
   thread; after finalization it is empty and the first access through it is a null pointer
   access, except for Caliper::release (guarded, Caliper.cpp:1519), the thread destructor
   (s_init_lock == 0 is checked, line 440) and Channel::is_active (no Caliper object). *)
Definition k_step (s : kst) (t : N) (o : kop) : kres :=
  match o with
  | KIsActive c => chn_is_active s c
  | KThreadExit => if k_live s then k_thread_exit s t else KOk s KDone
  | KRelease => if k_live s then k_release (ensure s t) t else KOk s KDone
  | _ => if k_live s then k_run1 (ensure s t) t o else KBad
  end.

(* after initialization by thread t0 (Caliper.cpp:1477-1495); creating the default channel
   (make_default_channel) is a KCreate / KActivate by t0 *)
Definition k_init (tr : tree) (t0 : N) : kst := mkk (rt_init tr) 0 [] (fun _ => None) [t0] t0 true [].
