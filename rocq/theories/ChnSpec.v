(* Specification vocabulary for C63 / C64: histories of API calls with their results, and what
   they mean for channels - without blackboards, nodes or the channel lists of the code. *)
From Verif Require Import Base VariantModel VariantSpec TreeModel TreeSpec RuntimeModel RuntimeSpec ChnModel.

(* a call: thread, operation, result *)
Definition call := (N * kop * kout)%type.

(* the channel handle an operation uses (C++ interface) *)
Definition handle_of (o : kop) : option N :=
  match o with
  | KDelete c | KActivate c | KDeactivate c | KBegin c _ _ | KEnd c _ | KSet c _ _ | KGet c _ | KFlushWrite c => Some c
  | _ => None
  end.
Definition attrs_of (o : kop) : list attr :=
  match o with
  | KCreate _ a1 a2 a3 _ _ _ => [a1; a2; a3]
  | KBegin _ a _ | KEnd _ a | KSet _ a _ | KGet _ a => [a]
  | _ => []
  end.
Definition no_act (o : rop) : Prop := match o with OActivate _ | ODeactivate _ => False | _ => True end.
(* operations that may be called any time *)
Definition guarded (o : kop) : bool := match o with KIsActive _ | KRelease | KThreadExit => true | _ => false end.

(* well-formed calls: attributes exist, handles come from create_channel, the library has not been
   finalized, cali_channel_flush gets the id of an existing channel *)
Definition kop_ok (s : kst) (o : kop) : Prop :=
  (guarded o = false -> k_live s = true) /\
  Forall (attr_ok (r_tree (k_rt s))) (attrs_of o) /\
  (forall c, handle_of o = Some c -> c < k_next s) /\
  match o with
  | KApi o => rop_ok (k_rt s) o /\ no_act o
  | KcChannelFlush i _ => In i (k_all s)
  | _ => True
  end.
(* disciplined use: a handle is not used after its channel has been deleted (k_all s is what
   get_all_channels returns) *)
Definition kop_disc (s : kst) (o : kop) : Prop := forall c, handle_of o = Some c -> In c (k_all s).

(* thread t has exited *)
Definition exited (t : N) (h : list call) : bool :=
  existsb (fun k => match k with (t', KThreadExit, _) => t' =? t | _ => false end) h.
(* a history from initialization by thread t0 (thread ids are not reused) *)
Inductive k_hist (t0 : N) : list call -> kst -> Prop :=
| kh_init npb nblk tr : cfg_ok npb nblk -> tree_init npb nblk t0 = Some tr -> k_hist t0 [] (k_init tr t0)
| kh_step h s t o x s' : k_hist t0 h s -> exited t h = false -> kop_ok s o -> kop_disc s o ->
    k_step s t o = KOk s' x -> not_full (r_tree (k_rt s')) ->
    k_hist t0 (h ++ [(t, o, x)]) s'.

Definition without (c : N) (l : list N) : list N := filter (fun d => negb (d =? c)) l.

(* ids returned by create_channel, in order *)
Definition created1 (k : call) : list N :=
  match k with (_, KCreate _ _ _ _ _ _ _, KChn (Some c)) => [c] | _ => [] end.
Definition created (h : list call) : list N := flat_map created1 h.
(* does the call delete channel c? *)
Definition deletes (t0 c : N) (k : call) : bool :=
  match k with
  | (_, KDelete d, _) => d =? c
  | (_, KcDelete d, KDone) => d =? c
  | (_, KRelease, _) => true
  | (t, KThreadExit, _) => t =? t0
  | _ => false
  end.
(* channel c exists after history h: created, and not deleted since *)
Fixpoint alive_rev (t0 c : N) (r : list call) : bool :=   (* newest call first *)
  match r with
  | [] => false
  | k :: r' => if existsb (N.eqb c) (created1 k) then true else if deletes t0 c k then false else alive_rev t0 c r'
  end.
Definition alive (t0 c : N) (h : list call) : bool := alive_rev t0 c (rev h).
(* channel c is active after h: its last activation, deactivation or deletion is an activation *)
Fixpoint active_rev (t0 c : N) (r : list call) : bool :=
  match r with
  | [] => false
  | k :: r' =>
      if deletes t0 c k then false else
      match k with
      | (_, KActivate d, _) => if d =? c then true else active_rev t0 c r'
      | (_, KcActivate d, KDone) => if d =? c then true else active_rev t0 c r'
      | (_, KDeactivate d, _) => if d =? c then false else active_rev t0 c r'
      | (_, KcDeactivate d, KDone) => if d =? c then false else active_rev t0 c r'
      | _ => active_rev t0 c r'
      end
  end.
Definition active (t0 c : N) (h : list call) : bool := active_rev t0 c (rev h).

(* the channel a callback invocation belongs to *)
Definition ev_channel (e : kev) : N :=
  match e with
  | KAnn e => ev_chn e
  | KPostInit c | KPreFinish c | KFinish c | KWrite c _ _ | KSnap c _ _ | KClear c | KNewThread c _ | KRelThread c _ => c
  end.
Definition events_of (c : N) (l : list kev) : list kev := filter (fun e => ev_channel e =? c) l.
(* callbacks other than the ones that open and close a channel's life *)
Definition ordinary (e : kev) : Prop := match e with KPostInit _ | KPreFinish _ | KFinish _ => False | _ => True end.

(* the values begin/set/end on channel c made of its own context (C18-C21's context operations) *)
Definition ctx_call (c : N) (k : call) (x : actx) : actx :=
  match k with
  | (_, KCreate _ a1 a2 a3 v1 v2 v3, KChn (Some d)) =>
      if d =? c then c_set (c_set (c_set ctx_empty a1 v1) a2 v2) a3 v3 else x
  | (_, KBegin d a v, _) => if d =? c then c_begin x a v else x
  | (_, KSet d a v, _) => if d =? c then c_set x a v else x
  | (_, KEnd d a, _) => if d =? c then match c_open x a with Some _ => c_end x a | None => x end else x
  | _ => x
  end.
Definition ctx_of (c : N) (h : list call) : actx := fold_left (fun x k => ctx_call c k x) h ctx_empty.

(* the annotation state of the threads and the process (RuntimeSpec), from the annotation calls of
   the history; a failed end on a channel also puts the calling thread in the error state *)
Definition ann_call (k : call) (a : ast) : ast :=
  match k with
  | (t, KApi o, _) => fst (a_step a t o)
  | (t, KEnd _ _, KErr) => a_fail a t
  | _ => a
  end.
Definition ann_of (h : list call) : ast := fold_left (fun a k => ann_call k a) h ast_init.

(* what finalization does for channel c: write its output if flush_on_exit is set, then close it *)
Definition fin_events (s : kst) (t c : N) : list kev :=
  match k_body s c with
  | Some b => (if b_flush b then [KWrite c t (flush_rec (k_rt s) t (b_bb b))] else []) ++ [KPreFinish c; KFinish c]
  | None => []
  end.

(* the flush_on_exit setting channel c was created with *)
Definition flush_call (c : N) (k : call) (x : bool) : bool :=
  match k with (_, KCreate f _ _ _ _ _ _, KChn (Some d)) => if d =? c then f else x | _ => x end.
Definition flush_of (c : N) (h : list call) : bool := fold_left (fun x k => flush_call c k x) h false.

(* thread t has used the library: it is the initial thread, or made a call that needs a Caliper
   object *)
Definition uses (o : kop) : bool := match o with KIsActive _ | KThreadExit => false | _ => true end.
Definition known (t0 t : N) (h : list call) : bool :=
  (t =? t0) || existsb (fun k => (fst (fst k) =? t) && uses (snd (fst k))) h.
(* the thread notifications at the start of a call *)
Definition hello (t0 : N) (h : list call) (t : N) (o : kop) : list kev :=
  if uses o && negb (known t0 t h) then map (fun c => KNewThread c t) (filter (fun c => alive t0 c h) (created h)) else [].
Definition is_new_thread (e : kev) : bool := match e with KNewThread _ _ => true | _ => false end.

(* closing one channel at finalization *)
Definition closing (t0 : N) (h : list call) (t c : N) (l : list kev) : Prop :=
  exists info, l = (if flush_of c h then [KWrite c t info] else []) ++ [KPreFinish c; KFinish c].

(* the calls on channel c itself *)
Definition concerns (c : N) (k : call) : bool :=
  match k with
  | (_, KCreate _ _ _ _ _ _ _, KChn (Some d)) => d =? c
  | (_, KBegin d _ _, _) | (_, KSet d _ _, _) | (_, KEnd d _, _) => d =? c
  | _ => false
  end.
(* the annotation calls of threads *)
Definition api_calls (h : list call) : list (N * rop) := flat_map (fun k => match k with (t, KApi o, _) => [(t, o)] | _ => [] end) h.
(* callbacks of one begin / set / end on channel c *)
Definition chn_callbacks (act : bool) (c t : N) (x : actx) (o : kop) : list kev :=
  match o with
  | KBegin _ a v => if run_events a && act then [KAnn (mkev PreBegin c t (at_id a) v (c_see x a)); KAnn (mkev PostBegin c t (at_id a) v (c_see (c_begin x a v) a))] else []
  | KSet _ a v => if run_events a && act then [KAnn (mkev PreSet c t (at_id a) v (c_see x a))] else []
  | KEnd _ a => match c_open x a with
                | Some v => if run_events a && act then [KAnn (mkev PreEnd c t (at_id a) v (c_see x a))] else []
                | None => []
                end
  | _ => []
  end.
