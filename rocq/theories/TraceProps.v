(* Property theorems C07 *)
From Verif Require Import Base VlencModel VariantModel CodecModel CodecProofs CodecProps TraceModel TraceProofs.
Local Open Scope nat_scope.

(* C07 (policies grow and stop).  For every history of snapshots from any number of threads,
   thread starts/exits, flushes (with snapshots arriving meanwhile) and clears:
   no write leaves a chunk; every processed snapshot is stored, dropped or lost; the counter
   reports exactly the dropped ones; under "grow" none is lost; and a flush of thread t
   returns exactly the snapshots t stored since the last clear, chunk by chunk.
   Missing: the flush order is chronological only within a chunk, "stop" loses the
   overflowing snapshot uncounted, and the "flush" policy writes outside the buffer (below). *)
Theorem C07_conservation_partial : forall db p size ops, p = PGrow \/ p = PStop ->
  ops_ok db ops -> (p = PGrow -> ops_fit size ops) ->
  exists s tr, trace_run p size trace_init ops = Some (s, tr) /\ map fst tr = ops /\
    tr_dropped s = count is_dropped tr /\
    (p = PGrow -> forall e, In e tr -> snd e <> OLost) /\
    (forall e, In e tr -> is_snap (fst e) = true <-> snd e <> ONone) /\
    forall t, exists segs, concat segs = kept t tr /\ flush_out db s t = Some (concat (rev segs)) /\
                           (p = PStop -> length segs <= 1).
Proof. exact trace_conservation. Qed.
Print Assumptions C07_conservation_partial.

Definition r1 := [EEnt 300%N 20%N (make_int 5)].
Definition r2 := [EEnt 21%N NAME_ATTR (make_int 7)].

(* grow: two snapshots in different chunks are flushed in reverse chronological order *)
Theorem C07_grow_order_refuted : exists ops s tr, ops_ok ex_db ops /\ ops_fit 42 ops /\
  trace_run PGrow 42 trace_init ops = Some (s, tr) /\ kept 0 tr = [r1; r2] /\ flush_out ex_db s 0 = Some [r2; r1].
Proof.
  exists [TSnap 0 true r1; TSnap 0 true r2]. eexists. eexists. split; [|split; [|split; [vm_compute; reflexivity|split; vm_compute; reflexivity]]].
  - intros t a rec [H|[H|[]]]; injection H as <- <- <-; (split; [constructor; [|constructor]|vm_compute; reflexivity]).
    + exact (proj1 C03_ex).
    + split; [reflexivity|]. exists (make_int 0). split; [reflexivity|]. split.
      * intros _. vm_compute. repeat split; try reflexivity; intro; discriminate.
      * intro H. contradiction H; reflexivity.
  - intros t a rec [H|[H|[]]]; injection H as <- <- <-; vm_compute; reflexivity.
Qed.
Print Assumptions C07_grow_order_refuted.

(* stop: the snapshot that finds the buffer full is neither stored nor counted as dropped *)
Theorem C07_stop_uncounted_refuted : exists ops s tr,
  trace_run PStop 42 trace_init ops = Some (s, tr) /\ tr_dropped s = 0 /\
  length (kept 0 tr) = 1 /\ count is_snap ops = 2.
Proof.
  exists [TSnap 0 true r1; TSnap 0 true r2]. eexists. eexists. split; [vm_compute; reflexivity|]. vm_compute. auto.
Qed.
Print Assumptions C07_stop_uncounted_refuted.

(* flush: after the buffer was written out it is not reset, and the snapshot is stored behind
   the end of the chunk *)
Theorem C07_flush_overflow_refuted : exists ops, ops_fit 42 ops /\
  trace_run PFlush 42 trace_init (removelast ops) <> None /\ trace_run PFlush 42 trace_init ops = None.
Proof.
  exists (repeat (TSnap 0 true r1) 15). split; [|split; [vm_compute; discriminate|vm_compute; reflexivity]].
  intros t a rec H. apply repeat_spec in H. injection H as -> -> ->. vm_compute. reflexivity.
Qed.
Print Assumptions C07_flush_overflow_refuted.

(* grow with buffer_size=0: the new chunk is too small, and is written to anyway *)
Theorem C07_grow_zero_size_refuted : trace_run PGrow 0 trace_init [TSnap 0 true r1] = None.
Proof. vm_compute. reflexivity. Qed.
Print Assumptions C07_grow_zero_size_refuted.

Example C07_ex : exists s tr, trace_run PGrow 42 trace_init
    [TSnap 0 true r1; TSnap 1 false r1; TSnap 0 true r2; TFlushStart 0; TSnap 0 true r1; TFlushEnd 0; TSnap 0 true r1] = Some (s, tr)
  /\ tr_dropped s = 2 /\ kept 0 tr = [r1; r2; r1] /\ flush_out ex_db s 0 = Some [r1; r2; r1].
Proof. eexists. eexists. split; [vm_compute; reflexivity|]. vm_compute. auto. Qed.
