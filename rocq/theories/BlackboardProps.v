(* Property theorems C12, C13, C14 *)
From Verif Require Import Base VariantModel CodecModel BlackboardModel BlackboardSpec BlackboardProofs.
From Coq Require Import Permutation.
Local Open Scope nat_scope.

(* C12: for every history, every operation terminates and all results (get, exchange) are
   those of a map; afterwards every get returns the map's value *)
Theorem C12_blackboard_is_map : forall ops, keys_ok ops ->
  exists b, bb_run bb_init ops = Some (b, snd (s_run s_init ops)) /\
            forall k, bb_get b k = Some (s_get (fst (s_run s_init ops)) k).
Proof.
  exact (fun ops _ =>
    match run_refines ops bb_init s_init refines_init with
    | ex_intro _ b (conj E R) =>
        ex_intro _ b (conj E (fun k => get_refines b _ k R))
    end).
Qed.
Print Assumptions C12_blackboard_is_map.

(* The specification really is a map: reads of the same key see the last write, reads of
   other keys are unaffected (below capacity). *)
Theorem C12_spec_get_after_set : forall s k v incl k', length (s_map s) < CAP ->
  s_get (fst (s_step s (BSet k v incl))) k' = if (k =? k')%N then v else s_get s k'.
Proof. exact s_get_put. Qed.
Print Assumptions C12_spec_get_after_set.
Theorem C12_spec_get_after_del : forall ops k k', let s := fst (s_run s_init ops) in
  s_get (fst (s_step s (BDel k))) k' = if (k =? k')%N then EEmpty else s_get s k'.
Proof. exact s_get_del. Qed.
Print Assumptions C12_spec_get_after_del.

(* C13.  Missing: with hidden keys, deletions, and keys that collide modulo 1021 the
   snapshot is wrong (refuted below).  For all other histories a snapshot contains exactly
   the visible entries, each once.  (visible = flag given when the key was first set.) *)
Theorem C13_snapshot_visible_partial : forall ops, keys_ok ops ->
  no_del ops \/ only_visible ops \/ no_collision ops ->
  exists b, bb_run bb_init ops = Some (b, snd (s_run s_init ops)) /\
            Permutation (bb_snapshot b) (visible (s_map (fst (s_run s_init ops)))).
Proof. exact (fun ops _ => snapshot_run ops). Qed.
Print Assumptions C13_snapshot_visible_partial.

(* keys 5 (visible), 1026 = 5 + 1021 (hidden), delete 5: the hidden entry shows up *)
Theorem C13_hidden_leak_refuted : exists ops b, keys_ok ops /\
  option_map fst (bb_run bb_init ops) = Some b /\
  visible (s_map (fst (s_run s_init ops))) = [] /\ bb_snapshot b <> [] .
Proof.
  exists [BSet 5%N (EEnt 1%N 1%N (make_int 1)) true; BSet 1026%N (EEnt 2%N 2%N (make_int 2)) false; BDel 5%N].
  eexists. split; [repeat constructor; discriminate|]. split; [vm_compute; reflexivity|]. split; [vm_compute; reflexivity|].
  vm_compute. discriminate.
Qed.
Print Assumptions C13_hidden_leak_refuted.

(* keys 5 (hidden), 1026 (visible), delete 5: the visible entry is missing *)
Theorem C13_visible_missing_refuted : exists ops b, keys_ok ops /\
  option_map fst (bb_run bb_init ops) = Some b /\
  visible (s_map (fst (s_run s_init ops))) <> [] /\ bb_snapshot b = [].
Proof.
  exists [BSet 5%N (EEnt 1%N 1%N (make_int 1)) false; BSet 1026%N (EEnt 2%N 2%N (make_int 2)) true; BDel 5%N].
  eexists. split; [repeat constructor; discriminate|]. split; [vm_compute; reflexivity|]. split; [vm_compute; discriminate|].
  vm_compute. reflexivity.
Qed.
Print Assumptions C13_visible_missing_refuted.

(* C14: in every history at most 910 entries are stored; a set of a new key beyond that is
   skipped, counted, and leaves all entries unchanged; a set of a stored key always succeeds.
   (Termination of every search, for every history, is part of C12.) *)
Theorem C14_overflow_contained : forall ops, keys_ok ops -> let s := fst (s_run s_init ops) in
  exists b, option_map fst (bb_run bb_init ops) = Some b /\
    bb_num b = length (s_map s) /\ bb_num b <= 910 /\ bb_skipped b = s_skipped s.
Proof. exact (fun ops _ => overflow_contained ops). Qed.
Print Assumptions C14_overflow_contained.

Theorem C14_skip_keeps_entries : forall s k v incl, slookup (s_map s) k = None -> 910 <= length (s_map s) ->
  fst (s_step s (BSet k v incl)) = mksbb (s_map s) (S (s_skipped s)).
Proof. exact s_put_full. Qed.
Print Assumptions C14_skip_keeps_entries.

Theorem C14_update_never_rejected : forall s k v incl x, slookup (s_map s) k = Some x ->
  s_get (fst (s_step s (BSet k v incl))) k = v /\ s_skipped (fst (s_step s (BSet k v incl))) = s_skipped s.
Proof. exact s_put_update. Qed.
Print Assumptions C14_update_never_rejected.

(* non-vacuity: collisions, wrap-around at slot 1020, deletion with back-shift *)
Example C12_ex : let e n := EEnt n n (make_int 1) in
  let ops := [BSet 1020%N (e 1%N) true; BSet 2041%N (e 2%N) true; BSet 0%N (e 3%N) true; BExch 2041%N (e 4%N) true;
              BDel 1020%N; BGet 2041%N; BGet 0%N; BGet 1020%N] in
  keys_ok ops /\ option_map snd (bb_run bb_init ops) = Some [EEmpty; EEmpty; EEmpty; e 2%N; EEmpty; e 4%N; e 3%N; EEmpty] /\
  option_map (fun r => bb_snapshot (fst r)) (bb_run bb_init ops) = Some [e 3%N; e 4%N].
Proof. split; [repeat constructor; discriminate|]. split; vm_compute; reflexivity. Qed.
