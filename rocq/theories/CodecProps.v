(* Property theorems C03, C04, C06 *)
From Verif Require Import Base VlencModel VlencProofs VariantModel VariantSpec VariantProofs CodecModel CodecProofs.
Open Scope N_scope.

(* C03: every entry the API can build against metadata [db] (a reference to a known node,
   or an immediate value for a known attribute) is packed into 1..30 bytes and unpacking
   these bytes -- whatever follows them -- yields the same entry and consumes exactly them *)
Theorem C03_entry_roundtrip : forall db e rest, entry_of db e ->
  exists p, entry_pack e = Some p /\ (1 <= length p <= 30)%nat /\
            entry_unpack db (p ++ rest) = Some (e, rest).
Proof.
  exact (fun db e rest H =>
    match entry_roundtrip db e rest H with
    | ex_intro _ p (conj A (conj B C)) => ex_intro _ p (conj A (conj C B))
    end).
Qed.
Print Assumptions C03_entry_roundtrip.

(* packing an empty entry dereferences a null pointer *)
Theorem C03_empty_entry_refuted : entry_pack EEmpty = None.
Proof. exact eq_refl. Qed.
Print Assumptions C03_empty_entry_refuted.

(* a node 300 with data "int 5" under attribute 20, and an attribute node 21 *)
Definition ex_db : metadb := fun id =>
  if id =? 300 then Some (20, make_int 5) else if id =? 21 then Some (NAME_ATTR, make_int 0) else None.
Example C03_ex : entry_of ex_db (EEnt 300 20 (make_int 5)) /\ entry_of ex_db (EEnt 21 NAME_ATTR (make_int (-1))) /\
  entry_pack (EEnt 300 20 (make_int 5)) = Some [172; 2] /\
  entry_unpack ex_db [21; 2; 255;255;255;255;255;255;255;255;255;1; 9] = Some (EEnt 21 NAME_ATTR (make_int (-1)), [9]).
Proof.
  split; [|split; [|vm_compute; auto]].
  - split; [reflexivity|]. exists (make_int 5). split; [reflexivity|]. split; [intro H; discriminate H|reflexivity].
  - split; [reflexivity|]. exists (make_int 0). split; [reflexivity|]. split.
    + intros _. vm_compute. repeat split; try reflexivity; intro; discriminate.
    + intro H. contradiction H; reflexivity.
Qed.

(* C04: for every initial capacity and every list of nodes (ids below 2^63, data of any
   non-pointer type and any length below 4 GiB), appending them all never writes outside
   the reserved buffer and iterating returns exactly that list *)
Theorem C04_nodebuffer_roundtrip : forall reserved l, Forall ni_ok l ->
  exists b, nb_appends l (mknb 0 [] reserved) = Some b /\ nb_for_each b = Some l /\ nb_count b = length l.
Proof. exact nodebuffer_roundtrip. Qed.
Print Assumptions C04_nodebuffer_roundtrip.

(* beyond 2^63 the id wraps: the buffer returns a different node id *)
Theorem C04_large_id_refuted : exists i b j, u64_ok (ni_id i) /\ nb_append i nbuf_init = Some b /\
  nb_for_each b = Some [j] /\ ni_id i <> ni_id j.
Proof.
  exists (mkni 9223372036854775809 20 INV_ID (VInt 1)). eexists. exists (mkni 1 20 INV_ID (VInt 1)).
  split; [reflexivity|]. split; [vm_compute; reflexivity|]. split; [vm_compute; reflexivity|discriminate].
Qed.
Print Assumptions C04_large_id_refuted.

Example C04_ex : Forall ni_ok [mkni 300 8 9223372036854775807 (VStr [104;105]); mkni 0 8 INV_ID VInv].
Proof.
  repeat constructor; vm_compute; reflexivity.
Qed.

(* C06: [guarded_saves] performs save_snapshot for exactly those snapshots for which
   fits() was true, [accepted] lists them.  For every chunk size and every sequence of
   snapshots, no save writes outside of the chunk and flush returns the accepted
   snapshots, in order, with the same entries. *)
Theorem C06_chunk_roundtrip : forall db size rs,
  Forall (fun r => Forall (entry_of db) r /\ N.of_nat (length r) < W64) rs -> Forall (fun r => r <> []) rs ->
  exists c, guarded_saves (chunk_new size) rs = Some c /\
            chunk_flush db c = Some (accepted (chunk_new size) rs) /\
            N.of_nat (length (ck_data c)) <= size.
Proof.
  exact (fun db size rs H Hn =>
    match guarded_saves_rep db rs (chunk_new size) [] (chunk_new_rep db size) H Hn with
    | ex_intro _ c (conj A (conj B C)) =>
        ex_intro _ c (conj A (conj (chunk_rep_flush db c _ B)
          (eq_ind (ck_size c) (fun s => N.of_nat (length (ck_data c)) <= s) (proj1 (proj2 B)) _ C)))
    end).
Qed.
Print Assumptions C06_chunk_roundtrip.

(* a snapshot is only rejected if its worst-case encoding (30 bytes per entry plus 10)
   would reach the end of the chunk *)
Theorem C06_reject_only_if_full : forall c r, chunk_fits c r = false ->
  ck_size c <= N.of_nat (length (ck_data c)) + (10 + 30 * N.of_nat (length r)).
Proof.
  exact (fun c r H => eq_ind (N.of_nat (length r) * 30)
     (fun z => ck_size c <= N.of_nat (length (ck_data c)) + (10 + z))
     (proj1 (N.ltb_ge _ _) H) _ (N.mul_comm _ _)).
Qed.
Print Assumptions C06_reject_only_if_full.

Example C06_ex : let r := [EEnt 300 20 (make_int 5); EEnt 21 NAME_ATTR (make_int 7)] in
  accepted (chunk_new 80) [r; r; r] = [r; r] /\
  (match guarded_saves (chunk_new 80) [r; r; r] with Some c => chunk_flush ex_db c | None => None end) = Some [r; r].
Proof. vm_compute. auto. Qed.
