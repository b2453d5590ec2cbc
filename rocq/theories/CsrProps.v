(* Property theorems C05 *)
From Verif Require Import Base VlencModel VariantModel CsrModel CsrProofs.
Local Open Scope nat_scope.

(* C05, memory safety: whatever sequence of append calls is made on a record of any
   buffer length >= 2, no access leaves the buffer *)
Theorem C05_append_memory_safe : forall L ops, 2 <= L ->
  exists c, csr_run (csr_new L) ops = Some c /\ length (cs_buf c) = L /\ csr_size c <= L.
Proof.
  exact (fun L ops H =>
    match csr_run_safe L ops (csr_new L) (new_safe L H) with
    | ex_intro _ c (conj A (conj B _)) =>
        ex_intro _ c (conj A (conj B (eq_ind _ (fun l => Nat.min (cs_ipos c + cs_ilen c) (length (cs_buf c)) <= l)
                                         (Nat.le_min_r _ _) _ B)))
    end).
Qed.
Print Assumptions C05_append_memory_safe.

(* C05, round trip.  Missing for the full property: records with more than 4 references,
   or references given in several calls, are corrupted by the code (refuted below).
   For every buffer length and every entry list with at most 4 references, the record
   decodes (as to_entrylist/unpack do) to the references and immediates in order, minus
   those reported as skipped; if the needed length fits (and there are fewer than 128
   immediates) nothing is skipped. *)
Theorem C05_roundtrip_partial : forall L es, 2 <= L ->
  length (refs_of es) <= 4 -> Forall u64_ok (refs_of es) -> Forall imm_ok (imms_of es) ->
  exists c s ns is rest, append_entries (csr_new L) es = Some (c, s) /\
    csr_decode (cs_buf c) = Some (ns, is, rest) /\ csr_size c + length rest = L /\
    (ns = refs_of es \/ ns = []) /\ subseq is (imms_of es) /\
    cs_skipped c = s /\ s + length ns + length is = length (refs_of es) + length (imms_of es) /\
    cs_needed c = 2 + length (enc_nodes (refs_of es)) + length (enc_imm (imms_of es)) /\
    (cs_needed c <= L -> length (imms_of es) < 128 -> ns = refs_of es /\ is = imms_of es).
Proof. exact csr_roundtrip. Qed.
Print Assumptions C05_roundtrip_partial.

(* SnapshotBuffer: any number of such records comes back record by record, in order *)
Theorem C05_snapshotbuffer_partial : forall L size rs, Forall (rec_fits L) rs ->
  exists cs b, build_all L rs = Some cs /\ sb_appends (sb_new size) cs = Some b /\
    sb_for_each b = Some (map (fun es => (refs_of es, imms_of es)) rs).
Proof. exact sb_records. Qed.
Print Assumptions C05_snapshotbuffer_partial.

(* five references in the default 512 byte record: nothing is reported as skipped, yet
   the record decodes to something else *)
Theorem C05_five_references_refuted : exists es c,
  append_entries (csr_new 512) es = Some (c, 0) /\
  (forall rest, csr_decode (cs_buf c) <> Some (refs_of es, imms_of es, rest)) /\
  exists rest, csr_decode (cs_buf c) = Some ([5; 2; 3; 4; 0]%N, [], rest).
Proof.
  exists [SRef 1%N; SRef 2%N; SRef 3%N; SRef 4%N; SRef 5%N]. eexists.
  split; [vm_compute; reflexivity|]. split.
  - intros rest H. vm_compute in H. discriminate H.
  - eexists. vm_compute. reflexivity.
Qed.
Print Assumptions C05_five_references_refuted.

(* two append calls with one reference each *)
Theorem C05_two_calls_refuted : exists c,
  csr_run (csr_new 64) [ONodes [1%N]; ONodes [2%N]] = Some c /\ cs_skipped c = 0 /\
  forall is rest, csr_decode (cs_buf c) <> Some ([1; 2]%N, is, rest).
Proof.
  eexists. split; [vm_compute; reflexivity|]. split; [reflexivity|].
  intros is rest H. vm_compute in H. discriminate H.
Qed.
Print Assumptions C05_two_calls_refuted.

Example C05_ex : let es := [SRef 300%N; SImm 20%N (make_int 5); SNone; SRef 7%N; SImm 21%N (make_uint 9)] in
  rec_fits 64 es /\ (match append_entries (csr_new 16) es with
     | Some (c, s) => (s, option_map fst (csr_decode (cs_buf c)))
     | None => (99, None) end) = (0, Some ([300; 7]%N, [(20%N, make_int 5); (21%N, make_uint 9)])) /\
  (match append_entries (csr_new 8) es with
     | Some (c, s) => (s, option_map fst (csr_decode (cs_buf c)))
     | None => (99, None) end) = (2, Some ([300; 7]%N, [])).
Proof.
  split; [|vm_compute; auto].
  unfold rec_fits. cbn [refs_of imms_of].
  assert (K : forall a v, (a <? W64)%N = true -> (ts v <? W64)%N && (word v <? W64)%N && (extract_type (ts v) <=? MAXTYPE)%N = true -> imm_ok (a, v)).
  { intros a v Ha Hv. apply andb_prop in Hv as [Hv H3]. apply andb_prop in Hv as [H1 H2].
    repeat split; cbn [fst snd]; [apply N.ltb_lt, Ha|apply N.ltb_lt, H1|apply N.ltb_lt, H2|apply N.leb_le, H3]. }
  split; [simpl; lia|]. split; [repeat constructor; apply N.ltb_lt; vm_compute; reflexivity|].
  split; [repeat constructor; apply K; vm_compute; reflexivity|].
  split; [simpl; lia|]. apply Nat.leb_le. vm_compute. reflexivity.
Qed.
