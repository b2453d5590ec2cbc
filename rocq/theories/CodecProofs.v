From Verif Require Import Base VlencModel VlencProofs VariantModel VariantSpec VariantProofs CodecModel.

(* ---- Entry ---- *)
Lemma entry_roundtrip db e rest : entry_of db e ->
  exists p, entry_pack e = Some p /\ entry_unpack db (p ++ rest) = Some (e, rest) /\
            (1 <= length p <= 30)%nat.
Proof.
  destruct e as [|id attr v]; [contradiction|]. intros (Hid & data & Hdb & Himm & Href).
  eexists. split; [reflexivity|].
  unfold entry_unpack. rewrite <- app_assoc, vldec_vlenc by exact Hid. rewrite Hdb.
  assert (L := vlenc_length_le id Hid). assert (L0 := vlenc_nonempty id).
  destruct (N.eqb_spec attr NAME_ATTR) as [E|E].
  - destruct (Himm E) as [Hv Ht]. rewrite var_pack_unpack by assumption.
    split; [reflexivity|]. rewrite app_length. assert (B := var_pack_length v Hv). lia.
  - rewrite (Href E). split; [reflexivity|]. rewrite app_length. simpl. lia.
Qed.

(* ---- little endian ---- *)
Lemma le_enc_length k : forall n, length (le_enc k n) = k.
Proof. induction k; intro n; simpl; auto. Qed.

Lemma le_dec_enc k : forall n, n < 256 ^ N.of_nat k -> le_dec (le_enc k n) = n.
Proof.
  induction k as [|k IH]; intros n H; simpl.
  - change (256 ^ N.of_nat 0) with 1 in H. lia.
  - rewrite IH.
    + rewrite N.add_comm. symmetry. apply N.div_mod'.
    + rewrite Nat2N.inj_succ, N.pow_succ_r' in H. apply N.div_lt_upper_bound; lia.
Qed.

(* values with C ranges, strings < 4 GiB; no raw pointers *)
Definition val_ok (v : value) : Prop :=
  match v with
  | VInv => True
  | VUsr s | VStr s => bytes_ok s /\ N.of_nat (length s) < 4294967296
  | VInt z => s64_ok z
  | VUint n | VAddr n | VDouble n => u64_ok n
  | VBool _ => True
  | VType t => t <= MAXTYPE
  | VPtr _ => False
  end.

Lemma take_app a b : take (length a) (a ++ b) = Some a.
Proof.
  unfold take. rewrite app_length. destruct (Nat.leb_spec (length a) (length a + length b)); [|lia].
  rewrite firstn_app_exact. reflexivity.
Qed.

Lemma take_le k n b : take k (le_enc k n ++ b) = Some (le_enc k n).
Proof. rewrite <- (le_enc_length k n) at 1. apply take_app. Qed.

Lemma val_make_data v d rest : val_ok v -> val_data v = Some d ->
  val_make (val_type v) (N.of_nat (length d)) (d ++ rest) = Some v.
Proof.
  intros Hv Hd.
  destruct v; cbn [val_ok] in Hv; cbn [val_data] in Hd; try contradiction; try discriminate Hd;
    match type of Hd with Some ?x = Some d => assert (Ed : d = x) by congruence; subst d; clear Hd end;
    unfold val_make, val_type.
  - reflexivity.
  - change (1 =? T_INV) with false. change (1 =? T_USR) with true. cbv iota.
    rewrite Nat2N.id, take_app. reflexivity.
  - change (2 =? T_INV) with false. change (2 =? T_USR) with false. change (2 =? T_STRING) with false.
    change (2 =? T_INT) with true. cbv iota.
    rewrite take_le. cbn [option_map].
    rewrite le_dec_enc by apply of_s64_u64. rewrite s64_of by exact Hv. reflexivity.
  - change (3 =? T_INV) with false. change (3 =? T_USR) with false. change (3 =? T_STRING) with false.
    change (3 =? T_INT) with false. change (3 =? T_ADDR) with false. change (3 =? T_UINT) with true. cbv iota.
    rewrite take_le. cbn [option_map].
    rewrite le_dec_enc by exact Hv. reflexivity.
  - change (4 =? T_INV) with false. change (4 =? T_USR) with false. change (4 =? T_STRING) with true. cbv iota.
    rewrite Nat2N.id, take_app. reflexivity.
  - change (5 =? T_INV) with false. change (5 =? T_USR) with false. change (5 =? T_STRING) with false.
    change (5 =? T_INT) with false. change (5 =? T_ADDR) with true. cbv iota.
    rewrite take_le. cbn [option_map].
    rewrite le_dec_enc by exact Hv. reflexivity.
  - change (6 =? T_INV) with false. change (6 =? T_USR) with false. change (6 =? T_STRING) with false.
    change (6 =? T_INT) with false. change (6 =? T_ADDR) with false. change (6 =? T_UINT) with false.
    change (6 =? T_DOUBLE) with true. cbv iota.
    rewrite take_le. cbn [option_map].
    rewrite le_dec_enc by exact Hv. reflexivity.
  - destruct b; reflexivity.
  - change (8 =? T_INV) with false. change (8 =? T_USR) with false. change (8 =? T_STRING) with false.
    change (8 =? T_INT) with false. change (8 =? T_ADDR) with false. change (8 =? T_UINT) with false.
    change (8 =? T_DOUBLE) with false. change (8 =? T_BOOL) with false. change (8 =? T_TYPE) with true. cbv iota.
    rewrite take_le. cbn [option_map].
    rewrite le_dec_enc; [reflexivity|]. unfold MAXTYPE in Hv.
    change (256 ^ N.of_nat 4) with 4294967296. lia.
Qed.

Definition ni_ok (i : nodeinfo) : Prop :=
  ni_id i < 9223372036854775808 /\ u64_ok (ni_attr i) /\ u64_ok (ni_parent i) /\ val_ok (ni_val i).

Lemma val_ok_data v : val_ok v -> exists d, val_data v = Some d /\ N.of_nat (length d) < 4294967296.
Proof.
  destruct v; simpl; intro H; try contradiction; eexists; (split; [reflexivity|]);
    try exact (proj2 H); try reflexivity; rewrite ?le_enc_length; reflexivity.
Qed.

Lemma val_type_le v : val_type v <= MAXTYPE.
Proof. destruct v; vm_compute; discriminate. Qed.

Lemma node_roundtrip i : ni_ok i -> exists p d, pack_node i = Some p /\ val_data (ni_val i) = Some d /\
  (1 <= length p <= 50 + length d)%nat /\
  forall rest, unpack_node (p ++ rest) = Some (i, rest).
Proof.
  destruct i as [id attr parent v]. intros (Hid & Hattr & Hpar & Hv). simpl in *.
  destruct (val_ok_data v Hv) as (d & Hd & Hl).
  unfold pack_node; cbn [ni_id ni_attr ni_parent ni_val]. rewrite Hd.
  set (hp := negb (parent =? INV_ID)).
  assert (Hu : u64_ok (2 * id + (if hp then 1 else 0))) by (unfold u64_ok, W64; destruct hp; lia).
  assert (Ht64 : u64_ok (val_type v)) by (unfold u64_ok, W64; assert (H := val_type_le v); unfold MAXTYPE in H; lia).
  assert (Hl64 : u64_ok (N.of_nat (length d))) by (unfold u64_ok, W64; lia).
  rewrite wrap64_id by exact Hu.
  eexists; exists d. split; [reflexivity|]. split; [reflexivity|]. split.
  - rewrite !app_length.
    assert (A1 := vlenc_length_le _ Hu). assert (A2 := vlenc_length_le _ Hattr).
    assert (A3 := vlenc_length_le _ Hpar). assert (A4 := vlenc_length_le _ Ht64).
    assert (A5 := vlenc_length_le _ Hl64). assert (A6 := vlenc_nonempty (2 * id + (if hp then 1 else 0))).
    destruct hp; simpl; lia.
  - intro rest. unfold unpack_node. rewrite <- !app_assoc.
    rewrite vldec_vlenc by exact Hu. rewrite vldec_vlenc by exact Hattr.
    assert (Hdiv : (2 * id + (if hp then 1 else 0)) / 2 = id).
    { symmetry. apply N.div_unique with (if hp then 1 else 0); [destruct hp; lia|lia]. }
    assert (Hmod : (2 * id + (if hp then 1 else 0)) mod 2 = if hp then 1 else 0).
    { symmetry. apply N.mod_unique with id; [destruct hp; lia|lia]. }
    rewrite Hmod, Hdiv.
    match goal with |- match ?X with _ => _ end = _ =>
      assert (Hstep : X = Some (parent, vlenc (val_type v) ++ vlenc (N.of_nat (length d)) ++ d ++ rest)) end.
    { destruct (N.eqb_spec parent INV_ID) as [E|E]; unfold hp; cbn [negb].
      - rewrite E. reflexivity.
      - change (1 =? 1) with true. cbv iota. rewrite vldec_vlenc by exact Hpar. reflexivity. }
    rewrite Hstep. rewrite vldec_vlenc by exact Ht64. rewrite vldec_vlenc by exact Hl64.
    destruct (N.leb_spec (val_type v) MAXTYPE) as [_|B]; [|assert (A := val_type_le v); lia].
    rewrite (val_make_data v d rest Hv Hd).
    rewrite Nat2N.id, skipn_app_exact. reflexivity.
Qed.

(* ---- NodeBuffer: any append history ---- *)
Fixpoint nb_appends (l : list nodeinfo) (b : nbuf) : option nbuf :=
  match l with
  | [] => Some b
  | i :: r => match nb_append i b with None => None | Some b' => nb_appends r b' end
  end.

Definition nb_rep (b : nbuf) (l : list nodeinfo) : Prop :=
  nb_count b = length l /\ (forall k rest, nb_loop (length l + k) (nb_data b ++ rest) =
     option_map (app l) (nb_loop k rest)) .

Lemma nb_append_rep b l i : nb_rep b l -> ni_ok i -> exists b', nb_append i b = Some b' /\ nb_rep b' (l ++ [i]).
Proof.
  intros [Hc Hl] Hi. destruct (node_roundtrip i Hi) as (p & d & Hp & Hd & Hlen & Hun).
  unfold nb_append, node_max_size. rewrite Hd, Hp. cbn [option_map].
  set (mx := N.of_nat (length (nb_data b)) + (50 + N.of_nat (length d))).
  assert (Hr : nb_data (nb_reserve mx b) = nb_data b /\ nb_count (nb_reserve mx b) = nb_count b /\
               mx <= nb_reserved (nb_reserve mx b)).
  { unfold nb_reserve. destruct (N.leb_spec mx (nb_reserved b)); simpl; repeat split; lia. }
  destruct Hr as (-> & -> & Hr).
  destruct (N.leb_spec (N.of_nat (length (nb_data b ++ p))) (nb_reserved (nb_reserve mx b))) as [_|B].
  2:{ exfalso. rewrite app_length in B. unfold mx in *. lia. }
  eexists. split; [reflexivity|]. split; cbn [nb_count nb_data].
  - rewrite app_length. simpl. lia.
  - intros k rest. rewrite app_length. simpl length. rewrite <- Nat.add_assoc, <- app_assoc.
    rewrite Hl. simpl Nat.add. cbn [nb_loop].
    destruct (p ++ rest) eqn:E.
    { destruct p; [simpl in Hlen; lia|discriminate]. }
    rewrite <- E, Hun. destruct (nb_loop k rest); simpl; [|reflexivity].
    rewrite <- app_assoc. reflexivity.
Qed.

Lemma nb_appends_rep l : forall b l0, nb_rep b l0 -> Forall ni_ok l ->
  exists b', nb_appends l b = Some b' /\ nb_rep b' (l0 ++ l).
Proof.
  induction l as [|i l IH]; intros b l0 Hb Hl; simpl.
  - exists b. rewrite app_nil_r. auto.
  - inversion Hl as [|? ? Hi Hl']; subst. destruct (nb_append_rep b l0 i Hb Hi) as (b1 & -> & Hb1).
    destruct (IH b1 _ Hb1 Hl') as (b2 & E & Hb2). exists b2. split; [exact E|].
    rewrite <- app_assoc in Hb2. exact Hb2.
Qed.

Lemma nodebuffer_roundtrip reserved l : Forall ni_ok l ->
  exists b, nb_appends l (mknb 0 [] reserved) = Some b /\ nb_for_each b = Some l /\ nb_count b = length l.
Proof.
  intro H. destruct (nb_appends_rep l (mknb 0 [] reserved) []) as (b & E & Hc & Hl); auto.
  - split; [reflexivity|]. intros k rest. cbn [nb_data app length]. simpl Nat.add.
    destruct (nb_loop k rest); reflexivity.
  - exists b. simpl in *. split; [exact E|]. split; [|exact Hc].
    unfold nb_for_each. rewrite Hc. specialize (Hl 0%nat []). rewrite app_nil_r, Nat.add_0_r in Hl.
    rewrite Hl. simpl. rewrite app_nil_r. reflexivity.
Qed.

(* ---- trace chunk ---- *)
Lemma pack_all_roundtrip db rec : Forall (entry_of db) rec ->
  exists p, pack_all rec = Some p /\ (length p <= 30 * length rec)%nat /\
    forall rest, unpack_n db (length rec) (p ++ rest) = Some (rec, rest).
Proof.
  induction rec as [|e rec IH]; intro H.
  - exists []. repeat split; simpl; lia.
  - inversion H as [|? ? He Hr]; subst. destruct (IH Hr) as (p & Ep & Lp & Up).
    destruct (entry_roundtrip db e [] He) as (q & Eq & _ & Lq).
    exists (q ++ p). simpl. rewrite Eq, Ep. split; [reflexivity|]. split.
    + rewrite app_length. lia.
    + intro rest. rewrite <- app_assoc.
      destruct (entry_roundtrip db e (p ++ rest) He) as (q' & Eq' & Uq & _).
      assert (q' = q) by congruence. subst q'. rewrite Uq, Up. reflexivity.
Qed.

Definition rec_ok (db : metadb) (rec : list entry) : Prop :=
  Forall (entry_of db) rec /\ N.of_nat (length rec) < W64.

(* representation: the chunk holds exactly the given records *)
Definition chunk_rep (db : metadb) (c : chunk) (l : list (list entry)) : Prop :=
  ck_nrec c = length l /\ N.of_nat (length (ck_data c)) <= ck_size c /\
  forall k rest, flush_loop db (length l + k) (ck_data c ++ rest) = option_map (app l) (flush_loop db k rest).

Lemma chunk_new_rep db s : chunk_rep db (chunk_new s) [].
Proof.
  split; [reflexivity|]. split; [simpl; lia|]. intros k rest. simpl.
  destruct (flush_loop db k rest); reflexivity.
Qed.

Lemma chunk_rep_flush db c l : chunk_rep db c l -> chunk_flush db c = Some l.
Proof.
  intros (Hc & _ & Hl). unfold chunk_flush. rewrite Hc. specialize (Hl 0%nat []).
  rewrite app_nil_r, Nat.add_0_r in Hl. rewrite Hl. simpl. rewrite app_nil_r. reflexivity.
Qed.

Lemma chunk_save_rep db c l rec : chunk_rep db c l -> rec_ok db rec -> chunk_fits c rec = true ->
  rec <> [] -> exists c', chunk_save c rec = Some c' /\ chunk_rep db c' (l ++ [rec]) /\ ck_size c' = ck_size c.
Proof.
  intros (Hc & Hs & Hl) [He Hn] Hf Hne.
  destruct (pack_all_roundtrip db rec He) as (p & Ep & Lp & Up).
  unfold chunk_fits, MAX_PACKED in Hf. apply N.ltb_lt in Hf.
  assert (L := vlenc_length_le _ Hn).
  unfold chunk_save. rewrite Ep.
  assert (Hlen : (length (ck_data c ++ vlenc (N.of_nat (length rec)) ++ p) <=
                  length (ck_data c) + (10 + length rec * 30))%nat).
  { rewrite !app_length. lia. }
  destruct rec as [|e r] eqn:Er; [congruence|]. rewrite <- Er in *.
  destruct (N.leb_spec (N.of_nat (length (ck_data c ++ vlenc (N.of_nat (length rec)) ++ p))) (ck_size c)) as [Hle|B];
    [|lia].
  eexists. split; [reflexivity|]. split; [|reflexivity]. split; [|split]; cbn [ck_nrec ck_data ck_size].
  - rewrite app_length. simpl. lia.
  - exact Hle.
  - intros k rest. rewrite app_length. simpl length. rewrite <- Nat.add_assoc, <- !app_assoc.
    rewrite Hl. simpl Nat.add. cbn [flush_loop]. rewrite vldec_vlenc by exact Hn.
    rewrite Nat2N.id, Up. destruct (flush_loop db k rest); simpl; [|reflexivity].
    rewrite <- app_assoc. reflexivity.
Qed.

(* any history of saves that are guarded by fits() *)
Fixpoint guarded_saves (c : chunk) (rs : list (list entry)) : option chunk :=
  match rs with
  | [] => Some c
  | r :: rs' => if chunk_fits c r then
                  match chunk_save c r with None => None | Some c' => guarded_saves c' rs' end
                else guarded_saves c rs'
  end.
(* the records that were accepted by fits(), in order *)
Fixpoint accepted (c : chunk) (rs : list (list entry)) : list (list entry) :=
  match rs with
  | [] => []
  | r :: rs' => if chunk_fits c r then
                  match chunk_save c r with None => [] | Some c' => r :: accepted c' rs' end
                else accepted c rs'
  end.

Lemma guarded_saves_rep db rs : forall c l, chunk_rep db c l -> Forall (rec_ok db) rs ->
  Forall (fun r => r <> []) rs ->
  exists c', guarded_saves c rs = Some c' /\ chunk_rep db c' (l ++ accepted c rs) /\ ck_size c' = ck_size c.
Proof.
  induction rs as [|r rs IH]; intros c l Hc Hr Hn; simpl.
  - exists c. rewrite app_nil_r. auto.
  - inversion Hr as [|? ? Hr1 Hr2]; subst. inversion Hn as [|? ? Hn1 Hn2]; subst.
    destruct (chunk_fits c r) eqn:F.
    + destruct (chunk_save_rep db c l r Hc Hr1 F Hn1) as (c1 & E1 & R1 & S1). rewrite E1.
      destruct (IH c1 _ R1 Hr2 Hn2) as (c2 & E2 & R2 & S2). exists c2. split; [exact E2|].
      rewrite <- app_assoc in R2. split; [exact R2|congruence].
    + apply IH; assumption.
Qed.
