From Verif Require Import Base VlencModel VlencProofs VariantModel VariantSpec.
From Coq Require Import QArith Qpower.
Open Scope N_scope.

(* ---- bit lemmas ---- *)
Lemma lor_lt_pow2 a b k : a < 2 ^ k -> b < 2 ^ k -> N.lor a b < 2 ^ k.
Proof.
  intros Ha Hb.
  destruct (N.eq_dec (N.lor a b) 0) as [->|Hz]; [lia|].
  apply N.log2_lt_pow2; [lia|]. rewrite N.log2_lor.
  assert (Hk : k <> 0) by (intros ->; change (2^0) with 1 in *;
    assert (a = 0) by lia; assert (b = 0) by lia; subst; apply Hz; reflexivity).
  assert (L : forall x, x < 2 ^ k -> N.log2 x < k).
  { intros x Hx. destruct (N.eq_dec x 0) as [->|]; [change (N.log2 0) with 0; lia|].
    apply N.log2_lt_pow2; lia. }
  apply N.max_lub_lt; apply L; assumption.
Qed.

Lemma shiftl_lt_pow2 a i j : a < 2 ^ i -> N.shiftl a j < 2 ^ (i + j).
Proof.
  intros H. rewrite N.shiftl_mul_pow2, N.pow_add_r.
  apply N.mul_lt_mono_pos_r; [|exact H]. assert (2 ^ j <> 0) by (apply N.pow_nonzero; discriminate). lia.
Qed.

Lemma shiftr_small a k : a < 2 ^ k -> N.shiftr a k = 0.
Proof. intro H. rewrite N.shiftr_div_pow2. apply N.div_small. exact H. Qed.

Lemma land_shiftl_255 x k : 8 <= k -> N.land (N.shiftl x k) 255 = 0.
Proof.
  intro H. change 255 with (N.ones 8). rewrite N.land_ones, N.shiftl_mul_pow2.
  replace k with ((k - 8) + 8) by lia. rewrite N.pow_add_r, N.mul_assoc.
  apply N.mod_mul. discriminate.
Qed.

(* ---- content hash ---- *)
Definition hash_l (s : bytes) : N :=
  match s with
  | [] => 0
  | _ => N.shiftl (N.lor (N.shiftl (N.lor (N.shiftl (nth 0 s 0) 8) (nth (length s / 2) s 0)) 8)
                         (nth (length s - 1) s 0)) 8
  end.

Lemma holds_nth m p s i : holds m p s -> (i < length s)%nat -> m (p + N.of_nat i) = nth i s 0.
Proof. intros H Hi. apply H. apply nth_error_nth'. exact Hi. Qed.

Lemma content_hash_eq m p s : holds m p s -> content_hash m p (N.of_nat (length s)) = hash_l s.
Proof.
  intro H. destruct s as [|b s]; [reflexivity|].
  set (s' := b :: s) in *. assert (Hl : (0 < length s')%nat) by (simpl; lia).
  unfold content_hash. destruct (N.ltb_spec 0 (N.of_nat (length s'))); [|lia].
  change (hash_l s') with
    (N.shiftl (N.lor (N.shiftl (N.lor (N.shiftl (nth 0 s' 0) 8) (nth (length s' / 2) s' 0)) 8)
                         (nth (length s' - 1) s' 0)) 8).
  rewrite <- (holds_nth m p s' 0) by (assumption || lia).
  rewrite <- (holds_nth m p s' (length s' / 2)) by (try assumption; apply Nat.div_lt; lia).
  rewrite <- (holds_nth m p s' (length s' - 1)) by (assumption || lia).
  rewrite N.add_0_r.
  replace (N.of_nat (length s') / 2) with (N.of_nat (length s' / 2)).
  2:{ rewrite Nat2N.inj_div. reflexivity. }
  replace (p + N.of_nat (length s') - 1) with (p + N.of_nat (length s' - 1)) by lia.
  reflexivity.
Qed.

Lemma nth_byte s i : bytes_ok s -> nth i s 0 < 2 ^ 8.
Proof.
  intro H. destruct (Nat.lt_ge_cases i (length s)) as [Hi|Hi].
  - apply (Forall_nth byte_ok s) with (d := 0) (i := i) in H; [exact H|exact Hi].
  - rewrite nth_overflow by exact Hi. reflexivity.
Qed.

Lemma pow2_le i j : i <= j -> 2 ^ i <= 2 ^ j.
Proof. intro. apply N.pow_le_mono_r; lia. Qed.

Lemma hash3_lt a b c : a < 2^8 -> b < 2^8 -> c < 2^8 ->
  N.shiftl (N.lor (N.shiftl (N.lor (N.shiftl a 8) b) 8) c) 8 < 2 ^ 32.
Proof.
  intros Ha Hb Hc. change 32 with (24 + 8). apply shiftl_lt_pow2.
  apply lor_lt_pow2.
  - change 24 with (16 + 8). apply shiftl_lt_pow2. apply lor_lt_pow2.
    + change 16 with (8 + 8). apply shiftl_lt_pow2. exact Ha.
    + eapply N.lt_le_trans; [exact Hb|]. apply pow2_le. lia.
  - eapply N.lt_le_trans; [exact Hc|]. apply pow2_le. lia.
Qed.

Lemma hash_l_lt s : bytes_ok s -> hash_l s < 2 ^ 32.
Proof.
  intro H. destruct s as [|b s]; [reflexivity|]. unfold hash_l.
  apply hash3_lt; apply nth_byte; exact H.
Qed.

Lemma hash_l_land s : N.land (hash_l s) 255 = 0.
Proof. destruct s as [|b s]; [reflexivity|]. unfold hash_l. apply land_shiftl_255. lia. Qed.

Definition blob_ts (t : N) (s : bytes) : N :=
  N.lor (N.lor (N.shiftl (N.of_nat (length s)) 32) (hash_l s)) t.

Lemma make_blob_ts m t p s : holds m p s -> N.of_nat (length s) < 4294967296 -> t <= MAXTYPE ->
  make_blob m t p (N.of_nat (length s)) = mkvar (blob_ts t s) p.
Proof.
  intros H Hl Ht. unfold make_blob, blob_ts. rewrite content_hash_eq by exact H.
  rewrite wrap64_id.
  - replace (N.land t 255) with t; [reflexivity|].
    change 255 with (N.ones 8). rewrite N.land_ones. symmetry. apply N.mod_small.
    unfold MAXTYPE in Ht. change (2^8) with 256. lia.
  - unfold u64_ok. rewrite W64_pow. change 64 with (32 + 32). apply shiftl_lt_pow2. exact Hl.
Qed.

Lemma make_from_string_ts m p s : holds m p s -> s <> [] -> N.of_nat (length s) < 4294967296 ->
  p + N.of_nat (length s) < W64 ->
  make_from_string m p (N.of_nat (length s)) = mkvar (blob_ts T_STRING s) p.
Proof.
  intros H Hne Hl Hw.
  rewrite <- (make_blob_ts m) by (assumption || (vm_compute; discriminate)).
  unfold make_from_string, make_blob, content_hash.
  assert (0 < N.of_nat (length s)) by (destruct s; [congruence|simpl length; lia]).
  destruct (N.ltb_spec 0 (N.of_nat (length s))); [|lia].
  replace (wrap64 (p + W64 + N.of_nat (length s) - 1)) with (p + N.of_nat (length s) - 1); [reflexivity|].
  unfold wrap64. replace (p + W64 + N.of_nat (length s) - 1) with ((p + N.of_nat (length s) - 1) + 1 * W64) by lia.
  rewrite N.mod_add by discriminate. symmetry. apply N.mod_small. lia.
Qed.

Lemma blob_type t s : t <= MAXTYPE -> extract_type (blob_ts t s) = t.
Proof.
  intro Ht. unfold extract_type, blob_ts. rewrite !N.land_lor_distr_l, hash_l_land.
  rewrite land_shiftl_255 by lia. rewrite !N.lor_0_l.
  change 255 with (N.ones 8). rewrite N.land_ones. apply N.mod_small.
  unfold MAXTYPE in Ht. change (2^8) with 256. lia.
Qed.

Lemma blob_size t s : bytes_ok s -> t <= MAXTYPE -> extract_size (blob_ts t s) = N.of_nat (length s).
Proof.
  intros Hs Ht. unfold extract_size, blob_ts. rewrite !N.shiftr_lor.
  rewrite (shiftr_small (hash_l s)) by (apply hash_l_lt; exact Hs).
  rewrite (shiftr_small t) by (unfold MAXTYPE in Ht; change (2^32) with 4294967296; lia).
  rewrite !N.lor_0_r. rewrite N.shiftr_shiftl_l by lia. rewrite N.sub_diag. apply N.shiftl_0_r.
Qed.

Lemma blob_ts_u64 t s : bytes_ok s -> N.of_nat (length s) < 4294967296 -> t <= MAXTYPE -> u64_ok (blob_ts t s).
Proof.
  intros Hs Hl Ht. unfold u64_ok, blob_ts. rewrite W64_pow.
  apply lor_lt_pow2; [apply lor_lt_pow2|].
  - change 64 with (32 + 32). apply shiftl_lt_pow2. exact Hl.
  - eapply N.lt_le_trans; [apply hash_l_lt; exact Hs|]. apply pow2_le. lia.
  - unfold MAXTYPE in Ht. eapply N.le_lt_trans; [exact Ht|]. reflexivity.
Qed.

(* ---- signed words ---- *)
Lemma s64_of z : s64_ok z -> s64 (of_s64 z) = z.
Proof.
  unfold s64_ok, s64, of_s64. intro H.
  destruct (Z.ltb_spec z 0) as [Hn|Hn].
  - assert (E : (z mod 18446744073709551616 = z + 18446744073709551616)%Z).
    { symmetry. apply Z.mod_unique with (-1)%Z; lia. }
    rewrite E. destruct (N.ltb_spec (Z.to_N (z + 18446744073709551616)) 9223372036854775808); lia.
  - rewrite Z.mod_small by lia.
    destruct (N.ltb_spec (Z.to_N z) 9223372036854775808); lia.
Qed.

Lemma of_s64_u64 z : u64_ok (of_s64 z).
Proof.
  unfold u64_ok, of_s64, W64. assert (H := Z.mod_pos_bound z 18446744073709551616 ltac:(lia)). lia.
Qed.

(* ---- memory reads ---- *)
Lemma read_mem_length m p n : length (read_mem m p n) = n.
Proof. unfold read_mem. rewrite map_length, seq_length. reflexivity. Qed.

Lemma read_mem_holds m p s : holds m p s -> read_mem m p (length s) = s.
Proof.
  intro H. apply nth_ext with (d := 0) (d' := 0); [apply read_mem_length|].
  intros i Hi. rewrite read_mem_length in Hi.
  rewrite <- (holds_nth m p s i H Hi).
  unfold read_mem. rewrite (nth_indep _ 0 ((fun k => m (p + N.of_nat k)) 0%nat)) by (rewrite map_length, seq_length; exact Hi).
  rewrite (map_nth (fun k => m (p + N.of_nat k))). rewrite seq_nth by exact Hi. reflexivity.
Qed.

Lemma read_mem_prefix m p s n : holds m p s -> (n <= length s)%nat -> read_mem m p n = firstn n s.
Proof.
  intros H Hn. rewrite <- (read_mem_holds m p s H). unfold read_mem.
  rewrite firstn_map. f_equal. replace (length s) with (n + (length s - n))%nat by lia.
  rewrite seq_app. rewrite firstn_app, seq_length, Nat.sub_diag. simpl.
  rewrite app_nil_r, firstn_all2; [reflexivity|]. rewrite seq_length. lia.
Qed.

Lemma bytes_eqb_eq a : forall b, bytes_eqb a b = true <-> a = b.
Proof.
  induction a as [|x a IH]; intros [|y b]; simpl; split; try congruence; intro H.
  - apply andb_prop in H as [H1 H2]. apply N.eqb_eq in H1. apply IH in H2. congruence.
  - injection H as -> ->. rewrite N.eqb_refl. apply IH. reflexivity.
Qed.

(* ---- a uniform view of [built] ---- *)
Inductive shape (m : memory) : cvar -> value -> Prop :=
| sh_blob t p s : holds m p s -> bytes_ok s -> N.of_nat (length s) < 4294967296 -> u64_ok p ->
    (t = T_USR \/ t = T_STRING) ->
    shape m (mkvar (blob_ts t s) p) (if t =? T_USR then VUsr s else VStr s)
| sh_scalar t w v : (t <> T_USR) -> (t <> T_STRING) -> t <= MAXTYPE -> u64_ok w ->
    val_type v = t ->
    match v with
    | VInv => w = 0 | VInt z => s64_ok z /\ w = of_s64 z
    | VUint n | VAddr n | VDouble n | VPtr n => w = n
    | VType n => n <= MAXTYPE /\ w = n
    | VBool b => w = (if b then 1 else 0)
    | _ => False end ->
    shape m (mkvar t w) v.

Lemma built_shape m c v : built m c v -> shape m c v.
Proof.
  destruct 1 as [|p s H Hb Hl Hp|p s H Hb Hl Hp|p s H Hb Hne Hl Hp|z Hz|n Hn|n Hn|n Hn|b|t Ht|p Hp].
  - apply sh_scalar; try discriminate; reflexivity.
  - rewrite make_blob_ts by (assumption || (vm_compute; discriminate)).
    apply (sh_blob m T_USR p s); auto.
  - rewrite make_blob_ts by (assumption || (vm_compute; discriminate)).
    apply (sh_blob m T_STRING p s); auto.
  - rewrite make_from_string_ts by assumption.
    apply (sh_blob m T_STRING p s); auto. unfold u64_ok. lia.
  - apply sh_scalar; try discriminate; try reflexivity; auto using of_s64_u64.
  - apply sh_scalar; try discriminate; auto.
  - apply sh_scalar; try discriminate; auto.
  - apply sh_scalar; try discriminate; auto.
  - apply sh_scalar; try discriminate; destruct b; auto; reflexivity.
  - apply sh_scalar; try discriminate; auto. unfold u64_ok. unfold MAXTYPE in Ht. unfold W64. lia.
  - apply sh_scalar; try discriminate; auto.
Qed.

Lemma built_cvar_ok m c v : built m c v -> cvar_ok c.
Proof.
  intro H. apply built_shape in H.
  destruct H as [t p s H Hb Hl Hp Ht|t w v H1 H2 Ht Hw Hv Hm]; split; simpl; auto.
  - apply blob_ts_u64; auto. destruct Ht; subst; vm_compute; discriminate.
  - unfold u64_ok, W64. unfold MAXTYPE in Ht. lia.
Qed.

Lemma built_type m c v : built m c v -> extract_type (ts c) = val_type v /\ vtype c = val_type v.
Proof.
  intro H. apply built_shape in H.
  assert (E : extract_type (ts c) = val_type v /\ val_type v <= MAXTYPE).
  { destruct H as [t p s H Hb Hl Hp Ht|t w v H1 H2 Ht Hw Hv Hm]; simpl.
    - rewrite blob_type by (destruct Ht; subst; vm_compute; discriminate).
      destruct Ht; subst t; split; try reflexivity; vm_compute; discriminate.
    - rewrite Hv. split; [|exact Ht]. unfold extract_type. change 255 with (N.ones 8).
      rewrite N.land_ones. apply N.mod_small. unfold MAXTYPE in Ht. change (2^8) with 256. lia. }
  destruct E as [E1 E2]. split; [exact E1|]. unfold vtype. rewrite E1.
  destruct (N.leb_spec (val_type v) MAXTYPE); [reflexivity|lia].
Qed.

Lemma built_size m c v : built m c v ->
  match v with VUsr s | VStr s => extract_size (ts c) = N.of_nat (length s) | _ => True end.
Proof.
  intro H. apply built_shape in H.
  destruct H as [t p s H Hb Hl Hp Ht|t w v H1 H2 Ht Hw Hv Hm]; simpl.
  - destruct Ht; subst t; simpl; apply blob_size; auto; vm_compute; discriminate.
  - destruct v; auto; contradiction.
Qed.

(* ---- equality ---- *)
Lemma var_eq_spec m a b va vb : built m a va -> built m b vb -> (var_eq m a b = true <-> va = vb).
Proof.
  intros Ha Hb. apply built_shape in Ha. apply built_shape in Hb.
  destruct Ha as [t p s Hh Hs Hl Hp Ht|t w v H1 H2 Ht Hw Hv Hm];
  destruct Hb as [t' p' s' Hh' Hs' Hl' Hp' Ht'|t' w' v' H1' H2' Ht' Hw' Hv' Hm'].
  - assert (Mt : t <= MAXTYPE) by (destruct Ht; subst; vm_compute; discriminate).
    assert (Mt' : t' <= MAXTYPE) by (destruct Ht'; subst; vm_compute; discriminate).
    unfold var_eq, value_eq; simpl ts; simpl word. rewrite blob_type, blob_size by assumption.
    assert (E : (t =? T_USR) || (t =? T_STRING) = true).
    { destruct Ht; subst; reflexivity. }
    rewrite E. rewrite Nat2N.id.
    split; intro H.
    + apply andb_prop in H as [Hts Hc]. apply N.eqb_eq in Hts.
      assert (t = t').
      { rewrite <- (blob_type t s Mt), <- (blob_type t' s' Mt'), Hts. reflexivity. }
      assert (Hlen : N.of_nat (length s) = N.of_nat (length s')).
      { rewrite <- (blob_size t s Hs Mt), <- (blob_size t' s' Hs' Mt'), Hts. reflexivity. }
      apply Nat2N.inj in Hlen. subst t'.
      assert (s = s').
      { destruct (N.eqb_spec p p') as [->|Hp0].
        - rewrite <- (read_mem_holds m p' s Hh), <- (read_mem_holds m p' s' Hh'), Hlen. reflexivity.
        - apply bytes_eqb_eq in Hc. rewrite (read_mem_holds m p s Hh) in Hc.
          rewrite Hlen, (read_mem_holds m p' s' Hh') in Hc. exact Hc. }
      subst s'. reflexivity.
    + assert (t = t' /\ s = s').
      { destruct Ht, Ht'; subst t t'; simpl in H; try discriminate H; injection H as ->; auto. }
      destruct H0 as [<- <-]. rewrite N.eqb_refl. simpl.
      destruct (p =? p'); [reflexivity|]. apply bytes_eqb_eq.
      rewrite (read_mem_holds m p s Hh), (read_mem_holds m p' s Hh'). reflexivity.
  - unfold var_eq; simpl ts. split; intro H.
    + apply andb_prop in H as [Hts _]. apply N.eqb_eq in Hts. exfalso.
      assert (Mt : t <= MAXTYPE) by (destruct Ht; subst; vm_compute; discriminate).
      assert (E := blob_type t s Mt). rewrite Hts in E.
      assert (extract_type t' = t').
      { unfold extract_type. change 255 with (N.ones 8). rewrite N.land_ones. apply N.mod_small.
        unfold MAXTYPE in Ht'. change (2^8) with 256. lia. }
      destruct Ht; subst t; congruence.
    + exfalso. destruct Ht; subst t; simpl in H; subst v'; contradiction.
  - unfold var_eq; simpl ts. split; intro H.
    + apply andb_prop in H as [Hts _]. apply N.eqb_eq in Hts. exfalso.
      assert (Mt : t' <= MAXTYPE) by (destruct Ht'; subst; vm_compute; discriminate).
      assert (E := blob_type t' s' Mt). rewrite <- Hts in E.
      assert (extract_type t = t).
      { unfold extract_type. change 255 with (N.ones 8). rewrite N.land_ones. apply N.mod_small.
        unfold MAXTYPE in Ht. change (2^8) with 256. lia. }
      destruct Ht'; subst t'; congruence.
    + exfalso. destruct Ht'; subst t'; simpl in H; subst v; contradiction.
  - unfold var_eq, value_eq; simpl ts; simpl word.
    assert (Et : extract_type t = t).
    { unfold extract_type. change 255 with (N.ones 8). rewrite N.land_ones. apply N.mod_small.
      unfold MAXTYPE in Ht. change (2^8) with 256. lia. }
    rewrite Et.
    destruct (N.eqb_spec t T_USR); [contradiction|]. destruct (N.eqb_spec t T_STRING); [contradiction|].
    simpl orb. cbv iota. split; intro H.
    + apply andb_prop in H as [Hts Hw0]. apply N.eqb_eq in Hts. apply N.eqb_eq in Hw0. subst t' w'.
      rewrite <- Hv in Hts. 
      destruct v; destruct v'; try discriminate Hts; try contradiction; try reflexivity;
        repeat match goal with H : _ /\ _ |- _ => destruct H end;
        try congruence.
      * f_equal. rewrite <- (s64_of z), <- (s64_of z0) by assumption. congruence.
      * f_equal. destruct b, b0; try reflexivity; subst w; discriminate.
    + subst v'. replace t' with t by congruence. apply andb_true_intro. split; [apply N.eqb_refl|].
      apply N.eqb_eq. destruct v; repeat match goal with H : _ /\ _ |- _ => destruct H end;
        try congruence; contradiction.
Qed.



Lemma var_eq_hash m a b : var_eq m a b = true -> stored_hash a = stored_hash b.
Proof. unfold var_eq, stored_hash. intro H. apply andb_prop in H as [H _]. apply N.eqb_eq in H. rewrite H. reflexivity. Qed.

(* ---- pack / unpack ---- *)
Lemma var_pack_unpack v rest : cvar_ok v -> extract_type (ts v) <= MAXTYPE ->
  var_unpack (var_pack v ++ rest) = Some (v, true, rest).
Proof.
  intros [H1 H2] Ht. unfold var_unpack, var_pack. rewrite <- app_assoc, vldec_vlenc by exact H1.
  destruct (N.ltb_spec MAXTYPE (extract_type (ts v))); [lia|].
  rewrite vldec_vlenc by exact H2. destruct v; reflexivity.
Qed.

Lemma var_pack_length v : cvar_ok v -> (2 <= length (var_pack v) <= 20)%nat.
Proof.
  intros [H1 H2]. unfold var_pack. rewrite app_length.
  assert (A := vlenc_length_le _ H1). assert (B := vlenc_length_le _ H2).
  assert (C := vlenc_nonempty (ts v)). assert (D := vlenc_nonempty (word v)). lia.
Qed.

Lemma var_unpack_reject v rest : cvar_ok v -> MAXTYPE < extract_type (ts v) ->
  var_unpack (var_pack v ++ rest) = Some (empty_var, false, var_pack v ++ rest).
Proof.
  intros [H1 H2] Ht. unfold var_unpack, var_pack. rewrite <- app_assoc, vldec_vlenc by exact H1.
  destruct (N.ltb_spec MAXTYPE (extract_type (ts v))); [reflexivity|lia].
Qed.

Lemma var_unpack_ok_type buf v rest : var_unpack buf = Some (v, true, rest) ->
  cvar_ok v /\ extract_type (ts v) <= MAXTYPE.
Proof.
  unfold var_unpack. intro H. destruct (vldec buf) as [[t r]|] eqn:E1; [|discriminate].
  destruct (N.ltb_spec MAXTYPE (extract_type t)); [discriminate|].
  destruct (vldec r) as [[w r']|] eqn:E2; [|discriminate]. injection H as <- <-.
  repeat split; simpl; eauto using vldec_u64.
Qed.
