From Verif Require Import Base VlencModel.

Lemma split7 v : v = N.lor (N.land v 127) (N.shiftl (N.shiftr v 7) 7).
Proof.
  apply N.bits_inj; intro i. rewrite N.lor_spec, N.land_spec.
  change 127 with (N.ones 7).
  destruct (N.lt_ge_cases i 7) as [Hi|Hi].
  - rewrite N.ones_spec_low by exact Hi. rewrite N.shiftl_spec_low by exact Hi.
    rewrite andb_true_r, orb_false_r. reflexivity.
  - rewrite N.ones_spec_high by exact Hi.
    rewrite N.shiftl_spec_high' by exact Hi. rewrite N.shiftr_spec'.
    rewrite andb_false_r. simpl. f_equal. lia.
Qed.

Lemma land_lor_127 x : N.land (N.lor (N.land x 127) 128) 127 = N.land x 127.
Proof.
  rewrite N.land_lor_distr_l. change (N.land 128 127) with 0. rewrite N.lor_0_r.
  rewrite <- N.land_assoc. reflexivity.
Qed.

Lemma land_lor_128 x : N.land (N.lor (N.land x 127) 128) 128 = 128.
Proof.
  rewrite N.land_lor_distr_l. change (N.land 128 128) with 128.
  rewrite <- N.land_assoc. change (N.land 127 128) with 0. rewrite N.land_0_r. reflexivity.
Qed.

Lemma land_small_127 v : v <= 127 -> N.land v 127 = v.
Proof. intro H. change 127 with (N.ones 7). rewrite N.land_ones. apply N.mod_small. change (2^7) with 128. lia. Qed.

Lemma land_small_128 v : v <= 127 -> N.land v 128 = 0.
Proof.
  intro H. rewrite <- (land_small_127 v H), <- N.land_assoc.
  change (N.land 127 128) with 0. apply N.land_0_r.
Qed.

Lemma shiftr7 v : N.shiftr v 7 = v / 128.
Proof. rewrite N.shiftr_div_pow2. reflexivity. Qed.


Lemma land_lt_128 b : N.land b 127 < 128.
Proof. change 127 with (N.ones 7). rewrite N.land_ones. apply N.mod_lt. discriminate. Qed.

Lemma pow_succ_nat f : 2 ^ N.of_nat (S f) = 2 * 2 ^ N.of_nat f.
Proof. rewrite Nat2N.inj_succ, N.pow_succ_r'. reflexivity. Qed.

(* the fuel of the encoder loop is never exhausted: any larger fuel gives the same *)
Lemma vlenc_loop_fuel f : forall g v, v < 2 ^ N.of_nat f -> (f <= g)%nat ->
  vlenc_loop g v = vlenc_loop f v.
Proof.
  induction f as [|f IH]; intros g v Hv Hg.
  - destruct g as [|g]; [reflexivity|]. simpl. change (2 ^ N.of_nat 0) with 1 in Hv.
    destruct (N.ltb_spec 127 v); [lia|reflexivity].
  - destruct g as [|g]; [lia|]. simpl. destruct (N.ltb_spec 127 v); [|reflexivity].
    f_equal. apply IH; [|lia]. rewrite shiftr7. rewrite pow_succ_nat in Hv.
    apply N.div_lt_upper_bound; lia.
Qed.

Lemma vlenc_unfold v :
  vlenc v = if 127 <? v then N.lor (N.land v 127) 128 :: vlenc (N.shiftr v 7) else [v].
Proof.
  unfold vlenc.
  destruct (N.ltb_spec 127 v) as [H|H].
  - assert (Hs := N.size_gt v).
    rewrite <- (vlenc_loop_fuel (N.to_nat (N.size v)) (S (N.to_nat (N.size v))) v);
      [|rewrite N2Nat.id; exact Hs|lia].
    cbn [vlenc_loop]. destruct (N.ltb_spec 127 v); [|lia]. f_equal.
    apply vlenc_loop_fuel.
    + rewrite N2Nat.id. apply N.size_gt.
    + rewrite shiftr7. assert (v / 128 < v) by (apply N.div_lt; lia).
      enough (N.size (v/128) <= N.size v) by lia.
      assert (v/128 <> 0) by (intro E; apply N.div_small_iff in E; lia).
      rewrite !N.size_log2 by lia. apply -> N.succ_le_mono. apply N.log2_le_mono. lia.
  - destruct (N.to_nat (N.size v)) as [|k]; cbn [vlenc_loop].
    + rewrite N.mod_small by lia. reflexivity.
    + destruct (N.ltb_spec 127 v); [lia|]. rewrite N.mod_small by lia. reflexivity.
Qed.

Lemma vldec_loop_vlenc n : forall p acc v rest,
  p + N.of_nat n = 9 -> v * 2 ^ (7 * p) < W64 ->
  vldec_loop n p acc (vlenc v ++ rest) = Some (N.lor acc (N.shiftl v (7 * p)), rest).
Proof.
  induction n as [|n IH]; intros p acc v rest Hp Hv.
  - assert (p = 9) by lia. subst p. change (7*9) with 63 in *.
    change (2^63) with 9223372036854775808 in Hv. unfold W64 in Hv.
    assert (v <= 1) by lia.
    rewrite vlenc_unfold. destruct (N.ltb_spec 127 v); [lia|].
    cbn [app vldec_loop]. change (7*9) with 63. rewrite land_small_127 by lia.
    rewrite wrap64_id; [reflexivity|]. unfold u64_ok. rewrite N.shiftl_mul_pow2.
    change (2^63) with 9223372036854775808. unfold W64. lia.
  - rewrite vlenc_unfold. destruct (N.ltb_spec 127 v) as [H|H].
    + cbn [app vldec_loop]. rewrite land_lor_128. change (128 =? 0) with false.
      cbv iota. rewrite land_lor_127. rewrite IH.
      * f_equal. f_equal. rewrite <- N.lor_assoc. f_equal.
        rewrite wrap64_id.
        -- rewrite (split7 v) at 3. rewrite N.shiftl_lor, N.shiftl_shiftl.
           do 2 f_equal. lia.
        -- unfold u64_ok. rewrite N.shiftl_mul_pow2.
           assert (N.land v 127 <= v).
           { change 127 with (N.ones 7). rewrite N.land_ones. apply N.mod_le. discriminate. }
           eapply N.le_lt_trans; [|exact Hv]. apply N.mul_le_mono_r. assumption.
      * lia.
      * rewrite shiftr7. replace (7 * (p+1)) with (7 + 7 * p) by lia. rewrite N.pow_add_r.
        change (2^7) with 128. rewrite N.mul_assoc.
        eapply N.le_lt_trans; [|exact Hv]. apply N.mul_le_mono_r.
        rewrite N.mul_comm. apply N.mul_div_le. discriminate.
    + cbn [app vldec_loop]. rewrite land_small_128 by assumption. change (0 =? 0) with true.
      cbv iota. rewrite land_small_127 by assumption. rewrite wrap64_id; [reflexivity|].
      unfold u64_ok. rewrite N.shiftl_mul_pow2. exact Hv.
Qed.

Lemma vldec_vlenc v rest : u64_ok v -> vldec (vlenc v ++ rest) = Some (v, rest).
Proof.
  intro H. unfold vldec. rewrite vldec_loop_vlenc.
  - rewrite N.lor_0_l. rewrite N.shiftl_0_r. reflexivity.
  - reflexivity.
  - change (2 ^ (7*0)) with 1. unfold u64_ok in H. lia.
Qed.

Lemma vlenc_nonempty v : (1 <= length (vlenc v))%nat.
Proof. rewrite vlenc_unfold. destruct (127 <? v); simpl; lia. Qed.

Lemma vlenc_length_bound k : forall v, v < 2 ^ (7 * N.of_nat (S k)) -> (length (vlenc v) <= S k)%nat.
Proof.
  induction k as [|k IH]; intros v Hv; rewrite vlenc_unfold.
  - change (2 ^ (7 * N.of_nat 1)) with 128 in Hv. destruct (N.ltb_spec 127 v); [lia|]. simpl. lia.
  - destruct (N.ltb_spec 127 v); simpl; [|lia].
    apply le_n_S. apply IH. rewrite shiftr7. apply N.div_lt_upper_bound; [discriminate|].
    replace (7 * N.of_nat (S (S k))) with (7 + 7 * N.of_nat (S k)) in Hv by lia.
    rewrite N.pow_add_r in Hv. exact Hv.
Qed.

Lemma vlenc_length_le v : u64_ok v -> (length (vlenc v) <= 10)%nat.
Proof.
  intro H. apply vlenc_length_bound. unfold u64_ok in H.
  eapply N.lt_le_trans; [exact H|]. change (W64 <= 2 ^ 70). vm_compute. discriminate.
Qed.

(* exact number of bytes: the least k with v < 128^k *)
Lemma vlenc_length_minimal v : forall k, (k < length (vlenc v))%nat -> (1 <= k)%nat -> 2 ^ (7 * N.of_nat k) <= v.
Proof.
  intros k. revert v. induction k as [|k IH]; intros v Hl H1; [lia|].
  rewrite vlenc_unfold in Hl. destruct (N.ltb_spec 127 v) as [Hv|Hv]; simpl in Hl; [|lia].
  destruct k as [|k].
  - change (2 ^ (7 * N.of_nat 1)) with 128. lia.
  - specialize (IH (N.shiftr v 7) ltac:(lia) ltac:(lia)). rewrite shiftr7 in IH.
    replace (7 * N.of_nat (S (S k))) with (7 + 7 * N.of_nat (S k)) by lia.
    rewrite N.pow_add_r. change (2^7) with 128.
    assert (Hd := N.mul_div_le v 128 ltac:(discriminate)).
    etransitivity; [|exact Hd]. apply N.mul_le_mono_l. exact IH.
Qed.

Lemma vlenc_bytes_ok v : bytes_ok (vlenc v).
Proof.
  pattern v. apply (well_founded_induction N.lt_wf_0). clear v. intros v IH.
  rewrite vlenc_unfold. destruct (N.ltb_spec 127 v) as [H|H].
  - constructor.
    + unfold byte_ok. replace (N.lor (N.land v 127) 128) with (N.land v 127 + 128).
      * assert (Hb := land_lt_128 v). lia.
      * rewrite <- N.lxor_lor.
        -- rewrite N.add_nocarry_lxor; [reflexivity|].
           rewrite <- N.land_assoc. change (N.land 127 128) with 0. apply N.land_0_r.
        -- rewrite <- N.land_assoc. change (N.land 127 128) with 0. apply N.land_0_r.
    + apply IH. rewrite shiftr7. apply N.div_lt; lia.
  - constructor; [unfold byte_ok; lia|constructor].
Qed.

(* decoder on arbitrary input *)
Lemma vldec_loop_consumed n : forall p acc buf v rest,
  vldec_loop n p acc buf = Some (v, rest) ->
  exists used, buf = used ++ rest /\ (1 <= length used <= S n)%nat.
Proof.
  induction n as [|n IH]; intros p acc buf v rest H; destruct buf as [|b r]; try discriminate H;
    cbn [vldec_loop] in H.
  - injection H as _ <-. exists [b]. split; [reflexivity|simpl; lia].
  - destruct (N.land b 128 =? 0).
    + injection H as _ <-. exists [b]. split; [reflexivity|simpl; lia].
    + apply IH in H. destruct H as (u & -> & Hu). exists (b :: u). split; [reflexivity|simpl; lia].
Qed.

Lemma vldec_consumed buf v rest : vldec buf = Some (v, rest) ->
  exists used, buf = used ++ rest /\ (1 <= length used <= 10)%nat.
Proof. apply vldec_loop_consumed. Qed.

Lemma lor_u64 a b : u64_ok a -> u64_ok b -> u64_ok (N.lor a b).
Proof.
  unfold u64_ok. rewrite W64_pow. intros Ha Hb.
  destruct (N.eq_dec (N.lor a b) 0) as [->|Hz]; [reflexivity|].
  apply N.log2_lt_pow2; [lia|]. rewrite N.log2_lor.
  destruct (N.eq_dec a 0) as [->|Ha0]; destruct (N.eq_dec b 0) as [->|Hb0].
  - reflexivity.
  - apply N.max_lub_lt; [reflexivity|]. apply N.log2_lt_pow2; lia.
  - apply N.max_lub_lt; [|reflexivity]. apply N.log2_lt_pow2; lia.
  - apply N.max_lub_lt; apply N.log2_lt_pow2; lia.
Qed.

Lemma vldec_loop_u64 n : forall p acc buf v rest, u64_ok acc ->
  vldec_loop n p acc buf = Some (v, rest) -> u64_ok v.
Proof.
  induction n as [|n IH]; intros p acc buf v rest Ha H; destruct buf as [|b r]; try discriminate H;
    cbn [vldec_loop] in H;
    assert (Hn := lor_u64 _ _ Ha (wrap64_ok (N.shiftl (N.land b 127) (7 * p)))).
  - injection H as <- _. exact Hn.
  - destruct (N.land b 128 =? 0).
    + injection H as <- _. exact Hn.
    + eapply IH; [exact Hn|exact H].
Qed.

Lemma vldec_u64 buf v rest : vldec buf = Some (v, rest) -> u64_ok v.
Proof. apply vldec_loop_u64. reflexivity. Qed.

Lemma vldec_loop_total n : forall p acc buf, (S n <= length buf)%nat ->
  exists v rest, vldec_loop n p acc buf = Some (v, rest).
Proof.
  induction n as [|n IH]; intros p acc buf H; destruct buf as [|b r]; simpl in H; try lia; cbn [vldec_loop].
  - eauto.
  - destruct (N.land b 128 =? 0); [eauto|]. apply IH. lia.
Qed.

Lemma vldec_total buf : (10 <= length buf)%nat -> exists v rest, vldec buf = Some (v, rest).
Proof. apply vldec_loop_total. Qed.
