(* C42: memory pool allocations are disjoint *)
From Verif Require Import Base MempoolModel.
From Coq Require Import Permutation.

(* ---------- specification ---------- *)
(* two address ranges do not overlap *)
Definition apart (a la b lb : N) : Prop := a + la <= b \/ b + lb <= a.
Definition chunks_of (s : pools) : list chunk := flat_map p_chunks s.
(* what operator new[] guarantees: 16-byte aligned memory that is not in use, in the lower half
   of the address space *)
Definition fresh (s : pools) (base len : N) : Prop :=
  0 < base /\ base mod 16 = 0 /\ base + len <= 2^63 /\ forall c, In c (chunks_of s) -> apart base len (c_ptr c) (c_size c).
(* requests: power-of-two alignment up to that of operator new, sizes up to 2^62 *)
Definition req_ok (s : pools) (o : mpop) : Prop :=
  match o with
  | MCreate e ps base => ps <= 2^62 /\ fresh s base (N.max ps CHUNKSIZE)
  | MGrow p b base => b <= 2^62 /\ fresh s base (N.max b CHUNKSIZE)
  | MAlloc p b al base => b <= 2^62 /\ In al [1; 2; 4; 8; 16] /\ fresh s base (N.max b CHUNKSIZE)
  | MMerge p q => True
  end.
(* a history, with the list of blocks (address, size, alignment) handed out *)
Inductive mp_run : pools -> list (N * N * N) -> Prop :=
| mr_init : mp_run [] []
| mr_step s B o r s' : mp_run s B -> req_ok s o -> mp_step s o = Some (r, s') ->
    mp_run s' (match o, r with MAlloc _ b al _, Some a => (a, b, al) :: B | _, _ => B end).

(* ---------- proofs ---------- *)
Lemma land_high x k : x < W64 -> k <= 64 -> N.land x (N.shiftl (N.ones (64 - k)) k) = x / 2 ^ k * 2 ^ k.
Proof.
  intros Hx Hk. rewrite <- N.shiftr_div_pow2, <- N.shiftl_mul_pow2.
  apply N.bits_inj. intro i. rewrite N.land_spec.
  destruct (N.lt_ge_cases i k) as [H|H].
  - rewrite !N.shiftl_spec_low by auto. apply andb_false_r.
  - rewrite !N.shiftl_spec_high' by auto. rewrite N.shiftr_spec'. replace (i - k + k) with i by lia.
    destruct (N.lt_ge_cases i 64) as [Hi|Hi].
    + rewrite N.ones_spec_low by lia. apply andb_true_r.
    + assert (E : N.testbit x i = false). { destruct (N.eq_dec x 0) as [->|Hn]; [apply N.bits_0|]. apply N.bits_above_log2. apply N.log2_lt_pow2; [lia|].
        apply N.lt_le_trans with (2^64); [exact Hx|]. apply N.pow_le_mono_r; lia. }
      rewrite E. reflexivity.
Qed.
Lemma align_up pn al : pn <= 2^63 -> In al [1;2;4;8;16] ->
  let a := N.land (wrap64 (pn + al + W64 - 1)) (wrap64 (W64 - al)) in
  pn <= a /\ a < pn + al /\ a mod al = 0 /\ (pn mod 16 = 0 -> a = pn).
Proof.
  intros Hp Hal.
  assert (E : wrap64 (pn + al + W64 - 1) = pn + al - 1).
  { unfold wrap64. replace (pn + al + W64 - 1) with ((pn + al - 1) + 1 * W64) by (cbn in Hal; intuition lia).
    rewrite N.mod_add by discriminate. apply N.mod_small. change (2^63) with 9223372036854775808 in Hp. unfold W64. cbn in Hal; intuition lia. }
  cbv zeta. rewrite E. change (2^63) with 9223372036854775808 in Hp.
  assert (G : exists k, k <= 4 /\ al = 2 ^ k /\ wrap64 (W64 - al) = N.shiftl (N.ones (64 - k)) k).
  { cbn in Hal. destruct Hal as [<-|[<-|[<-|[<-|[<-|[]]]]]]; [exists 0|exists 1|exists 2|exists 3|exists 4]; (split; [lia|]); split; reflexivity. }
  destruct G as (k & Hk & -> & ->). rewrite land_high by (unfold W64; cbn in Hal; intuition lia).
  pose proof (N.pow_nonzero 2 k ltac:(discriminate)) as Nz.
  set (b := 2 ^ k) in *. pose proof (N.div_mod (pn + b - 1) b Nz). pose proof (N.mod_lt (pn + b - 1) b Nz).
  set (q := (pn + b - 1) / b) in *. split; [lia|]. split; [lia|]. split; [apply N.mod_mul; auto|].
  intro H16. assert (Hd : pn mod b = 0).
  { apply N.mod_divide; auto. apply N.divide_trans with 16; [|apply N.mod_divide; [discriminate|auto]].
    exists (2 ^ (4 - k)). unfold b. rewrite <- N.pow_add_r. replace (4 - k + k) with 4 by lia. reflexivity. }
  apply N.mod_divide in Hd; auto. destruct Hd as (z & Hz).
  assert (q = z). { unfold q. rewrite Hz. replace (z * b + b - 1) with ((b - 1) + z * b) by lia. rewrite N.div_add by auto. rewrite N.div_small by lia. lia. }
  subst z. lia.
Qed.

Definition cdisj (c d : chunk) : Prop := apart (c_ptr c) (c_size c) (c_ptr d) (c_size d).
Definition c_ok (c : chunk) : Prop := 0 < c_ptr c /\ c_ptr c mod 16 = 0 /\ c_wm c <= c_size c /\ c_ptr c + c_size c <= 2^63.
Lemma cdisj_sym c d : cdisj c d -> cdisj d c.
Proof. unfold cdisj, apart. tauto. Qed.
Lemma pairs_perm l l' : Permutation l l' -> ForallOrdPairs cdisj l -> ForallOrdPairs cdisj l'.
Proof.
  induction 1 as [|x l l' H IH|x y l|l l1 l2 H1 IH1 H2 IH2]; intro F; auto.
  - inversion F; subst. constructor; auto. eapply Permutation_Forall; eauto.
  - inversion F as [|? ? F1 F2]; subst. inversion F2 as [|? ? F3 F4]; subst. inversion F1; subst.
    constructor; [constructor; auto using cdisj_sym|]. constructor; auto.
Qed.
Definition within (b : N * N * N) (c : chunk) : Prop := let '(a, n, al) := b in c_ptr c <= a /\ a + n <= c_ptr c + c_wm c.
Definition bdisj (b b' : N * N * N) : Prop := let '(a, n, _) := b in let '(a', n', _) := b' in apart a n a' n'.
Definition block_al (b : N * N * N) : Prop := let '(a, n, al) := b in a mod al = 0 /\ 0 < a.

Record minv (L : list chunk) (B : list (N * N * N)) : Prop := {
  mi_ok : Forall c_ok L;
  mi_disj : ForallOrdPairs cdisj L;
  mi_in : forall b, In b B -> exists c, In c L /\ within b c;
  mi_bdisj : ForallOrdPairs bdisj B;
  mi_al : Forall block_al B;
}.
Lemma minv_perm L L' B : Permutation L L' -> minv L B -> minv L' B.
Proof.
  intros P [I1 I2 I3 I4 I5]. constructor; auto.
  - eapply Permutation_Forall; eauto.
  - eapply pairs_perm; eauto.
  - intros b Hb. destruct (I3 b Hb) as (c & Hc & W). exists c. split; auto. eapply Permutation_in; eauto.
Qed.
Lemma minv_new L B base len : minv L B -> 0 < base -> base mod 16 = 0 -> base + len <= 2^63 -> (forall c, In c L -> apart base len (c_ptr c) (c_size c)) ->
  minv (mkchunk base 0 len :: L) B.
Proof.
  intros [I1 I2 I3 I4 I5] H0 H1 H2 H3. constructor; auto.
  - constructor; auto. repeat split; cbn; auto. lia.
  - constructor; auto. apply Forall_forall. intros c Hc. unfold cdisj. cbn. auto.
  - intros b Hb. destruct (I3 b Hb) as (c & Hc & W). exists c. split; auto. right; auto.
Qed.
(* handing out [a, a+n) from chunk c, above its watermark *)
Lemma minv_take c L B a n al wm' : minv (c :: L) B -> c_ptr c + c_wm c <= a -> a + n <= c_ptr c + wm' -> c_wm c <= wm' -> wm' <= c_size c -> a mod al = 0 ->
  minv (mkchunk (c_ptr c) wm' (c_size c) :: L) ((a, n, al) :: B).
Proof.
  intros [I1 I2 I3 I4 I5] H1 H2 H3 H4 H5. inversion I1 as [|? ? K1 K2]; subst. inversion I2 as [|? ? K3 K4]; subst. destruct K1 as (O1 & O2 & O3 & O4).
  constructor.
  - constructor; auto. repeat split; cbn; auto.
  - constructor; auto.
  - intros b [<-|Hb]; [exists (mkchunk (c_ptr c) wm' (c_size c)); split; [left; auto|cbn; lia]|].
    destruct (I3 b Hb) as (d & [<-|Hd] & W); [|exists d; split; [right|]; auto].
    eexists. split; [left; reflexivity|]. destruct b as ((a', n'), al'). cbn in *. lia.
  - constructor; auto. apply Forall_forall. intros ((a', n'), al') Hb. destruct (I3 _ Hb) as (d & [<-|Hd] & W); cbn in W |- *; unfold apart.
    + lia.
    + rewrite Forall_forall in K3. pose proof (K3 d Hd) as D. rewrite Forall_forall in K2. destruct (K2 d Hd) as (_ & _ & Q & _). unfold cdisj, apart in D. lia.
  - constructor; auto. cbn. split; auto. lia.
Qed.

Lemma back_app l c : back (l ++ [c]) = Some c.
Proof. unfold back. rewrite app_length. cbn. replace (length l + 1 - 1)%nat with (length l) by lia. rewrite nth_error_app2, Nat.sub_diag by lia. reflexivity. Qed.
Lemma back_split l c : back l = Some c -> l = removelast l ++ [c].
Proof.
  intro H. destruct l as [|x l] using rev_ind; [discriminate|]. rewrite back_app in H. injection H as ->.
  rewrite removelast_app by discriminate. cbn. rewrite app_nil_r. reflexivity.
Qed.
Lemma back_none l : back l = None -> l = [].
Proof. destruct l as [|x l] using rev_ind; auto. rewrite back_app. discriminate. Qed.
Lemma nth_split_set (s : pools) i x : nth_error s i = Some x -> exists s1 s2, s = s1 ++ x :: s2 /\ (forall y, pset s i y = s1 ++ y :: s2) /\ length s1 = i.
Proof.
  intro H. apply nth_error_split in H. destruct H as (s1 & s2 & -> & <-). exists s1, s2. split; auto. split; auto.
  intro y. unfold pset. rewrite firstn_app, Nat.sub_diag, firstn_all. cbn [firstn]. rewrite app_nil_r. f_equal. f_equal.
  rewrite skipn_app. rewrite skipn_all2 by lia. replace (S (length s1) - length s1)%nat with 1%nat by lia. reflexivity.
Qed.
Lemma chunks_mid s1 x s2 : chunks_of (s1 ++ x :: s2) = chunks_of s1 ++ p_chunks x ++ chunks_of s2.
Proof. unfold chunks_of. rewrite flat_map_app. reflexivity. Qed.
Lemma perm_mid (A B C : list chunk) c : Permutation (A ++ (B ++ [c]) ++ C) (c :: A ++ B ++ C).
Proof. rewrite <- app_assoc. cbn. rewrite app_assoc. rewrite (app_assoc A B C). symmetry. apply Permutation_middle. Qed.

(* mp_take from a pool whose last chunk is c, embedded in the other chunks A, C *)
Lemma take_inv A C q B bytes al c r q' :
  minv (A ++ p_chunks q ++ C) B -> back (p_chunks q) = Some c -> bytes <= 2^62 -> In al [1;2;4;8;16] ->
  (c_wm c + bytes + al <= c_size c \/ (c_wm c = 0 /\ bytes <= c_size c)) ->
  mp_take q bytes al = Some (r, q') -> minv (A ++ p_chunks q' ++ C) ((r, bytes, al) :: B).
Proof.
  intros I Hb Hby Hal Hsp H. unfold mp_take in H. rewrite Hb in H. pose proof (back_split _ _ Hb) as S.
  rewrite S in I. apply (minv_perm _ _ _ (perm_mid _ _ _ _)) in I.
  assert (Ok : c_ok c) by (destruct I as [I1 _ _ _ _]; inversion I1; auto). destruct Ok as (O1 & O2 & O3 & O4).
  assert (Epn : wrap64 (c_ptr c + c_wm c) = c_ptr c + c_wm c). { apply wrap64_id. unfold u64_ok, W64. change (2^63) with 9223372036854775808 in O4. lia. }
  rewrite Epn in H. destruct (align_up (c_ptr c + c_wm c) al ltac:(lia) Hal) as (A1 & A2 & A3 & A4).
  set (a := N.land (wrap64 (c_ptr c + c_wm c + al + W64 - 1)) (wrap64 (W64 - al))) in *.
  assert (Al16 : al <= 16) by (cbn in Hal; intuition lia).
  assert (Sl : a - (c_ptr c + c_wm c) + bytes + c_wm c <= c_size c).
  { destruct Hsp as [Hs|(Hs1 & Hs2)]; [lia|]. rewrite A4; [lia|]. rewrite Hs1, N.add_0_r. exact O2. }
  change (2^63) with 9223372036854775808 in O4. change (2^62) with 4611686018427387904 in Hby.
  assert (E1 : wrap64 (a + W64 - (c_ptr c + c_wm c)) = a - (c_ptr c + c_wm c)).
  { unfold wrap64. replace (a + W64 - (c_ptr c + c_wm c)) with ((a - (c_ptr c + c_wm c)) + 1 * W64) by lia. rewrite N.mod_add by discriminate. apply N.mod_small. unfold W64. lia. }
  rewrite E1 in H.
  assert (E2 : wrap64 (bytes + (a - (c_ptr c + c_wm c))) = bytes + (a - (c_ptr c + c_wm c))) by (apply wrap64_id; unfold u64_ok, W64; lia).
  rewrite E2 in H.
  assert (E3 : wrap64 (c_wm c + (bytes + (a - (c_ptr c + c_wm c)))) = c_wm c + (bytes + (a - (c_ptr c + c_wm c)))) by (apply wrap64_id; unfold u64_ok, W64; lia).
  rewrite E3 in H. injection H as <- <-. cbn [p_chunks]. unfold set_back.
  apply (minv_perm _ _ _ (Permutation_sym (perm_mid _ _ _ _))).
  apply minv_take; auto; lia.
Qed.
Lemma apart_sub a la b lb : apart a la b lb -> apart a la b lb. Proof. auto. Qed.
Lemma step_inv s B o r s' : minv (chunks_of s) B -> req_ok s o -> mp_step s o = Some (r, s') ->
  minv (chunks_of s') (match o, r with MAlloc _ b al _, Some a => (a, b, al) :: B | _, _ => B end).
Proof.
  intros I R H. destruct o as [e ps base|p b base|p b al base|p q]; cbn [mp_step] in H.
  - injection H as <- <-. destruct R as (_ & F0 & F1 & F2 & F3). unfold chunks_of. rewrite flat_map_app. cbn [flat_map mp_expand p_chunks app].
    apply (minv_perm (mkchunk base 0 (N.max ps CHUNKSIZE) :: chunks_of s)); [apply Permutation_cons_append|]. apply minv_new; auto.
  - destruct (nth_error s p) as [x|] eqn:Ex; [|discriminate]. injection H as <- <-. destruct R as (_ & F0 & F1 & F2 & F3).
    destruct (nth_split_set _ _ _ Ex) as (s1 & s2 & -> & Hs & Hl). rewrite Hs. rewrite chunks_mid in *. cbn [mp_expand p_chunks].
    apply (minv_perm _ _ _ (Permutation_sym (perm_mid _ _ _ _))). apply minv_new; auto.
  - destruct (nth_error s p) as [x|] eqn:Ex; [|discriminate]. destruct R as (Hb & Hal & F0 & F1 & F2 & F3).
    destruct (nth_split_set _ _ _ Ex) as (s1 & s2 & -> & Hs & Hl). rewrite chunks_mid in *.
    destruct (mp_alloc x b al base) as [(r', x')|] eqn:Ea; [|discriminate]. injection H as <- <-. rewrite Hs, chunks_mid.
    unfold mp_alloc in Ea.
    assert (Al16 : al <= 16) by (cbn in Hal; intuition lia).
    assert (Case : (match back (p_chunks x) with None => true | Some c => c_size c <? wrap64 (c_wm c + b + al) end) = true \/
       exists c, back (p_chunks x) = Some c /\ (match back (p_chunks x) with None => true | Some c => c_size c <? wrap64 (c_wm c + b + al) end) = false /\ c_wm c + b + al <= c_size c).
    { destruct (back (p_chunks x)) as [c|] eqn:Eb; auto. destruct (N.ltb_spec (c_size c) (wrap64 (c_wm c + b + al))) as [Hlt|Hlt]; auto. right.
      exists c. split; auto. split; auto. pose proof (back_split _ _ Eb) as S. rewrite S in I. apply (minv_perm _ _ _ (perm_mid _ _ _ _)) in I.
      assert (Ok : c_ok c) by (destruct I as [I1 _ _ _ _]; inversion I1; auto). destruct Ok as (O1 & O2 & O3 & O4).
      change (2^63) with 9223372036854775808 in O4. change (2^62) with 4611686018427387904 in Hb. rewrite wrap64_id in Hlt; auto. unfold u64_ok, W64. lia. }
    destruct Case as [Cs|(c & Eb & Cs & Hsp)]; rewrite Cs in Ea.
    + destruct (p_exp x).
      * destruct (mp_take (mp_expand x b base) b al) as [(a, x'')|] eqn:Et; [|discriminate]. injection Ea as <- <-.
        assert (I' : minv (chunks_of s1 ++ p_chunks (mp_expand x b base) ++ chunks_of s2) B).
        { cbn [mp_expand p_chunks]. apply (minv_perm _ _ _ (Permutation_sym (perm_mid _ _ _ _))). apply minv_new; auto. }
        refine (take_inv _ _ _ _ _ _ _ _ _ I' _ Hb Hal _ Et); [cbn [mp_expand p_chunks]; apply back_app|]. right. cbn. split; auto. unfold CHUNKSIZE. lia.
      * injection Ea as <- <-. exact I.
    + destruct (mp_take x b al) as [(a, x'')|] eqn:Et; [|discriminate]. injection Ea as <- <-.
      exact (take_inv _ _ _ _ _ _ _ _ _ I Eb Hb Hal (or_introl Hsp) Et).
  - destruct (nth_error s p) as [x|] eqn:Ex; [|discriminate]. destruct (nth_error s q) as [y|] eqn:Ey; [|discriminate].
    destruct (Nat.eqb_spec p q) as [->|Hpq]; [injection H as <- <-; exact I|]. cbn [mp_merge] in H. injection H as <- <-.
    set (x' := mkpool _ _ _ _). set (y' := mkpool [] _ _ _).
    destruct (nth_split_set _ _ _ Ex) as (s1 & s2 & Es & Hs & Hl). rewrite Hs.
    assert (Ey' : nth_error (s1 ++ x' :: s2) q = Some y).
    { rewrite Es in Ey. destruct (Nat.lt_ge_cases q (length s1)) as [Hq|Hq].
      - rewrite nth_error_app1 in * by auto. exact Ey.
      - rewrite nth_error_app2 in * by auto. destruct (q - length s1)%nat eqn:Eq; [lia|]. exact Ey. }
    destruct (nth_split_set _ _ _ Ey') as (t1 & t2 & Et & Ht & _). rewrite Ht.
    refine (minv_perm _ _ _ _ I). rewrite (chunks_mid t1). cbn [p_chunks y' app].
    apply (Permutation_app_inv_l (p_chunks y)).
    transitivity (chunks_of (t1 ++ y :: t2)).
    + rewrite <- Et, Es, !chunks_mid. cbn [p_chunks x']. rewrite <- (app_assoc (p_chunks y)). apply Permutation_app_swap_app.
    + rewrite chunks_mid. apply Permutation_app_swap_app.
Qed.
Lemma run_inv s B : mp_run s B -> minv (chunks_of s) B.
Proof.
  induction 1 as [|s B o r s' H IH R E]; [|eapply step_inv; eauto].
  constructor; cbn; try constructor. intros b [].
Qed.

(* C42: for every history of pool creations, allocations and merges, the blocks handed out do not
   overlap, are aligned as requested and lie in a chunk owned by exactly one of the pools; the
   chunks of all pools do not overlap *)
Theorem C42_blocks_disjoint : forall s B i j a n al a' n' al', mp_run s B ->
  nth_error B i = Some (a, n, al) -> nth_error B j = Some (a', n', al') -> i <> j -> apart a n a' n'.
Proof.
  intros s B i j a n al a' n' al' H Hi Hj Hij. apply run_inv in H. destruct H as [_ _ _ I4 _].
  assert (G : forall B, ForallOrdPairs bdisj B -> forall i j b b', nth_error B i = Some b -> nth_error B j = Some b' -> (i < j)%nat -> bdisj b b').
  { clear. induction 1 as [|b B F FP IH]; intros [|i] [|j] c c'; cbn; intros H1 H2 H3; try discriminate; try lia.
    - injection H1 as <-. rewrite Forall_forall in F. apply F. eapply nth_error_In; eauto.
    - eapply IH; eauto. lia. }
  destruct (Nat.lt_trichotomy i j) as [L|[L|L]]; [|contradiction|].
  - exact (G B I4 i j _ _ Hi Hj L).
  - pose proof (G B I4 j i _ _ Hj Hi L) as Q. cbn in Q. unfold apart in *. tauto.
Qed.
Print Assumptions C42_blocks_disjoint.
Theorem C42_blocks_owned_and_aligned : forall s B a n al, mp_run s B -> In (a, n, al) B ->
  0 < a /\ a mod al = 0 /\ exists c, In c (chunks_of s) /\ c_ptr c <= a /\ a + n <= c_ptr c + c_size c.
Proof.
  intros s B a n al H Hi. apply run_inv in H. destruct H as [I1 _ I3 _ I5]. rewrite Forall_forall in I5. destruct (I5 _ Hi) as (J1 & J2).
  split; auto. split; auto. destruct (I3 _ Hi) as (c & Hc & W1 & W2). exists c. split; auto. split; auto.
  rewrite Forall_forall in I1. destruct (I1 c Hc) as (_ & _ & Q & _). lia.
Qed.
Print Assumptions C42_blocks_owned_and_aligned.
Theorem C42_chunks_freed_once : forall s B i j c d, mp_run s B ->
  nth_error (chunks_of s) i = Some c -> nth_error (chunks_of s) j = Some d -> i <> j -> 
  apart (c_ptr c) (c_size c) (c_ptr d) (c_size d).
Proof.
  intros s B i j c d H Hi Hj Hij. apply run_inv in H. destruct H as [_ I2 _ _ _].
  assert (G : forall B, ForallOrdPairs cdisj B -> forall i j b b', nth_error B i = Some b -> nth_error B j = Some b' -> (i < j)%nat -> cdisj b b').
  { clear. induction 1 as [|b B F FP IH]; intros [|i] [|j] c c'; cbn; intros H1 H2 H3; try discriminate; try lia.
    - injection H1 as <-. rewrite Forall_forall in F. apply F. eapply nth_error_In; eauto.
    - eapply IH; eauto. lia. }
  destruct (Nat.lt_trichotomy i j) as [L|[L|L]]; [|contradiction|].
  - exact (G _ I2 i j _ _ Hi Hj L).
  - apply cdisj_sym. exact (G _ I2 j i _ _ Hj Hi L).
Qed.
Print Assumptions C42_chunks_freed_once.

(* an allocation from an existing pool always succeeds if the pool may expand; otherwise a
   request that does not fit is refused and changes nothing *)
Theorem C42_allocation_succeeds_or_refused : forall s B p b al base x, mp_run s B -> req_ok s (MAlloc p b al base) -> nth_error s p = Some x ->
  (exists a s', mp_step s (MAlloc p b al base) = Some (Some a, s')) \/
  (p_exp x = false /\ mp_step s (MAlloc p b al base) = Some (None, s)).
Proof.
  intros s B p b al base x H R Ex. cbn [mp_step]. rewrite Ex. unfold mp_alloc.
  assert (T : forall q c, back (p_chunks q) = Some c -> exists a q', mp_take q b al = Some (a, q')) by (intros q c Hq; unfold mp_take; rewrite Hq; eauto).
  destruct (match back (p_chunks x) with None => true | Some c => c_size c <? wrap64 (c_wm c + b + al) end) eqn:Ef.
  - destruct (p_exp x) eqn:Ee.
    + left. destruct (T (mp_expand x b base) (mkchunk base 0 (N.max b CHUNKSIZE))) as (a & q' & E); [apply back_app|]. rewrite E. eauto.
    + right. split; auto. do 2 f_equal. apply nth_split_set in Ex. destruct Ex as (s1 & s2 & -> & Hs & _). apply Hs.
  - destruct (back (p_chunks x)) as [c|] eqn:Eb; [|discriminate]. left. destruct (T x c Eb) as (a & q' & E). rewrite E. eauto.
Qed.
Print Assumptions C42_allocation_succeeds_or_refused.

(* the statistics of every pool are the sums over its chunks (size_t arithmetic, modulo 2^64),
   whatever sizes and alignments are requested *)
Definition nsum (f : chunk -> N) (l : list chunk) : N := fold_right (fun c t => f c + t) 0 l.
Lemma nsum_app f a b : nsum f (a ++ b) = nsum f a + nsum f b.
Proof. induction a; cbn [nsum fold_right app]; [reflexivity|]. change (fold_right (fun c t => f c + t) 0 (a0 ++ b)) with (nsum f (a0 ++ b)). rewrite IHa. change (fold_right (fun c t => f c + t) 0 a0) with (nsum f a0). lia. Qed.
Lemma wrap_wrap_l a b : wrap64 (wrap64 a + b) = wrap64 (a + b). Proof. unfold wrap64. rewrite N.add_mod_idemp_l by discriminate. reflexivity. Qed.
Lemma wrap_wrap_r a b : wrap64 (a + wrap64 b) = wrap64 (a + b). Proof. unfold wrap64. rewrite N.add_mod_idemp_r by discriminate. reflexivity. Qed.
Definition stat_ok (x : pool) : Prop := p_reserved x = wrap64 (nsum c_size (p_chunks x)) /\ p_used x = wrap64 (nsum c_wm (p_chunks x)).
Lemma stat_expand x b base : stat_ok x -> stat_ok (mp_expand x b base).
Proof. intros (H1 & H2). unfold mp_expand, stat_ok. cbn [p_reserved p_used p_chunks]. rewrite !nsum_app, H1, H2, wrap_wrap_l. cbn [nsum fold_right c_size c_wm]. rewrite !N.add_0_r. auto. Qed.
Lemma back_split2 l c : back l = Some c -> exists r, l = r ++ [c] /\ forall d, set_back l d = r ++ [d].
Proof.
  unfold back, set_back. destruct l as [|c0 l] using rev_ind; [discriminate|]. rewrite app_length. cbn [length]. replace (length l + 1 - 1)%nat with (length l) by lia.
  rewrite nth_error_app2, Nat.sub_diag by lia. cbn. intro E; inversion E; subst. exists l. split; auto. intro d. rewrite removelast_last. reflexivity.
Qed.
Lemma stat_take x b al a x' : stat_ok x -> mp_take x b al = Some (a, x') -> stat_ok x'.
Proof.
  intros (H1 & H2). unfold mp_take. destruct (back (p_chunks x)) as [c|] eqn:E; [|discriminate]. destruct (back_split2 _ _ E) as (r & Er & Es).
  intro H; inversion H; subst; clear H. unfold stat_ok. cbn [p_reserved p_used p_chunks]. rewrite Es, !nsum_app. cbn [nsum fold_right c_size c_wm].
  rewrite H1, H2, Er, !nsum_app. cbn [nsum fold_right]. rewrite !N.add_0_r. split; auto. match goal with |- wrap64 (_ + ?k) = _ => generalize k; intro n end. rewrite wrap_wrap_r, wrap_wrap_l. f_equal. lia.
Qed.
Lemma In_firstn_local {A} (x : A) n : forall l, In x (firstn n l) -> In x l.
Proof. induction n; intros [|y l]; cbn; try tauto. intros [H|H]; auto. Qed.
Lemma In_skipn_local {A} (x : A) n : forall l, In x (skipn n l) -> In x l.
Proof. induction n; intros [|y l]; cbn [skipn]; auto. intro H. right. auto. Qed.
Lemma stat_pset s i x : Forall stat_ok s -> stat_ok x -> Forall stat_ok (pset s i x).
Proof.
  intros H Hx. rewrite Forall_forall in *. unfold pset. intros y Hy. apply in_app_iff in Hy as [Hy|[<-|Hy]]; auto; apply H; [eapply In_firstn_local|eapply In_skipn_local]; eauto.
Qed.
Lemma stat_alloc x b al base r x' : stat_ok x -> mp_alloc x b al base = Some (r, x') -> stat_ok x'.
Proof.
  intros H. unfold mp_alloc. destruct (match back (p_chunks x) with None => true | Some c => _ end).
  - destruct (p_exp x); [|intro E; inversion E; subst; auto]. destruct (mp_take _ b al) as [[a y]|] eqn:E; [|discriminate]. intro E2; inversion E2; subst. eapply stat_take; [|eauto]. apply stat_expand; auto.
  - destruct (mp_take x b al) as [[a y]|] eqn:E; [|discriminate]. intro E2; inversion E2; subst. eapply stat_take; eauto.
Qed.
Fixpoint mp_hist (s : pools) (ops : list mpop) : option pools := match ops with [] => Some s | o :: r => match mp_step s o with Some (_, s1) => mp_hist s1 r | None => None end end.
Lemma stat_step s o r s' : Forall stat_ok s -> mp_step s o = Some (r, s') -> Forall stat_ok s'.
Proof.
  intros H. assert (G : forall i x, nth_error s i = Some x -> stat_ok x) by (intros i x E; rewrite Forall_forall in H; apply H; eapply nth_error_In; eauto).
  destruct o; cbn [mp_step].
  - intro E; inversion E; subst. apply Forall_app. split; auto. constructor; [|constructor]. apply stat_expand. split; reflexivity.
  - destruct (nth_error s p) as [x|] eqn:Ex; [|discriminate]. intro E; inversion E; subst. apply stat_pset; auto. apply stat_expand; eauto.
  - destruct (nth_error s p) as [x|] eqn:Ex; [|discriminate]. destruct (mp_alloc x bytes al base) as [[r0 x']|] eqn:Ea; [|discriminate]. intro E; inversion E; subst. apply stat_pset; auto. eapply stat_alloc; eauto.
  - destruct (nth_error s p) as [x|] eqn:Ex; [|discriminate]. destruct (nth_error s q) as [y|] eqn:Ey; [|discriminate]. destruct (Nat.eqb p q); [intro E; inversion E; subst; auto|].
    cbn [mp_merge]. intro E; inversion E; subst. apply stat_pset; [apply stat_pset; auto|split; reflexivity].
    destruct (G _ _ Ex) as (X1 & X2), (G _ _ Ey) as (Y1 & Y2). unfold stat_ok. cbn [p_reserved p_used p_chunks]. rewrite !nsum_app, X1, X2, Y1, Y2, !wrap_wrap_l, !wrap_wrap_r. split; f_equal; lia.
Qed.
Theorem C42_statistics : forall ops s x, mp_hist [] ops = Some s -> In x s ->
  p_reserved x = wrap64 (nsum c_size (p_chunks x)) /\ p_used x = wrap64 (nsum c_wm (p_chunks x)).
Proof.
  intros ops s x H. assert (F : Forall stat_ok s). { revert H. assert (F0 : Forall stat_ok []) by constructor. revert F0. generalize (@nil pool). induction ops as [|o r IH]; intros s0 F0; cbn [mp_hist].
    - intro E; inversion E; subst; auto.
    - destruct (mp_step s0 o) as [[r0 s1]|] eqn:E; [|discriminate]. apply IH. eapply stat_step; eauto. }
  rewrite Forall_forall in F. apply F.
Qed.
Example C42_statistics_ex : exists s x, mp_hist [] [MCreate true 70000 4096; MCreate true 100 1048576; MAlloc 0 100 8 0; MAlloc 1 5 1 0; MMerge 0 1] = Some s /\ In x s /\ p_reserved x = 135536 /\ p_used x = 105.
Proof. eexists _, _. split; [vm_compute; reflexivity|]. split; [left; reflexivity|]. split; reflexivity. Qed.
Print Assumptions C42_statistics.

(* Findings: (1) after expand() no room for the alignment is checked; with an alignment larger than
   that of operator new a block of at least 64K can reach past the end of its chunk *)
Theorem C42_large_alignment_refuted : exists x a x',
  mp_alloc x 65536 64 4112 = Some (Some a, x') /\ p_exp x = true /\ p_chunks x = [] /\
  p_chunks x' = [mkchunk 4112 65584 65536] /\ a = 4160.
Proof. exists (mkpool [] true 0 0). eexists _, _. vm_compute. repeat split; reflexivity. Qed.
Print Assumptions C42_large_alignment_refuted.
(* (2) the capacity check wraps for sizes near 2^64: the request is granted without any space *)
Theorem C42_huge_request_refuted : exists x a x',
  mp_alloc x 18446744073709551615 1 0 = Some (Some a, x') /\ p_chunks x = [mkchunk 4096 16 65536] /\ a = 4112 /\ p_chunks x' = [mkchunk 4096 15 65536].
Proof. exists (mkpool [mkchunk 4096 16 65536] true 0 0). eexists _, _. vm_compute. repeat split; reflexivity. Qed.
Print Assumptions C42_huge_request_refuted.

(* non-vacuity: a checker for histories *)
Definition freshb (s : pools) (base len : N) : bool :=
  (0 <? base) && (base mod 16 =? 0) && (base + len <=? 2^63) && forallb (fun c => (base + len <=? c_ptr c) || (c_ptr c + c_size c <=? base)) (chunks_of s).
Definition req_okb (s : pools) (o : mpop) : bool :=
  match o with
  | MCreate e ps base => (ps <=? 2^62) && freshb s base (N.max ps CHUNKSIZE)
  | MGrow p b base => (b <=? 2^62) && freshb s base (N.max b CHUNKSIZE)
  | MAlloc p b al base => (b <=? 2^62) && existsb (N.eqb al) [1; 2; 4; 8; 16] && freshb s base (N.max b CHUNKSIZE)
  | MMerge p q => true
  end.
Lemma freshb_ok s base len : freshb s base len = true -> fresh s base len.
Proof.
  unfold freshb, fresh. rewrite !andb_true_iff, forallb_forall. intros (((H1 & H2) & H3) & H4). apply N.ltb_lt in H1. apply N.eqb_eq in H2. apply N.leb_le in H3.
  repeat split; auto. intros c Hc. specialize (H4 c Hc). apply orb_true_iff in H4. rewrite !N.leb_le in H4. exact H4.
Qed.
Lemma req_okb_ok s o : req_okb s o = true -> req_ok s o.
Proof.
  destruct o; cbn [req_okb req_ok]; rewrite ?andb_true_iff; auto.
  - intros (H & F). split; [apply N.leb_le; auto|apply freshb_ok; auto].
  - intros (H & F). split; [apply N.leb_le; auto|apply freshb_ok; auto].
  - intros ((H & G) & F). split; [apply N.leb_le; auto|]. split; [|apply freshb_ok; auto].
    apply existsb_exists in G. destruct G as (x & Hx & E). apply N.eqb_eq in E. subst. exact Hx.
Qed.
Fixpoint mp_exec (s : pools) (B : list (N * N * N)) (ops : list mpop) : option (pools * list (N * N * N)) :=
  match ops with
  | [] => Some (s, B)
  | o :: t => if req_okb s o then match mp_step s o with Some (r, s') => mp_exec s' (match o, r with MAlloc _ b al _, Some a => (a, b, al) :: B | _, _ => B end) t | None => None end else None
  end.
Lemma mp_exec_run ops : forall s B s' B', mp_run s B -> mp_exec s B ops = Some (s', B') -> mp_run s' B'.
Proof.
  induction ops as [|o t IH]; intros s B s' B' H E; cbn [mp_exec] in E; [injection E as <- <-; auto|].
  destruct (req_okb s o) eqn:R; [|discriminate]. destruct (mp_step s o) as [(r, s1)|] eqn:Es; [|discriminate].
  refine (IH _ _ _ _ _ E). exact (mr_step _ _ _ _ _ H (req_okb_ok _ _ R) Es).
Qed.
(* two pools, an expansion, a merge, and an allocation after it *)
Example C42_ex : exists s, mp_run s [(4224, 100, 16); (1048576, 70000, 8); (4196, 25, 1); (73728, 1, 1); (4096, 100, 8)] /\ length (chunks_of s) = 3%nat.
Proof.
  assert (E : exists s, mp_exec [] [] [MCreate true 100 4096; MCreate true 100 73728; MAlloc 0 100 8 524288; MAlloc 1 1 1 524288;
     MAlloc 0 25 1 524288; MAlloc 1 70000 8 1048576; MMerge 0 1; MAlloc 0 100 16 2097152] =
     Some (s, [(4224, 100, 16); (1048576, 70000, 8); (4196, 25, 1); (73728, 1, 1); (4096, 100, 8)]) /\ length (chunks_of s) = 3%nat).
  { eexists. split; [vm_compute; reflexivity|vm_compute; reflexivity]. }
  destruct E as (s & E & L). exists s. split; auto. exact (mp_exec_run _ _ _ _ _ mr_init E).
Qed.
