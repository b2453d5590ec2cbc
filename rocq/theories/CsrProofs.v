From Verif Require Import Base VlencModel VlencProofs VariantModel VariantProofs CsrModel.
Local Open Scope nat_scope.

(* ---- byte buffer lemmas ---- *)
Lemma nth_ext_eq {A} : forall (a b : list A), (forall i, nth_error a i = nth_error b i) -> a = b.
Proof.
  induction a as [|x a IH]; intros [|y b] H; auto.
  - specialize (H O). discriminate.
  - specialize (H O). discriminate.
  - assert (E := H O). injection E as ->. f_equal. apply IH. intro i. exact (H (S i)).
Qed.

Lemma nth_error_firstn' {A} (l : list A) n i : nth_error (firstn n l) i = if i <? n then nth_error l i else None.
Proof.
  revert l i; induction n as [|n IH]; intros l i.
  - simpl. destruct i; reflexivity.
  - destruct l as [|x l]; simpl.
    + destruct i; simpl; [reflexivity|]. destruct (S i <? S n); reflexivity.
    + destruct i; simpl; [reflexivity|]. rewrite IH. reflexivity.
Qed.

Lemma nth_error_skipn' {A} (l : list A) n i : nth_error (skipn n l) i = nth_error l (n + i).
Proof.
  revert l; induction n as [|n IH]; intro l; simpl; [reflexivity|].
  destruct l; simpl; [destruct i; reflexivity|apply IH].
Qed.

Lemma nth_error_app' {A} (a b : list A) i :
  nth_error (a ++ b) i = if i <? length a then nth_error a i else nth_error b (i - length a).
Proof.
  destruct (Nat.ltb_spec i (length a)); [apply nth_error_app1|apply nth_error_app2]; assumption.
Qed.

Lemma blit_some buf off src : off + length src <= length buf ->
  exists b, blit buf off src = Some b /\ length b = length buf /\
    forall i, nth_error b i = if (off <=? i) && (i <? off + length src) then nth_error src (i - off) else nth_error buf i.
Proof.
  intro H. unfold blit. destruct (Nat.leb_spec (off + length src) (length buf)); [|lia].
  eexists. split; [reflexivity|]. split.
  - rewrite !app_length, firstn_length, skipn_length. lia.
  - intro i. rewrite !nth_error_app', nth_error_firstn', nth_error_skipn', firstn_length.
    rewrite Nat.min_l by lia.
    destruct (Nat.ltb_spec i off).
    + destruct (Nat.leb_spec off i); [lia|]. reflexivity.
    + destruct (Nat.leb_spec off i); [|lia]. simpl.
      destruct (Nat.ltb_spec (i - off) (length src)); destruct (Nat.ltb_spec i (off + length src)); try lia; auto.
      f_equal. lia.
Qed.

Lemma slice_some buf off len : off + len <= length buf ->
  exists b, slice buf off len = Some b /\ length b = len /\
    forall i, nth_error b i = if i <? len then nth_error buf (off + i) else None.
Proof.
  intro H. unfold slice. destruct (Nat.leb_spec (off + len) (length buf)); [|lia].
  eexists. split; [reflexivity|]. split.
  - rewrite firstn_length, skipn_length. lia.
  - intro i. rewrite nth_error_firstn', nth_error_skipn'. reflexivity.
Qed.

(* save_memmove to a higher address really is memmove *)
Lemma memmove_loop_ok fuel : forall buf dst src len, len <= fuel -> src <= dst -> dst + len <= length buf ->
  exists b, memmove_loop fuel buf dst src len = Some b /\ length b = length buf /\
    forall i, nth_error b i = if (dst <=? i) && (i <? dst + len) then nth_error buf (src + (i - dst)) else nth_error buf i.
Proof.
  induction fuel as [|f IH]; intros buf dst src len Hf Hsd Hl.
  - assert (len = 0) by lia. subst. simpl. exists buf. split; [reflexivity|]. split; [reflexivity|].
    intro i. destruct (Nat.leb_spec dst i); destruct (Nat.ltb_spec i (dst + 0)); simpl; auto; lia.
  - destruct len as [|len0].
    + simpl. exists buf. split; [reflexivity|]. split; [reflexivity|].
      intro i. destruct (Nat.leb_spec dst i); destruct (Nat.ltb_spec i (dst + 0)); simpl; auto; lia.
    + set (len := S len0) in *. cbn [memmove_loop]. fold len.
      change (match len with 0 => Some buf | S _ =>
        match slice buf (src + (len - Nat.min len 64)) (Nat.min len 64) with
        | None => None
        | Some tmp => match blit buf (dst + (len - Nat.min len 64)) tmp with
                      | None => None
                      | Some buf' => memmove_loop f buf' dst src (len - Nat.min len 64)
                      end end end) with
        (match slice buf (src + (len - Nat.min len 64)) (Nat.min len 64) with
        | None => None
        | Some tmp => match blit buf (dst + (len - Nat.min len 64)) tmp with
                      | None => None
                      | Some buf' => memmove_loop f buf' dst src (len - Nat.min len 64)
                      end end).
      set (blk := Nat.min len 64). assert (Hblk : 1 <= blk <= len) by (unfold blk, len; lia). clearbody blk. clearbody len.
      destruct (slice_some buf (src + (len - blk)) blk) as (tmp & Et & Lt & Nt); [lia|]. rewrite Et.
      destruct (blit_some buf (dst + (len - blk)) tmp) as (b1 & E1 & L1 & N1); [lia|]. rewrite E1.
      destruct (IH b1 dst src (len - blk)) as (b2 & E2 & L2 & N2); [lia|lia|lia|].
      exists b2. split; [destruct len; [lia|exact E2]|]. split; [congruence|].
      intro i. rewrite N2, !N1, !Nt, Lt.
      destruct (Nat.leb_spec dst i); simpl.
      * destruct (Nat.ltb_spec i (dst + (len - blk))); destruct (Nat.ltb_spec i (dst + len)); try lia; simpl.
        -- destruct (Nat.leb_spec (dst + (len - blk)) (src + (i - dst))); simpl; [lia|reflexivity].
        -- destruct (Nat.leb_spec (dst + (len - blk)) i); [|lia]. simpl.
           destruct (Nat.ltb_spec i (dst + (len - blk) + blk)); [|lia].
           destruct (Nat.ltb_spec (i - (dst + (len - blk))) blk); [|lia]. f_equal. lia.
        -- destruct (Nat.ltb_spec i (dst + (len - blk) + blk)); [lia|].
           destruct (Nat.leb_spec (dst + (len - blk)) i); reflexivity.
      * destruct (Nat.leb_spec (dst + (len - blk)) i); simpl; [lia|reflexivity].
Qed.

Lemma save_memmove_ok buf dst src len : src <= dst -> dst + len <= length buf ->
  exists b, save_memmove buf dst src len = Some b /\ length b = length buf /\
    forall i, nth_error b i = if (dst <=? i) && (i <? dst + len) then nth_error buf (src + (i - dst)) else nth_error buf i.
Proof.
  intros H L. unfold save_memmove. destruct (Nat.eqb_spec src dst) as [->|].
  - exists buf. split; [reflexivity|]. split; [reflexivity|]. intro i.
    destruct (Nat.leb_spec dst i); destruct (Nat.ltb_spec i (dst + len)); simpl; auto. f_equal; lia.
  - apply memmove_loop_ok; lia.
Qed.

(* ---- memory safety of every append history ---- *)
Definition safe (L : nat) (c : csr) : Prop :=
  length (cs_buf c) = L /\ 1 <= cs_ipos c /\ 1 <= cs_ilen c /\ cs_ipos c + cs_ilen c <= L.

Lemma bump_some buf i k : i < length buf -> exists b, bump buf i k = Some b /\ length b = length buf /\
  forall j, nth_error b j = if j =? i then option_map (fun x => ((x + N.of_nat k) mod 256)%N) (nth_error buf i) else nth_error buf j.
Proof.
  intro H. unfold bump. destruct (nth_error buf i) as [x|] eqn:E.
  - destruct (blit_some buf i [((x + N.of_nat k) mod 256)%N]) as (b & Eb & Lb & Nb); [simpl; lia|].
    exists b. split; [exact Eb|]. split; [exact Lb|]. intro j. rewrite Nb. simpl length.
    destruct (Nat.eqb_spec j i) as [->|].
    + destruct (Nat.leb_spec i i); [|lia]. destruct (Nat.ltb_spec i (i + 1)); [|lia]. rewrite Nat.sub_diag. reflexivity.
    + destruct (Nat.leb_spec i j); destruct (Nat.ltb_spec j (i + 1)); simpl; auto; lia.
  - apply nth_error_None in E. lia.
Qed.

Lemma put_nodes_safe L c blk : safe L c -> exists c' s, put_nodes c blk = Some (c', s) /\ safe L c'.
Proof.
  intros (HL & Hp & Hi & Hb). unfold put_nodes.
  destruct (andb _ _) eqn:E.
  - apply andb_prop in E as [_ E]. apply Nat.leb_le in E.
    destruct (save_memmove_ok (cs_buf c) (cs_ipos c + length (enc_nodes blk)) (cs_ipos c) (cs_ilen c)) as (b1 & -> & L1 & _); [lia|lia|].
    destruct (blit_some b1 1 (enc_nodes blk)) as (b2 & -> & L2 & _); [lia|].
    destruct (bump_some b2 0 (length blk)) as (b3 & -> & L3 & _); [lia|].
    do 2 eexists. split; [reflexivity|]. unfold safe; simpl. lia.
  - do 2 eexists. split; [reflexivity|]. unfold safe; simpl. lia.
Qed.

Lemma put_imm_safe L c blk : safe L c -> exists c' s, put_imm c blk = Some (c', s) /\ safe L c'.
Proof.
  intros (HL & Hp & Hi & Hb). unfold put_imm.
  destruct (andb _ _) eqn:E.
  - apply andb_prop in E as [_ E]. apply Nat.leb_le in E.
    destruct (blit_some (cs_buf c) (cs_ipos c + cs_ilen c) (enc_imm blk)) as (b2 & -> & L2 & _); [lia|].
    destruct (bump_some b2 (cs_ipos c) (length blk)) as (b3 & -> & L3 & _); [lia|].
    do 2 eexists. split; [reflexivity|]. unfold safe; simpl. lia.
  - do 2 eexists. split; [reflexivity|]. unfold safe; simpl. lia.
Qed.

Lemma skipn4_len {A} (x : A) l : length (skipn BLK (x :: l)) <= length l.
Proof. rewrite skipn_length. unfold BLK. simpl. lia. Qed.

Lemma nodes_loop_safe L f : forall c l, length l <= f -> safe L c -> exists c' s, nodes_loop f c l = Some (c', s) /\ safe L c'.
Proof.
  induction f as [|f IH]; intros c l Hf Hs.
  - destruct l; [|simpl in Hf; lia]. exists c, 0. auto.
  - destruct l as [|x l]; [exists c, 0; auto|]. cbn [nodes_loop].
    destruct (put_nodes_safe L c (firstn BLK (x :: l)) Hs) as (c1 & s1 & -> & H1).
    destruct (IH c1 (skipn BLK (x :: l))) as (c2 & s2 & -> & H2); auto.
    { assert (A := skipn4_len x l). simpl in Hf. lia. }
    do 2 eexists. split; [reflexivity|exact H2].
Qed.

Lemma imm_loop_safe L f : forall c l, length l <= f -> safe L c -> exists c' s, imm_loop f c l = Some (c', s) /\ safe L c'.
Proof.
  induction f as [|f IH]; intros c l Hf Hs.
  - destruct l; [|simpl in Hf; lia]. exists c, 0. auto.
  - destruct l as [|x l]; [exists c, 0; auto|]. cbn [imm_loop].
    destruct (put_imm_safe L c (firstn BLK (x :: l)) Hs) as (c1 & s1 & -> & H1).
    destruct (IH c1 (skipn BLK (x :: l))) as (c2 & s2 & -> & H2); auto.
    { assert (A := skipn4_len x l). simpl in Hf. lia. }
    do 2 eexists. split; [reflexivity|exact H2].
Qed.

Lemma append_nodes_safe L c l : safe L c -> exists c' s, append_nodes c l = Some (c', s) /\ safe L c'.
Proof.
  intro H. unfold append_nodes. destruct (nodes_loop_safe L (length l) c l (le_n _) H) as (c1 & s & -> & H1).
  do 2 eexists. split; [reflexivity|]. exact H1.
Qed.
Lemma append_imm_safe L c l : safe L c -> exists c' s, append_imm c l = Some (c', s) /\ safe L c'.
Proof.
  intro H. unfold append_imm. destruct (imm_loop_safe L (length l) c l (le_n _) H) as (c1 & s & -> & H1).
  do 2 eexists. split; [reflexivity|]. exact H1.
Qed.
Lemma entries_loop_safe L l : forall c ns ims, safe L c -> exists c' s, entries_loop c ns ims l = Some (c', s) /\ safe L c'.
Proof.
  induction l as [|e l IH]; intros c ns ims H; cbn [entries_loop].
  - destruct (append_nodes_safe L c ns H) as (c1 & s1 & -> & H1).
    destruct (append_imm_safe L c1 ims H1) as (c2 & s2 & -> & H2). do 2 eexists. split; [reflexivity|exact H2].
  - destruct e as [id|a v|].
    + destruct (length (ns ++ [id]) =? BLK); [|apply IH; exact H].
      destruct (append_nodes_safe L c (ns ++ [id]) H) as (c1 & s1 & -> & H1).
      destruct (IH c1 [] ims H1) as (c2 & s2 & -> & H2). do 2 eexists. split; [reflexivity|exact H2].
    + destruct (length (ims ++ [(a, v)]) =? BLK); [|apply IH; exact H].
      destruct (append_imm_safe L c (ims ++ [(a, v)]) H) as (c1 & s1 & -> & H1).
      destruct (IH c1 ns [] H1) as (c2 & s2 & -> & H2). do 2 eexists. split; [reflexivity|exact H2].
    + apply IH; exact H.
Qed.

Lemma new_safe L : 2 <= L -> safe L (csr_new L).
Proof. intro H. unfold safe; simpl. rewrite repeat_length. lia. Qed.

(* arbitrary histories *)
Inductive csr_op := ONodes (l : list N) | OImm (l : list (N * cvar)) | OEntries (l : list sent).
Definition csr_step (c : csr) (o : csr_op) : option (csr * nat) :=
  match o with ONodes l => append_nodes c l | OImm l => append_imm c l | OEntries l => append_entries c l end.
Fixpoint csr_run (c : csr) (ops : list csr_op) : option csr :=
  match ops with
  | [] => Some c
  | o :: r => match csr_step c o with None => None | Some (c', _) => csr_run c' r end
  end.
Lemma csr_run_safe L ops : forall c, safe L c -> exists c', csr_run c ops = Some c' /\ safe L c'.
Proof.
  induction ops as [|o ops IH]; intros c H; simpl; [eauto|].
  assert (Hs : exists c' s, csr_step c o = Some (c', s) /\ safe L c').
  { destruct o; simpl; [apply append_nodes_safe|apply append_imm_safe|apply entries_loop_safe]; exact H. }
  destruct Hs as (c1 & s & -> & H1). apply IH. exact H1.
Qed.

(* ---- decoding ---- *)
Definition imm_ok (p : N * cvar) : Prop := u64_ok (fst p) /\ cvar_ok (snd p) /\ (extract_type (ts (snd p)) <= MAXTYPE)%N.

Lemma dec_enc_nodes l rest : Forall u64_ok l -> dec_nodes (length l) (enc_nodes l ++ rest) = Some (l, rest).
Proof.
  induction l as [|x l IH]; intro H; [reflexivity|]. inversion H as [|? ? H1 H2]; subst.
  cbn [length dec_nodes enc_nodes flat_map]. rewrite <- app_assoc, vldec_vlenc by exact H1.
  fold (enc_nodes l). rewrite IH by exact H2. reflexivity.
Qed.
Lemma dec_enc_imm l rest : Forall imm_ok l -> dec_imm (length l) (enc_imm l ++ rest) = Some (l, rest).
Proof.
  induction l as [|[a v] l IH]; intro H; [reflexivity|]. inversion H as [|? ? H1 H2]; subst.
  destruct H1 as (Ha & Hv & Ht). cbn [fst snd] in *.
  cbn [length dec_imm enc_imm flat_map fst snd]. rewrite <- !app_assoc, vldec_vlenc by exact Ha.
  rewrite var_pack_unpack by assumption.
  fold (enc_imm l). rewrite IH by exact H2. reflexivity.
Qed.

(* representation *)
Definition repr (c : csr) (ns : list N) (is : list (N * cvar)) (junk : bytes) : Prop :=
  cs_buf c = [N.of_nat (length ns)] ++ enc_nodes ns ++ [N.of_nat (length is)] ++ enc_imm is ++ junk /\
  cs_nn c = length ns /\ cs_ni c = length is /\ length ns < 128 /\ length is < 128 /\
  cs_ipos c = 1 + length (enc_nodes ns) /\ cs_ilen c = 1 + length (enc_imm is).

Lemma repr_decode c ns is junk : repr c ns is junk -> Forall u64_ok ns -> Forall imm_ok is ->
  csr_decode (cs_buf c) = Some (ns, is, junk).
Proof.
  intros (-> & _) Hn Hi. unfold csr_decode. cbn [app]. rewrite Nat2N.id, dec_enc_nodes by exact Hn.
  rewrite Nat2N.id, dec_enc_imm by exact Hi. reflexivity.
Qed.

Lemma repr_size c ns is junk : repr c ns is junk ->
  csr_size c = length ([N.of_nat (length ns)] ++ enc_nodes ns ++ [N.of_nat (length is)] ++ enc_imm is).
Proof.
  intros (E & _ & _ & _ & _ & Hp & Hl). unfold csr_size. rewrite E, Hp, Hl. rewrite !app_length. simpl. lia.
Qed.

Lemma enc_nodes_app a b : enc_nodes (a ++ b) = enc_nodes a ++ enc_nodes b.
Proof. apply flat_map_app. Qed.
Lemma enc_imm_app a b : enc_imm (a ++ b) = enc_imm a ++ enc_imm b.
Proof. apply flat_map_app. Qed.

Lemma nth_mid {A} (a : list A) x r i : i = length a -> nth_error (a ++ x :: r) i = Some x.
Proof. intros ->. rewrite nth_error_app2 by lia. rewrite Nat.sub_diag. reflexivity. Qed.

Lemma blit_mid pre old src post : length old = length src -> blit (pre ++ old ++ post) (length pre) src = Some (pre ++ src ++ post).
Proof.
  intro H. unfold blit. rewrite !app_length, <- H.
  destruct (Nat.leb_spec (length pre + length old) (length pre + (length old + length post))); [|lia].
  rewrite firstn_app_exact. rewrite (app_assoc pre old post) at 1.
  rewrite <- (app_length pre old), skipn_app_exact. reflexivity.
Qed.
Lemma bump_mid pre x post k : (x + N.of_nat k < 256)%N ->
  bump (pre ++ [x] ++ post) (length pre) k = Some (pre ++ [(x + N.of_nat k)%N] ++ post).
Proof.
  intro H. unfold bump. rewrite (nth_mid pre x post) by reflexivity.
  rewrite N.mod_small by exact H. apply blit_mid. reflexivity.
Qed.

Lemma put_imm_repr c ns is junk blk : repr c ns is junk ->
  exists c' s, put_imm c blk = Some (c', s) /\ length (cs_buf c') = length (cs_buf c) /\
    cs_needed c' = cs_needed c + length (enc_imm blk) /\ cs_skipped c' = cs_skipped c /\
    ((s = 0 /\ exists junk', repr c' ns (is ++ blk) junk') \/
     (s = length blk /\ repr c' ns is junk /\
      (128 <= length is + length blk \/ length (cs_buf c) < 2 + length (enc_nodes ns) + length (enc_imm is) + length (enc_imm blk)))).
Proof.
  intros R. assert (R' := R). destruct R as (E & Hnn & Hni & Ln & Li & Hp & Hl). unfold put_imm.
  destruct (andb _ _) eqn:B.
  - apply andb_prop in B as [B1 B2]. apply Nat.ltb_lt in B1. apply Nat.leb_le in B2.
    set (len := length (enc_imm blk)) in *.
    assert (Lj : len <= length junk).
    { rewrite E in B2. rewrite !app_length in B2. simpl in B2. lia. }
    rewrite E.
    replace ([N.of_nat (length ns)] ++ enc_nodes ns ++ [N.of_nat (length is)] ++ enc_imm is ++ junk)
      with (([N.of_nat (length ns)] ++ enc_nodes ns ++ [N.of_nat (length is)] ++ enc_imm is) ++ firstn len junk ++ skipn len junk)
      by (rewrite firstn_skipn, <- !app_assoc; reflexivity).
    replace (cs_ipos c + cs_ilen c) with (length ([N.of_nat (length ns)] ++ enc_nodes ns ++ [N.of_nat (length is)] ++ enc_imm is))
      by (rewrite !app_length; simpl; lia).
    rewrite blit_mid by (rewrite firstn_length; unfold len in *; lia).
    replace (([N.of_nat (length ns)] ++ enc_nodes ns ++ [N.of_nat (length is)] ++ enc_imm is) ++ enc_imm blk ++ skipn len junk)
      with (([N.of_nat (length ns)] ++ enc_nodes ns) ++ [N.of_nat (length is)] ++ (enc_imm is ++ enc_imm blk ++ skipn len junk))
      by (rewrite <- !app_assoc; reflexivity).
    replace (cs_ipos c) with (length ([N.of_nat (length ns)] ++ enc_nodes ns)) by (rewrite app_length; simpl; lia).
    rewrite bump_mid by lia.
    do 2 eexists. split; [reflexivity|]. cbn [cs_buf cs_needed cs_skipped].
    split. { rewrite !app_length, skipn_length, firstn_length. simpl. unfold len in *; lia. }
    split; [reflexivity|]. split; [reflexivity|]. left. split; [reflexivity|].
    exists (skipn len junk). split; [|].
    + cbn [cs_buf]. rewrite enc_imm_app, app_length, Nat2N.inj_add, <- !app_assoc. reflexivity.
    + cbn [cs_nn cs_ni cs_ipos cs_ilen]. rewrite enc_imm_app, !app_length. simpl. unfold len. lia.
  - do 2 eexists. split; [reflexivity|]. cbn [cs_buf cs_needed cs_skipped]. split; [reflexivity|].
    split; [reflexivity|]. split; [reflexivity|]. right. split; [reflexivity|]. split; [exact R'|].
    apply andb_false_iff in B as [B|B]; [apply Nat.ltb_ge in B|apply Nat.leb_gt in B]; lia.
Qed.

Lemma put_nodes_repr c is junk blk : repr c [] is junk -> length blk <= 4 ->
  exists c' s, put_nodes c blk = Some (c', s) /\ length (cs_buf c') = length (cs_buf c) /\
    cs_needed c' = cs_needed c + length (enc_nodes blk) /\ cs_skipped c' = cs_skipped c /\
    ((s = 0 /\ exists junk', repr c' blk is junk') \/
     (s = length blk /\ repr c' [] is junk /\
      (length (cs_buf c) < 2 + length (enc_imm is) + length (enc_nodes blk)))).
Proof.
  intros R Lb. assert (R' := R). destruct R as (E & Hnn & Hni & Ln & Li & Hp & Hl). unfold put_nodes.
  assert (Hp1 : cs_ipos c = 1) by exact Hp. clear Hp. rename Hp1 into Hp. cbn [length] in Hnn.
  destruct (andb _ _) eqn:B.
  - apply andb_prop in B as [B1 B2]. apply Nat.ltb_lt in B1. apply Nat.leb_le in B2.
    set (len := length (enc_nodes blk)) in *.
    destruct (save_memmove_ok (cs_buf c) (cs_ipos c + len) (cs_ipos c) (cs_ilen c)) as (b1 & E1 & L1 & N1); [lia|lia|].
    rewrite E1.
    set (junk' := skipn len junk).
    assert (Hlb : length (cs_buf c) = 2 + length (enc_imm is) + length junk).
    { rewrite E. rewrite !app_length. simpl. lia. }
    assert (Hb1 : exists mid, length mid = len /\
       b1 = [0%N] ++ mid ++ ([N.of_nat (length is)] ++ enc_imm is ++ junk')).
    { exists (firstn len (skipn 1 b1)). split.
      - rewrite firstn_length, skipn_length. lia.
      - assert (Hpre : b1 = firstn 1 b1 ++ firstn len (skipn 1 b1) ++ skipn (1 + len) b1).
        { rewrite <- (firstn_skipn 1 b1) at 1. f_equal. rewrite <- (firstn_skipn len (skipn 1 b1)) at 1. f_equal.
          clear. revert b1. intro b1. destruct b1; simpl; [rewrite !skipn_nil; reflexivity|reflexivity]. }
        rewrite Hpre at 1.
        assert (Ha : firstn 1 b1 = [0%N]).
        { apply nth_ext_eq. intro i. rewrite nth_error_firstn', N1.
          destruct (Nat.ltb_spec i 1).
          - assert (i = 0) by lia. subst i. destruct (Nat.leb_spec (cs_ipos c + len) 0); [lia|]. simpl. rewrite E. reflexivity.
          - symmetry. apply nth_error_None. simpl. lia. }
        assert (Hc : skipn (1 + len) b1 = [N.of_nat (length is)] ++ enc_imm is ++ junk').
        { apply nth_ext_eq. intro i. rewrite nth_error_skipn', N1. rewrite Hp, Hl.
          destruct (Nat.leb_spec (1 + len) (1 + len + i)); [|lia]. cbn [andb].
          destruct (Nat.ltb_spec (1 + len + i) (1 + len + (1 + length (enc_imm is)))) as [Q|Q].
          + replace (1 + (1 + len + i - (1 + len))) with (S i) by lia. rewrite E. cbn [app enc_nodes flat_map nth_error].
            destruct i as [|i]; [reflexivity|]. cbn [nth_error]. rewrite !nth_error_app'.
            destruct (Nat.ltb_spec i (length (enc_imm is))); [reflexivity|lia].
          + rewrite E. cbn [app enc_nodes flat_map]. unfold junk'.
            change (1 + len + i) with (S (len + i)). cbn [nth_error].
            destruct i as [|i]; [lia|]. cbn [nth_error].
            rewrite Nat.add_succ_r. cbn [nth_error]. rewrite !nth_error_app', nth_error_skipn'.
            destruct (Nat.ltb_spec (len + i) (length (enc_imm is))); [lia|].
            destruct (Nat.ltb_spec i (length (enc_imm is))); [lia|]. f_equal. lia. }
        rewrite Ha, Hc. reflexivity. }
    destruct Hb1 as (mid & Lm & Eb1). rewrite Eb1.
    set (post := [N.of_nat (length is)] ++ enc_imm is ++ junk').
    assert (Hbl : blit ([0%N] ++ mid ++ post) 1 (enc_nodes blk) = Some ([0%N] ++ enc_nodes blk ++ post))
      by (apply (blit_mid [0%N] mid (enc_nodes blk)); unfold len in *; lia).
    assert (Hbu : bump ([0%N] ++ enc_nodes blk ++ post) 0 (length blk) = Some ([(0 + N.of_nat (length blk))%N] ++ enc_nodes blk ++ post))
      by (apply (bump_mid [] 0%N (enc_nodes blk ++ post) (length blk)); lia).
    rewrite Hbl, Hbu. unfold post.
    do 2 eexists. split; [reflexivity|]. cbn [cs_buf cs_needed cs_skipped].
    split. { rewrite Hlb. unfold junk'. rewrite !app_length, skipn_length. simpl. unfold len in *; lia. }
    split; [reflexivity|]. split; [reflexivity|]. left. split; [reflexivity|]. exists junk'. split; [|].
    + cbn [cs_buf]. rewrite N.add_0_l. reflexivity.
    + cbn [cs_nn cs_ni cs_ipos cs_ilen]. unfold len. rewrite Hnn, Hp. simpl. repeat split; auto; lia.
  - do 2 eexists. split; [reflexivity|]. cbn [cs_buf cs_needed cs_skipped]. split; [reflexivity|].
    split; [reflexivity|]. split; [reflexivity|]. right. split; [reflexivity|]. split; [exact R'|].
    apply andb_false_iff in B as [B|B]; [apply Nat.ltb_ge in B|apply Nat.leb_gt in B]; lia.
Qed.

(* ---- accounting ---- *)
Inductive subseq {A} : list A -> list A -> Prop :=
| ss_nil : subseq [] []
| ss_keep x a b : subseq a b -> subseq (x :: a) (x :: b)
| ss_drop x a b : subseq a b -> subseq a (x :: b).

Lemma subseq_refl {A} (l : list A) : subseq l l.
Proof. induction l; constructor; auto. Qed.
Lemma subseq_nil {A} (l : list A) : subseq [] l.
Proof. induction l; constructor; auto. Qed.
Lemma subseq_app {A} (a b c d : list A) : subseq a b -> subseq c d -> subseq (a ++ c) (b ++ d).
Proof. induction 1; simpl; intros; try constructor; auto. Qed.
Lemma subseq_len {A} (a b : list A) : subseq a b -> length a <= length b.
Proof. induction 1; simpl; lia. Qed.
Lemma subseq_Forall {A} (P : A -> Prop) a b : subseq a b -> Forall P b -> Forall P a.
Proof. induction 1; intro F; auto; inversion F; subst; auto. Qed.
Lemma subseq_enc a b : subseq a b -> length (enc_imm a) <= length (enc_imm b).
Proof.
  unfold enc_imm. induction 1 as [|x a b H IH|x a b H IH]; cbn [flat_map]; rewrite ?app_length; lia.
Qed.

(* L: buffer length; k: skipped entries not yet added to m_skipped; AR, AI: all
   references/immediates given so far *)
Definition acc (L k : nat) (AR : list N) (AI : list (N * cvar)) (c : csr) : Prop :=
  exists ns is junk, repr c ns is junk /\ length (cs_buf c) = L /\
    (ns = AR \/ ns = []) /\ subseq is AI /\
    cs_skipped c + k + length ns + length is = length AR + length AI /\
    cs_needed c = 2 + length (enc_nodes AR) + length (enc_imm AI) /\
    (cs_needed c <= L -> length AI < 128 -> ns = AR /\ is = AI).

Lemma acc_new L : 2 <= L -> acc L 0 [] [] (csr_new L).
Proof.
  intro H. exists [], [], (repeat 0%N (L - 2)). split.
  - repeat split; try (simpl; lia). destruct L as [|[|L]]; try lia. simpl. rewrite Nat.sub_0_r. reflexivity.
  - simpl. rewrite repeat_length. repeat split; auto; constructor.
Qed.

Lemma acc_put_imm L k AR AI c blk : acc L k AR AI c ->
  exists c' s, put_imm c blk = Some (c', s) /\ acc L (k + s) AR (AI ++ blk) c'.
Proof.
  intros (ns & is & junk & R & HL & Hns & Hss & Hsk & Hnd & Hfull).
  destruct (put_imm_repr c ns is junk blk R) as (c' & s & E & L' & N' & S' & D).
  exists c', s. split; [exact E|].
  assert (Lss := subseq_len _ _ Hss). assert (Ess := subseq_enc _ _ Hss).
  assert (Lns : length (enc_nodes ns) <= length (enc_nodes AR)) by (destruct Hns as [->| ->]; simpl; lia).
  destruct D as [(-> & junk' & R')|(-> & R' & Why)].
  - exists ns, (is ++ blk), junk'. split; [exact R'|]. split; [congruence|]. split; [exact Hns|].
    split; [apply subseq_app; [exact Hss|apply subseq_refl]|].
    rewrite enc_imm_app, !app_length. split; [lia|]. split; [lia|].
    intros A B. destruct Hfull as [-> ->]; auto; lia.
  - exists ns, is, junk. split; [exact R'|]. split; [congruence|]. split; [exact Hns|].
    split; [rewrite <- (app_nil_r is); apply subseq_app; [exact Hss|apply subseq_nil]|].
    rewrite enc_imm_app, !app_length. split; [lia|]. split; [lia|].
    intros A B. exfalso. lia.
Qed.

Lemma acc_put_nodes L k AI c blk : length blk <= 4 -> acc L k [] AI c ->
  exists c' s, put_nodes c blk = Some (c', s) /\ acc L (k + s) blk AI c'.
Proof.
  intros Hb (ns & is & junk & R & HL & Hns & Hss & Hsk & Hnd & Hfull).
  assert (ns = []) by (destruct Hns; auto). subst ns.
  destruct (put_nodes_repr c is junk blk R Hb) as (c' & s & E & L' & N' & S' & D).
  exists c', s. split; [exact E|].
  assert (Lss := subseq_len _ _ Hss). assert (Ess := subseq_enc _ _ Hss).
  destruct D as [(-> & junk' & R')|(-> & R' & Why)].
  - exists blk, is, junk'. split; [exact R'|]. split; [congruence|]. split; [left; reflexivity|].
    split; [exact Hss|]. simpl in *. split; [lia|]. split; [lia|].
    intros A B. split; [reflexivity|]. apply Hfull; lia.
  - exists [], is, junk. split; [exact R'|]. split; [congruence|]. split; [right; reflexivity|].
    split; [exact Hss|]. simpl in *. split; [lia|]. split; [lia|].
    intros A B. exfalso. lia.
Qed.

Lemma acc_imm_loop L AR f : forall k AI c l, length l <= f -> acc L k AR AI c ->
  exists c' s, imm_loop f c l = Some (c', s) /\ acc L (k + s) AR (AI ++ l) c'.
Proof.
  induction f as [|f IH]; intros k AI c l Hf H.
  - destruct l; [|simpl in Hf; lia]. exists c, 0. rewrite app_nil_r, Nat.add_0_r. auto.
  - destruct l as [|x l]; [exists c, 0; rewrite app_nil_r, Nat.add_0_r; auto|]. cbn [imm_loop].
    destruct (acc_put_imm L k AR AI c (firstn BLK (x :: l)) H) as (c1 & s1 & -> & H1).
    destruct (IH (k + s1) (AI ++ firstn BLK (x :: l)) c1 (skipn BLK (x :: l))) as (c2 & s2 & -> & H2); [|exact H1|].
    { assert (A := skipn4_len x l). simpl in Hf. lia. }
    do 2 eexists. split; [reflexivity|]. rewrite <- app_assoc, firstn_skipn, <- Nat.add_assoc in H2. exact H2.
Qed.

Lemma acc_flush L k s AR AI c : acc L (k + s) AR AI c ->
  acc L k AR AI (mkcsr (cs_buf c) (cs_nn c) (cs_ni c) (cs_ipos c) (cs_ilen c) (cs_needed c) (cs_skipped c + s)).
Proof.
  intros (ns & is & junk & R & HL & Hns & Hss & Hsk & Hnd & Hfull).
  exists ns, is, junk. cbn [cs_buf cs_skipped cs_needed]. repeat split; auto; try (apply R); try lia; apply Hfull; auto.
Qed.

Lemma acc_append_imm L k AR AI c l : acc L k AR AI c ->
  exists c' s, append_imm c l = Some (c', s) /\ acc L k AR (AI ++ l) c'.
Proof.
  intro H. unfold append_imm. destruct (acc_imm_loop L AR (length l) k AI c l (le_n _) H) as (c' & s & -> & H').
  do 2 eexists. split; [reflexivity|]. apply acc_flush. exact H'.
Qed.

Lemma acc_append_nodes L k AI c l : length l <= 4 -> acc L k [] AI c ->
  exists c' s, append_nodes c l = Some (c', s) /\ acc L k l AI c'.
Proof.
  intros Hl H. unfold append_nodes. destruct l as [|x l].
  - simpl. exists (mkcsr (cs_buf c) (cs_nn c) (cs_ni c) (cs_ipos c) (cs_ilen c) (cs_needed c) (cs_skipped c + 0)), 0.
    split; [reflexivity|]. apply acc_flush. rewrite Nat.add_0_r. exact H.
  - cbn [length nodes_loop]. rewrite (firstn_all2 (n:=BLK) (x :: l)) by (unfold BLK; simpl in *; lia).
    rewrite (skipn_all2 (n:=BLK) (x :: l)) by (unfold BLK; simpl in *; lia).
    destruct (acc_put_nodes L k AI c (x :: l) Hl H) as (c1 & s1 & -> & H1).
    destruct (length l) as [|n]; cbn [nodes_loop]; rewrite Nat.add_0_r;
      (do 2 eexists; split; [reflexivity|]; apply acc_flush; exact H1).
Qed.

(* return values: they add up to the growth of m_skipped *)
Lemma put_nodes_skipped c l c' s : put_nodes c l = Some (c', s) -> cs_skipped c' = cs_skipped c.
Proof.
  unfold put_nodes. intro H. destruct (andb _ _); [|injection H as <- <-; reflexivity].
  destruct (save_memmove _ _ _ _); [|discriminate]. destruct (blit _ _ _); [|discriminate].
  destruct (bump _ _ _); [|discriminate]. injection H as <- <-. reflexivity.
Qed.
Lemma put_imm_skipped c l c' s : put_imm c l = Some (c', s) -> cs_skipped c' = cs_skipped c.
Proof.
  unfold put_imm. intro H. destruct (andb _ _); [|injection H as <- <-; reflexivity].
  destruct (blit _ _ _); [|discriminate].
  destruct (bump _ _ _); [|discriminate]. injection H as <- <-. reflexivity.
Qed.
Lemma nodes_loop_skipped f : forall c l c' s, nodes_loop f c l = Some (c', s) -> cs_skipped c' = cs_skipped c.
Proof.
  induction f as [|f IH]; intros c [|x l] c' s H; cbn [nodes_loop] in H; try discriminate; try (injection H as <- <-; reflexivity).
  destruct (put_nodes _ _) as [[c1 s1]|] eqn:E; [|discriminate]. destruct (nodes_loop _ _ _) as [[c2 s2]|] eqn:E2; [|discriminate].
  injection H as <- <-. apply IH in E2. apply put_nodes_skipped in E. congruence.
Qed.
Lemma imm_loop_skipped f : forall c l c' s, imm_loop f c l = Some (c', s) -> cs_skipped c' = cs_skipped c.
Proof.
  induction f as [|f IH]; intros c [|x l] c' s H; cbn [imm_loop] in H; try discriminate; try (injection H as <- <-; reflexivity).
  destruct (put_imm _ _) as [[c1 s1]|] eqn:E; [|discriminate]. destruct (imm_loop _ _ _) as [[c2 s2]|] eqn:E2; [|discriminate].
  injection H as <- <-. apply IH in E2. apply put_imm_skipped in E. congruence.
Qed.
Lemma append_nodes_ret c l c' s : append_nodes c l = Some (c', s) -> cs_skipped c' = cs_skipped c + s.
Proof.
  unfold append_nodes. intro H. destruct (nodes_loop _ _ _) as [[c1 s1]|] eqn:E; [|discriminate].
  simpl in H. injection H as <- <-. simpl. rewrite (nodes_loop_skipped _ _ _ _ _ E). reflexivity.
Qed.
Lemma append_imm_ret c l c' s : append_imm c l = Some (c', s) -> cs_skipped c' = cs_skipped c + s.
Proof.
  unfold append_imm. intro H. destruct (imm_loop _ _ _) as [[c1 s1]|] eqn:E; [|discriminate].
  simpl in H. injection H as <- <-. simpl. rewrite (imm_loop_skipped _ _ _ _ _ E). reflexivity.
Qed.
Lemma entries_ret l : forall c ns ims c' s, entries_loop c ns ims l = Some (c', s) -> cs_skipped c' = cs_skipped c + s.
Proof.
  induction l as [|e l IH]; intros c ns ims c' s H; cbn [entries_loop] in H.
  - destruct (append_nodes _ _) as [[c1 s1]|] eqn:E; [|discriminate].
    destruct (append_imm _ _) as [[c2 s2]|] eqn:E2; [|discriminate]. injection H as <- <-.
    apply append_nodes_ret in E. apply append_imm_ret in E2. lia.
  - destruct e as [id|a v|]; [| |eapply IH; exact H].
    + destruct (_ =? _); [|eapply IH; exact H].
      destruct (append_nodes _ _) as [[c1 s1]|] eqn:E; [|discriminate].
      destruct (entries_loop _ _ _ _) as [[c2 s2]|] eqn:E2; [|discriminate]. injection H as <- <-.
      apply append_nodes_ret in E. apply IH in E2. lia.
    + destruct (_ =? _); [|eapply IH; exact H].
      destruct (append_imm _ _) as [[c1 s1]|] eqn:E; [|discriminate].
      destruct (entries_loop _ _ _ _) as [[c2 s2]|] eqn:E2; [|discriminate]. injection H as <- <-.
      apply append_imm_ret in E. apply IH in E2. lia.
Qed.

Fixpoint refs_of (l : list sent) : list N :=
  match l with [] => [] | SRef i :: r => i :: refs_of r | _ :: r => refs_of r end.
Fixpoint imms_of (l : list sent) : list (N * cvar) :=
  match l with [] => [] | SImm a v :: r => (a, v) :: imms_of r | _ :: r => imms_of r end.

Lemma acc_entries L l : forall c AR AI ns ims,
  acc L 0 AR AI c -> length ns < 4 -> length ims < 4 ->
  (AR = [] /\ length ns + length (refs_of l) <= 4 \/ ns = [] /\ refs_of l = []) ->
  exists c' s, entries_loop c ns ims l = Some (c', s) /\ acc L 0 (AR ++ ns ++ refs_of l) (AI ++ ims ++ imms_of l) c'.
Proof.
  induction l as [|e l IH]; intros c AR AI ns ims H Hn Hi Hr; cbn [entries_loop refs_of imms_of].
  - rewrite !app_nil_r.
    assert (H1 : exists c1 s1, append_nodes c ns = Some (c1, s1) /\ acc L 0 (AR ++ ns) AI c1).
    { destruct Hr as [[-> Hr]|[-> _]].
      - apply (acc_append_nodes L 0 AI c ns); [lia|exact H].
      - unfold append_nodes. simpl. do 2 eexists. split; [reflexivity|]. rewrite app_nil_r. apply acc_flush. exact H. }
    destruct H1 as (c1 & s1 & -> & H1).
    destruct (acc_append_imm L 0 _ _ c1 ims H1) as (c2 & s2 & -> & H2).
    do 2 eexists. split; [reflexivity|exact H2].
  - destruct e as [id|a v|].
    + cbn [refs_of] in Hr. destruct Hr as [[-> Hr]|[_ Hr]]; [|discriminate]. cbn [length] in Hr.
      rewrite app_length. cbn [length].
      destruct (Nat.eqb_spec (length ns + 1) BLK) as [E|E].
      * assert (Hz : refs_of l = []) by (unfold BLK in E; destruct (refs_of l); [reflexivity|simpl in Hr; lia]).
        destruct (acc_append_nodes L 0 AI c (ns ++ [id])) as (c1 & s1 & -> & H1); [rewrite app_length; simpl; unfold BLK in E; lia|exact H|].
        destruct (IH c1 (ns ++ [id]) AI [] ims H1) as (c2 & s2 & -> & H2); [simpl; lia|exact Hi|right; auto|].
        do 2 eexists. split; [reflexivity|]. cbn [app] in *. rewrite <- app_assoc in H2. exact H2.
      * destruct (IH c [] AI (ns ++ [id]) ims H) as (c2 & s2 & -> & H2).
        { rewrite app_length; simpl; unfold BLK in E; lia. } { exact Hi. }
        { left. split; [reflexivity|]. rewrite app_length. simpl. lia. }
        do 2 eexists. split; [reflexivity|]. cbn [app] in *. rewrite <- app_assoc in H2. exact H2.
    + cbn [refs_of] in Hr. rewrite app_length. cbn [length].
      destruct (Nat.eqb_spec (length ims + 1) BLK) as [E|E].
      * destruct (acc_append_imm L 0 AR AI c (ims ++ [(a, v)]) H) as (c1 & s1 & -> & H1).
        destruct (IH c1 AR (AI ++ ims ++ [(a, v)]) ns [] H1 Hn) as (c2 & s2 & -> & H2); [simpl; lia|exact Hr|].
        do 2 eexists. split; [reflexivity|]. cbn [app] in *. rewrite <- !app_assoc in H2. exact H2.
      * destruct (IH c AR AI ns (ims ++ [(a, v)]) H Hn) as (c2 & s2 & -> & H2); [|exact Hr|].
        { rewrite app_length; simpl; unfold BLK in E; lia. }
        do 2 eexists. split; [reflexivity|]. rewrite <- !app_assoc in H2. exact H2.
    + apply IH; auto.
Qed.

Lemma csr_roundtrip L es : 2 <= L -> length (refs_of es) <= 4 -> Forall u64_ok (refs_of es) -> Forall imm_ok (imms_of es) ->
  exists c s ns is rest, append_entries (csr_new L) es = Some (c, s) /\
    csr_decode (cs_buf c) = Some (ns, is, rest) /\
    csr_size c + length rest = L /\
    (ns = refs_of es \/ ns = []) /\ subseq is (imms_of es) /\
    cs_skipped c = s /\ s + length ns + length is = length (refs_of es) + length (imms_of es) /\
    cs_needed c = 2 + length (enc_nodes (refs_of es)) + length (enc_imm (imms_of es)) /\
    (cs_needed c <= L -> length (imms_of es) < 128 -> ns = refs_of es /\ is = imms_of es).
Proof.
  intros HL H4 Hr Hi. unfold append_entries.
  destruct (acc_entries L es (csr_new L) [] [] [] [] (acc_new L HL)) as (c & s & E & A).
  { simpl; lia. } { simpl; lia. } { left. split; [reflexivity|simpl; lia]. }
  cbn [app] in A. destruct A as (ns & is & junk & R & Lb & Hns & Hss & Hsk & Hnd & Hfull).
  exists c, s, ns, is, junk. split; [exact E|].
  assert (Fn : Forall u64_ok ns) by (destruct Hns as [->| ->]; [exact Hr|constructor]).
  assert (Fi : Forall imm_ok is) by (eapply subseq_Forall; eauto).
  split; [eapply repr_decode; eauto|]. split.
  { rewrite (repr_size _ _ _ _ R). destruct R as (Eb & _). rewrite Eb in Lb. rewrite !app_length in *. simpl in *. lia. }
  rewrite Nat.add_0_r in Hsk. assert (Hret := entries_ret _ _ _ _ _ _ E). cbn [csr_new cs_skipped Nat.add] in Hret.
  rewrite <- Hret. auto 10.
Qed.

(* ---- SnapshotBuffer ---- *)
Definition holds_rec (c : csr) (r : list N * list (N * cvar)) : Prop :=
  exists junk, repr c (fst r) (snd r) junk /\ Forall u64_ok (fst r) /\ Forall imm_ok (snd r).

Fixpoint sb_appends (b : sbuf) (l : list csr) : option sbuf :=
  match l with [] => Some b | c :: r => match sb_append b c with None => None | Some b' => sb_appends b' r end end.

Definition enc_rec (r : list N * list (N * cvar)) : bytes :=
  [N.of_nat (length (fst r))] ++ enc_nodes (fst r) ++ [N.of_nat (length (snd r))] ++ enc_imm (snd r).

Lemma sb_append_ok b c r : holds_rec c r -> exists b', sb_append b c = Some b' /\
  sb_data b' = sb_data b ++ enc_rec r /\ sb_count b' = S (sb_count b).
Proof.
  intros (junk & R & _ & _). unfold sb_append. rewrite (repr_size _ _ _ _ R).
  destruct R as (E & _). unfold slice. rewrite E.
  assert (Hs : [N.of_nat (length (fst r))] ++ enc_nodes (fst r) ++ [N.of_nat (length (snd r))] ++ enc_imm (snd r) ++ junk = enc_rec r ++ junk)
    by (unfold enc_rec; rewrite <- !app_assoc; reflexivity).
  rewrite Hs. fold (enc_rec r). cbn [skipn]. rewrite firstn_app_exact, app_length.
  destruct (Nat.leb_spec (0 + length (enc_rec r)) (length (enc_rec r) + length junk)); [|lia].
  set (need := length (sb_data b) + length (enc_rec r)).
  destruct (Nat.leb_spec need (sb_reserved b)).
  - destruct (Nat.leb_spec need (sb_reserved b)); [|lia]. eexists. split; [reflexivity|]. auto.
  - destruct (Nat.leb_spec need (4096 + need * 2)); [|lia]. eexists. split; [reflexivity|]. auto.
Qed.

Lemma enc_rec_decode r rest : Forall u64_ok (fst r) -> Forall imm_ok (snd r) ->
  csr_decode (enc_rec r ++ rest) = Some (fst r, snd r, rest).
Proof.
  intros Hn Hi. unfold enc_rec, csr_decode. cbn [app]. rewrite <- !app_assoc, Nat2N.id, dec_enc_nodes by exact Hn.
  cbn [app]. rewrite Nat2N.id, dec_enc_imm by exact Hi. reflexivity.
Qed.

Lemma sb_roundtrip cs rs size : Forall2 holds_rec cs rs ->
  exists b, sb_appends (sb_new size) cs = Some b /\ sb_for_each b = Some rs /\ sb_count b = length rs.
Proof.
  intro F.
  assert (G : forall b, exists b', sb_appends b cs = Some b' /\ sb_data b' = sb_data b ++ flat_map enc_rec rs /\ sb_count b' = sb_count b + length rs).
  { induction F as [|c r cs rs Hcr F IH]; intro b; simpl.
    - exists b. rewrite app_nil_r, Nat.add_0_r. auto.
    - destruct (sb_append_ok b c r Hcr) as (b1 & -> & D & C). destruct (IH b1) as (b2 & E2 & D2 & C2).
      exists b2. split; [exact E2|]. rewrite D2, D, <- app_assoc. split; [reflexivity|]. lia. }
  destruct (G (sb_new size)) as (b & E & D & C). exists b. split; [exact E|]. split; [|exact C].
  unfold sb_for_each. rewrite C, D. cbn [sb_new sb_count sb_data app Nat.add]. clear E D C G b.
  induction F as [|c r cs rs Hcr F IH]; [reflexivity|]. cbn [length flat_map sb_loop].
  destruct Hcr as (j & _ & Hn & Hi).
  assert (Hd := enc_rec_decode r (flat_map enc_rec rs) Hn Hi).
  destruct (enc_rec r ++ flat_map enc_rec rs) eqn:X; [unfold enc_rec in X; discriminate|].
  rewrite Hd, IH. destruct r; reflexivity.
Qed.

(* entries that all fit in a record of length L *)
Definition rec_fits (L : nat) (es : list sent) : Prop :=
  length (refs_of es) <= 4 /\ Forall u64_ok (refs_of es) /\ Forall imm_ok (imms_of es) /\
  length (imms_of es) < 128 /\ 2 + length (enc_nodes (refs_of es)) + length (enc_imm (imms_of es)) <= L.

Lemma rec_fits_holds L es : rec_fits L es -> exists c, append_entries (csr_new L) es = Some (c, 0) /\
  holds_rec c (refs_of es, imms_of es).
Proof.
  intros (H4 & Hr & Hi & H128 & HL). unfold append_entries.
  destruct (acc_entries L es (csr_new L) [] [] [] []) as (c & s & E & A); [apply acc_new; lia|simpl; lia|simpl; lia|left; simpl; auto|].
  cbn [app] in A. assert (Hret := entries_ret _ _ _ _ _ _ E). cbn [csr_new cs_skipped Nat.add] in Hret.
  destruct A as (ns & is & junk & R & Lb & Hns & Hss & Hsk & Hnd & Hfull).
  destruct Hfull as [-> ->]; [lia|exact H128|]. exists c.
  assert (Hz : s = 0) by lia. rewrite Hz in E. split; [exact E|]. exists junk. auto.
Qed.

Fixpoint build_all (L : nat) (rs : list (list sent)) : option (list csr) :=
  match rs with
  | [] => Some []
  | es :: r => match append_entries (csr_new L) es, build_all L r with
               | Some (c, _), Some l => Some (c :: l)
               | _, _ => None
               end
  end.
Lemma sb_records L size rs : Forall (rec_fits L) rs ->
  exists cs b, build_all L rs = Some cs /\ sb_appends (sb_new size) cs = Some b /\
    sb_for_each b = Some (map (fun es => (refs_of es, imms_of es)) rs).
Proof.
  intro F. assert (G : exists cs, build_all L rs = Some cs /\ Forall2 holds_rec cs (map (fun es => (refs_of es, imms_of es)) rs)).
  { induction F as [|es rs H F (cs & E & IH)]; [exists []; split; [reflexivity|constructor]|].
    destruct (rec_fits_holds L es H) as (c & Ec & Hc). exists (c :: cs). simpl. rewrite Ec, E. split; [reflexivity|].
    constructor; assumption. }
  destruct G as (cs & E & F2). destruct (sb_roundtrip cs _ size F2) as (b & Eb & Hb & _).
  exists cs, b. auto.
Qed.
