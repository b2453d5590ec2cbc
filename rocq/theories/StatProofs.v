(* C86: counters and reuse table *)
From Verif Require Import Base MsgTraceModel MsgPatProofs StatModel StatSpec.
From Coq Require Import ZArith.
Open Scope Z_scope.

Lemma num_cons {A} (x : A) l : num (x :: l) = 1 + num l.
Proof. unfold num. cbn [length]. lia. Qed.
Lemma num_app {A} (l l' : list A) : num (l ++ l') = num l + num l'.
Proof. unfold num. rewrite app_length. lia. Qed.
Lemma num_nonneg {A} (l : list A) : 0 <= num l.
Proof. unfold num. lia. Qed.
Lemma total_app l l' : total (l ++ l') = total l + total l'.
Proof. induction l as [|x l IH]; cbn [app total fold_right]; [reflexivity|]. fold (total (l ++ l')) (total l). lia. Qed.
Lemma i32_id z : fit z -> i32 z = z.
Proof. unfold fit, i32. intro H. rewrite Z.mod_small by lia. lia. Qed.
Lemma i32_idem z : i32 (i32 z) = i32 z.
Proof. pose proof (i32_add_l z 0) as H. rewrite !Z.add_0_r in H. exact H. Qed.
Lemma i32_mul_r a b : i32 (a * i32 b) = i32 (a * b).
Proof. rewrite Z.mul_comm, i32_mul_l, Z.mul_comm. reflexivity. Qed.

(* one record *)
Lemma count_path {A} (p : list A) : forall z, i32 (fold_left (fun ra _ => i32 (ra + 1)) p z) = i32 (z + num p).
Proof.
  induction p as [|x p IH]; intro z; cbn [fold_left]; [unfold num; cbn [length]; f_equal; lia|]. rewrite IH, num_cons, i32_add_l. f_equal. lia.
Qed.
Lemma entries_ok es : forall a b c a' b' c', fold_left stat_entry es (a, b, c) = (a', b', c') ->
  i32 a' = i32 (a + num (imms es)) /\ i32 b' = i32 (b + num (refs es)) /\ i32 c' = i32 (c + total (map num (refs es))).
Proof.
  induction es as [|e es IH]; intros a b c a' b' c' H; cbn [fold_left] in H.
  - injection H as <- <- <-. unfold num. cbn. repeat split; f_equal; lia.
  - destruct e as [p| |]; cbn [stat_entry] in H; destruct (IH _ _ _ _ _ _ H) as (A & B & C); unfold imms, refs in *; cbn [filter flat_map app map total fold_right] in *; rewrite ?num_cons.
    + split; [exact A|]. split; [rewrite B, i32_add_l; f_equal; lia|]. rewrite C. fold (total (map num (flat_map (fun e => match e with Ref p => [p] | _ => [] end) es))). rewrite <- i32_add_l, count_path, i32_add_l. f_equal. lia.
    + split; [rewrite A, i32_add_l; f_equal; lia|]. split; assumption.
    + repeat split; assumption.
Qed.
Lemma elem_i a b imm ref : i32 imm = i32 a -> i32 ref = i32 b -> i32 (ref + i32 (2 * imm)) = i32 (b + 2 * a).
Proof.
  intros A B. rewrite i32_add_r, <- i32_add_l, B, i32_add_l, <- i32_add_r, <- i32_mul_r, A, i32_mul_r, i32_add_r. reflexivity.
Qed.

(* the counters modulo 2^32 *)
Record counts (l : list sitem) (s : sstat) : Prop := mkcounts {
  c_snaps : i32 (t_snaps s) = i32 (num (records_of l)); c_nodes : i32 (t_nodes s) = i32 (num (nodes_of l));
  c_max : t_max s = fold_left Z.max (map (fun es => i32 (elements es)) (records_of l)) 0;
  c_min : t_min s = fold_left Z.min (map (fun es => i32 (elements es)) (records_of l)) int_max;
  c_ref : i32 (t_ref s) = i32 (num (refs (entries l))); c_val : i32 (t_val s) = i32 (num (imms (entries l)));
  c_tot : i32 (t_tot s) = i32 (total (map elements (records_of l))); c_attr : i32 (t_attr s) = i32 (total (map attributes (records_of l)));
  c_snodes : i32 (t_snodes s) = i32 (total (map node_bytes (nodes_of l))); c_ssnaps : i32 (t_ssnaps s) = i32 (8 * num (refs (entries l))) }.
Lemma nodes_app l l' : nodes_of (l ++ l') = nodes_of l ++ nodes_of l'.
Proof. apply flat_map_app. Qed.
Lemma records_app l l' : records_of (l ++ l') = records_of l ++ records_of l'.
Proof. apply flat_map_app. Qed.
Lemma refs_app l l' : refs (l ++ l') = refs l ++ refs l'.
Proof. apply flat_map_app. Qed.
Lemma imms_app l l' : imms (l ++ l') = imms l ++ imms l'.
Proof. apply filter_app. Qed.
Lemma entries_app l l' : entries (l ++ l') = entries l ++ entries l'.
Proof. unfold entries. rewrite records_app, concat_app. reflexivity. Qed.
Lemma stat_fst l : forall st, fst (fold_left process l st) = fold_left (fun s i => fst (process (s, []) i)) l (fst st).
Proof. induction l as [|i l IH]; intro st; [reflexivity|]. cbn [fold_left]. rewrite IH. f_equal. destruct i; reflexivity. Qed.
Lemma reuse_snd l : forall st, snd (fold_left process l st) = fold_left (fun r i => snd (process (stat0, r) i)) l (snd st).
Proof. induction l as [|i l IH]; intro st; [reflexivity|]. cbn [fold_left]. rewrite IH. f_equal. destruct i; reflexivity. Qed.
Ltac wrap := rewrite <- ?i32_add_l, <- ?i32_add_r.
Lemma i32_plus a b a' b' : i32 a = i32 a' -> i32 b = i32 b' -> i32 (a + b) = i32 (a' + b').
Proof. intros A B. rewrite <- i32_add_l, <- i32_add_r, A, B, i32_add_l, i32_add_r. reflexivity. Qed.
Lemma counts_ok l : counts l (fst (cali_stat l)).
Proof.
  unfold cali_stat. rewrite stat_fst. cbn [fst]. induction l as [|i l IH] using rev_ind; [constructor; reflexivity|].
  rewrite fold_left_app. cbn [fold_left]. set (s := fold_left _ l stat0) in *. destruct IH. destruct i as [n|es]; cbn [process fst].
  - unfold stat_node. assert (R : records_of (l ++ [NodeRec n]) = records_of l) by (rewrite records_app; apply app_nil_r). assert (E : entries (l ++ [NodeRec n]) = entries l) by (unfold entries; rewrite R; reflexivity).
    assert (N : nodes_of (l ++ [NodeRec n]) = nodes_of l ++ [n]) by (rewrite nodes_app; reflexivity).
    constructor; cbn [t_snaps t_nodes t_max t_min t_ref t_val t_tot t_attr t_snodes t_ssnaps]; rewrite ?R, ?E, ?N; auto; rewrite i32_idem, ?map_app, ?num_app, ?total_app; apply i32_plus; auto.
    f_equal. cbn [map total fold_right]. unfold node_bytes. lia.
  - assert (R : records_of (l ++ [SnapRec es]) = records_of l ++ [es]) by (rewrite records_app; reflexivity). assert (E : entries (l ++ [SnapRec es]) = entries l ++ es) by (rewrite entries_app; unfold entries at 2; cbn; rewrite app_nil_r; reflexivity).
    assert (N : nodes_of (l ++ [SnapRec es]) = nodes_of l) by (rewrite nodes_app; apply app_nil_r).
    unfold stat_rec. destruct (fold_left stat_entry es (0, 0, 0)) as [[imm ref] ra] eqn:F. destruct (entries_ok _ _ _ _ _ _ _ F) as (A & B & C). rewrite Z.add_0_l in A, B, C.
    pose proof (elem_i _ _ _ _ A B) as D. fold (elements es) in D.
    constructor; cbn [t_snaps t_nodes t_max t_min t_ref t_val t_tot t_attr t_snodes t_ssnaps]; rewrite ?R, ?E, ?N, ?map_app, ?fold_left_app, ?refs_app, ?imms_app, ?num_app, ?total_app; auto; rewrite ?i32_idem.
    + apply i32_plus; auto.
    + cbn [map fold_left]. rewrite D. f_equal; assumption.
    + cbn [map fold_left]. rewrite D. f_equal; assumption.
    + apply i32_plus; auto.
    + apply i32_plus; auto.
    + apply i32_plus; auto. rewrite i32_idem, D. f_equal. cbn [map total fold_right]. lia.
    + apply i32_plus; auto. rewrite i32_idem. cbn [map total fold_right]. rewrite Z.add_0_r. unfold attributes. apply i32_plus; auto.
    + rewrite Z.mul_add_distr_l. apply i32_plus; auto. rewrite i32_idem, (Z.mul_comm 8), <- i32_mul_l, B, i32_mul_l. reflexivity.
Qed.
(* minimum and maximum *)
Lemma max_spec l : forall x, Forall (fun y => y <= fold_left Z.max l x) (x :: l) /\ In (fold_left Z.max l x) (x :: l).
Proof.
  induction l as [|y l IH]; intro x; cbn [fold_left]; [split; [repeat constructor; lia|left; reflexivity]|]. destruct (IH (Z.max x y)) as (A & B). apply Forall_cons_iff in A as (A & A'). split; [constructor; [lia|constructor; [lia|exact A']]|].
  destruct B as [B|B]; [|right; right; exact B]. rewrite <- B. destruct (Z.max_spec x y) as [(_ & ->)|(_ & ->)]; cbn; auto.
Qed.
Lemma min_spec l : forall x, Forall (fun y => fold_left Z.min l x <= y) (x :: l) /\ In (fold_left Z.min l x) (x :: l).
Proof.
  induction l as [|y l IH]; intro x; cbn [fold_left]; [split; [repeat constructor; lia|left; reflexivity]|]. destruct (IH (Z.min x y)) as (A & B). apply Forall_cons_iff in A as (A & A'). split; [constructor; [lia|constructor; [lia|exact A']]|].
  destruct B as [B|B]; [|right; right; exact B]. rewrite <- B. destruct (Z.min_spec x y) as [(_ & ->)|(_ & ->)]; cbn; auto.
Qed.
