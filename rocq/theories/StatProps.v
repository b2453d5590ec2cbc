(* C86: the statistics that cali-stat prints *)
From Verif Require Import Base MsgTraceModel MsgPatProofs StatModel StatSpec StatProofs StatProofs2.
From Coq Require Import ZArith.
Open Scope Z_scope.

Definition inrange (z : Z) : Prop := i32 z = z.
Lemma inrange_ok l : let s := fst (cali_stat l) in
  inrange (t_snaps s) /\ inrange (t_nodes s) /\ inrange (t_ref s) /\ inrange (t_val s) /\ inrange (t_tot s) /\ inrange (t_attr s) /\ inrange (t_snodes s) /\ inrange (t_ssnaps s).
Proof.
  cbv zeta. unfold cali_stat. rewrite stat_fst. cbn [fst]. induction l as [|i l IH] using rev_ind; [repeat split|]. rewrite fold_left_app. cbn [fold_left]. set (s := fold_left _ l stat0) in *. destruct IH as (A & B & C & D & E & F & G & H). unfold inrange in *. destruct i as [n|es]; cbn [process fst].
  - unfold stat_node. cbn [t_snaps t_nodes t_ref t_val t_tot t_attr t_snodes t_ssnaps]. rewrite !i32_idem. repeat split; assumption.
  - unfold stat_rec. destruct (fold_left stat_entry es (0, 0, 0)) as [[imm ref] ra]. cbn [t_snaps t_nodes t_ref t_val t_tot t_attr t_snodes t_ssnaps]. rewrite !i32_idem. repeat split; assumption.
Qed.
Lemma total_nonneg l : Forall (fun x => 0 <= x) l -> 0 <= total l.
Proof. induction 1 as [|x l H _ IH]; cbn [total fold_right]; [lia|]. fold (total l). lia. Qed.
Lemma total_in x l : Forall (fun x => 0 <= x) l -> In x l -> x <= total l.
Proof.
  induction 1 as [|y l H F IH]; intro I; [destruct I|]. cbn [total fold_right]. fold (total l). pose proof (total_nonneg l F). destruct I as [->|I]; [lia|]. specialize (IH I). lia.
Qed.
Lemma elements_nonneg es : 0 <= elements es.
Proof. unfold elements. pose proof (num_nonneg (refs es)). pose proof (num_nonneg (imms es)). lia. Qed.
Lemma elements_total l : total (map elements (records_of l)) = num (refs (entries l)) + 2 * num (imms (entries l)).
Proof.
  unfold entries. induction (records_of l) as [|es r IH]; [reflexivity|]. cbn [map total fold_right concat]. fold (total (map elements r)). rewrite refs_app, imms_app, !num_app, IH. unfold elements. lia.
Qed.

(* For every sequence of nodes and snapshot records, in every order, whose totals fit into int: the numbers that
   cali-stat prints are those of the sequence *)
Theorem C86_counts : forall l, fits_int l -> sizes_ok l -> exists mn mx,
  results (fst (cali_stat l)) = expected l mn mx /\
  (records_of l <> [] -> least mn (map elements (records_of l)) /\ greatest mx (map elements (records_of l))).
Proof.
  intros l (F1 & F2 & F3 & F4) S. exists (t_min (fst (cali_stat l))), (t_max (fst (cali_stat l))).
  destruct (counts_ok l) as [A B C D E F G H I J]. destruct (inrange_ok l) as (A' & B' & E' & F' & G' & H' & I' & J'). set (s := fst (cali_stat l)) in *. unfold inrange in *. rewrite elements_total in *.
  pose proof (num_nonneg (records_of l)). pose proof (num_nonneg (nodes_of l)). pose proof (num_nonneg (refs (entries l))). pose proof (num_nonneg (imms (entries l))).
  assert (Bn : 0 <= total (map node_bytes (nodes_of l))).
  { apply total_nonneg. rewrite Forall_map. eapply Forall_impl; [|exact S]. intros n Hn. cbv beta in Hn |- *. unfold node_bytes. destruct (sn_str n); lia. }
  unfold fit in *.
  rewrite A' in A. rewrite B' in B. rewrite E' in E. rewrite F' in F. rewrite G' in G. rewrite H' in H. rewrite I' in I. rewrite J' in J.
  rewrite (i32_id (num (records_of l))) in A by (unfold fit; lia). rewrite (i32_id (num (nodes_of l))) in B by (unfold fit; lia). rewrite i32_id in E by (unfold fit; lia). rewrite i32_id in F by (unfold fit; lia).
  rewrite i32_id in G by (unfold fit; lia). rewrite i32_id in H by (unfold fit; lia). rewrite i32_id in I by (unfold fit; lia). rewrite i32_id in J by (unfold fit; lia).
  split.
  - unfold results, expected. rewrite A, B, E, F, G, H, I, J. rewrite !(i32_id (4 * num (nodes_of l))) by (unfold fit; lia). rewrite !i32_id by (unfold fit; lia). f_equal; lia.
  - intro R. assert (Em : map (fun es => i32 (elements es)) (records_of l) = map elements (records_of l)).
    { apply map_ext_in. intros es Hes. apply i32_id. unfold fit. split; [apply elements_nonneg|]. assert (X : elements es <= total (map elements (records_of l))) by (apply total_in; [apply Forall_map, Forall_forall; intros; apply elements_nonneg|apply in_map; exact Hes]). rewrite elements_total in X. lia. }
    rewrite Em in C, D. set (es := map elements (records_of l)) in *.
    assert (Bd : Forall (fun x => 0 <= x <= int_max) es).
    { apply Forall_forall. intros x Hx. unfold int_max. assert (P : Forall (fun x => 0 <= x) es) by (apply Forall_map, Forall_forall; intros; apply elements_nonneg). split; [rewrite Forall_forall in P; apply P; exact Hx|]. pose proof (total_in x es P Hx) as X. unfold es in X. rewrite elements_total in X. lia. }
    assert (Ne : exists x r, es = x :: r) by (unfold es; destruct (records_of l) as [|y r]; [congruence|]; eexists; eexists; reflexivity). destruct Ne as (x0 & r0 & Ne).
    destruct (min_spec es int_max) as (M1 & M2), (max_spec es 0) as (N1 & N2). rewrite <- D in M1, M2. rewrite <- C in N1, N2. apply Forall_cons_iff in M1 as (M0 & M1). apply Forall_cons_iff in N1 as (N0 & N1).
    split; (split; [|assumption]).
    + destruct M2 as [M2|M2]; [|exact M2]. rewrite <- M2 in *. rewrite Ne in *. apply Forall_cons_iff in M1 as (M1 & _). apply Forall_cons_iff in Bd as (Bd & _). left. lia.
    + destruct N2 as [N2|N2]; [|exact N2]. rewrite <- N2 in *. rewrite Ne in *. apply Forall_cons_iff in N1 as (N1 & _). apply Forall_cons_iff in Bd as (Bd & _). left. lia.
Qed.
Lemma uses_sum u : forall z, fold_left (fun s (p : text * Z) => s + snd p) u z = z + total (map snd u).
Proof. induction u as [|[t k] u IH]; intro z; cbn [fold_left map total fold_right snd]; [lia|]. rewrite IH. fold (total (map snd u)). lia. Qed.

(* Reuse statistics, for every sequence whose records refer to nodes read before: an attribute has a line exactly if
   a node record has it, with the number of its node records, the number of its different data texts and the number
   of their occurrences in node records and in the references of snapshot records; and each text's own count *)
Theorem C86_reuse : forall l a, closed [] l -> num (defined l) + num (all_used l) <= 2147483647 ->
  match rfind a (snd (cali_stat l)) with
  | None => of_attr a (defined l) = []
  | Some i => of_attr a (defined l) <> [] /\
      (exists ts, NoDup ts /\ (forall t, In t ts <-> In (a, t) (defined l)) /\
         reuse_line i = (num (of_attr a (defined l)), num ts, num (of_attr a (defined l)) + num (of_attr a (all_used l)))) /\
      (forall t c, In (t, c) (snd i) -> c = times (a, t) (defined l) + times (a, t) (all_used l))
  end.
Proof.
  intros l a C M. unfold cali_stat. rewrite reuse_snd. cbn [snd].
  assert (I0 : rinv [] [] []) by (split; [intros x []|reflexivity]).
  destruct (all_steps l [] [] [] [] I0 eq_refl C (fun x H => H) M) as (_ & G). cbn [app] in G. specialize (G a).
  destruct (rfind a (fold_left (fun r i => snd (process (stat0, r) i)) l [])) as [[k u]|]; [|exact G]. destruct G as (A & B & N & D & E & F). split; [|split].
  - intro X. rewrite X in A. unfold num in A. cbn [length] in A. lia.
  - exists (map fst u). split; [exact N|]. split; [exact D|]. unfold reuse_line. cbn [fst snd]. rewrite uses_sum, Z.add_0_l. unfold usum in F. rewrite F, A. unfold num. rewrite map_length. reflexivity.
  - exact E.
Qed.

(* a concrete case: three attributes, four nodes, two records *)
Open Scope N_scope.
Definition c_nodes : list sitem := [NodeRec (mksn 8 [109] true 1); NodeRec (mksn 8 [102] true 300); NodeRec (mksn 9 [49] false 4); NodeRec (mksn 8 [102] true 300)].
Definition c_recs : list sitem := [SnapRec [Ref [(8, [102]); (8, [109])]; Imm; Imm; Empty]; SnapRec [Ref [(8, [109])]; Ref [(9, [49]); (8, [102])]; Imm]; SnapRec []].
Open Scope Z_scope.
Theorem C86_ex : fits_int (c_nodes ++ c_recs) /\ sizes_ok (c_nodes ++ c_recs) /\ closed [] (c_nodes ++ c_recs) /\
  results (fst (cali_stat (c_nodes ++ c_recs))) = mkrep 7 4 3 25 16 3 6 729 705 24 0 5 8 /\
  map (fun p => (fst p, reuse_line (snd p))) (snd (cali_stat (c_nodes ++ c_recs))) = [(9%N, (1, 1, 2)); (8%N, (3, 2, 7))].
Proof.
  split; [unfold fits_int, fit; vm_compute; repeat split; discriminate|]. split; [unfold sizes_ok; cbn; repeat constructor; cbn; lia|]. split.
  - cbn [c_nodes c_recs app closed]. repeat split; try (intro X; discriminate X); intros x H; vm_compute in H |- *; tauto.
  - split; vm_compute; reflexivity.
Qed.

(* ---------- where it fails ---------- *)
(* the estimated size of the snapshot records has nothing for immediate values: without references it is 0 *)
Theorem C86_size_refuted : forall n, let l := repeat (SnapRec (repeat Imm n)) n in
  b_snaps (results (fst (cali_stat l))) = 0 /\ num (imms (entries l)) = Z.of_nat n * Z.of_nat n.
Proof.
  intros n l.
  assert (R : records_of l = repeat (repeat Imm n) n) by (unfold l; clear; generalize (repeat Imm n) as es; intro es; induction n as [|n IH]; [reflexivity|]; cbn [repeat records_of flat_map app]; f_equal; exact IH).
  assert (E0 : forall k, refs (repeat Imm k) = []) by (induction k as [|k IH]; [reflexivity|exact IH]).
  assert (E1 : forall k, imms (repeat Imm k) = repeat Imm k) by (induction k as [|k IH]; [reflexivity|]; cbn [repeat]; change (imms (Imm :: repeat Imm k)) with (Imm :: imms (repeat Imm k)); f_equal; exact IH).
  assert (En : entries l = repeat Imm (n * n)).
  { unfold entries. rewrite R. assert (G : forall k m, concat (repeat (repeat Imm m) k) = repeat Imm (k * m)) by (induction k as [|k IH]; intro m; [reflexivity|]; cbn [repeat concat Nat.mul]; rewrite IH, <- repeat_app; reflexivity). apply G. }
  split.
  - destruct (counts_ok l) as [_ _ _ _ _ _ _ _ _ J]. destruct (inrange_ok l) as (_ & _ & _ & _ & _ & _ & _ & J'). unfold results. cbn [b_snaps]. unfold inrange in J'. rewrite <- J', J, En, E0. reflexivity.
  - rewrite En, E1. unfold num. rewrite repeat_length. lia.
Qed.
(* sizes of 2 GiB and more *)
Theorem C86_large_refuted : let l := [NodeRec (mksn 8 [] true 2147483647)] in sizes_ok l /\ b_nodes (results (fst (cali_stat l))) = -2147483625 /\ total (map node_bytes (nodes_of l)) = 2147483671.
Proof. split; [|split]; [repeat constructor; cbn; lia|vm_compute; reflexivity|reflexivity]. Qed.
