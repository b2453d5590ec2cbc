(* C15, C16, C17: the context tree *)
From Verif Require Import Base VariantModel VariantSpec TreeModel TreeSpec TreeProofs TreeProofs2.

(* C15: a repeated request, by any thread, after any history in between, gives the same node *)
Theorem C15_same_request_same_node : forall s t a v p i s1 s2 t', reach false s -> op_ok s (TGetChild a v p) ->
  get_child s t a v p = Some (Some i, s1) -> steps false s1 s2 -> get_child s2 t' a v p = Some (Some i, s2).
Proof.
  intros s t a v p i s1 s2 t' Hr (Ha & Hp) E Hs. destruct (reach_inv _ _ Hr) as (Hi & U). specialize (U eq_refl).
  assert (Hp' : In (or_root p) (ids (t_nodes s))).
  { destruct p; cbn; [eapply ptr_ok_ids; eauto|apply root_in; auto]. }
  destruct (get_child_spec s t a v p Hi Hp' Ha) as (r & s1' & E' & Hi1 & He & U1 & Hc).
  rewrite E in E'. assert (Er : r = Some i) by congruence. assert (Es : s1' = s1) by congruence. subst r s1'.
  destruct (steps_inv _ _ _ Hs Hi1) as (Hi2 & He2 & U2). specialize (U2 eq_refl (U1 U)).
  unfold child_of in Hc. apply (ext_in _ _ _ He2) in Hc. unfold get_child.
  destruct (find_child s2 (or_root p) a v) as [n|] eqn:Ef.
  - apply find_child_spec in Ef. destruct Ef as (Hn & Pn & An & Vn).
    rewrite (U2 n (mkn i a v (Some (or_root p))) (or_root p)); auto.
  - exfalso. eapply find_child_none; eauto.
Qed.
Print Assumptions C15_same_request_same_node.

(* one id is only ever handed out for one (attribute, value, parent), with races, too *)
Theorem C15_different_requests_different_nodes : forall s t a v p i s1 s2 t' a' v' p' s3, reach true s ->
  op_ok s (TGetChild a v p) -> get_child s t a v p = Some (Some i, s1) -> steps true s1 s2 ->
  op_ok s2 (TGetChild a' v' p') -> get_child s2 t' a' v' p' = Some (Some i, s3) ->
  a = a' /\ v = v' /\ or_root p = or_root p'.
Proof.
  intros s t a v p i s1 s2 t' a' v' p' s3 Hr (Ha & Hp) E Hs (Ha2 & Hp2) E2. destruct (reach_inv _ _ Hr) as (Hi & _).
  assert (Hp' : In (or_root p) (ids (t_nodes s))) by (destruct p; cbn; [eapply ptr_ok_ids; eauto|apply root_in; auto]).
  destruct (get_child_spec s t a v p Hi Hp' Ha) as (r & s1' & E' & Hi1 & He & U1 & Hc).
  rewrite E in E'. assert (Er : r = Some i) by congruence. assert (Es : s1' = s1) by congruence. subst r s1'.
  destruct (steps_inv _ _ _ Hs Hi1) as (Hi2 & He2 & U2).
  assert (Hp2' : In (or_root p') (ids (t_nodes s2))) by (destruct p'; cbn; [eapply ptr_ok_ids; eauto|apply root_in; auto]).
  destruct (get_child_spec s2 t' a' v' p' Hi2 Hp2' Ha2) as (r & s3' & E3 & Hi3 & He3 & U3 & Hc3).
  rewrite E2 in E3. assert (Er : r = Some i) by congruence. assert (Es : s3' = s3) by congruence. subst r s3'.
  unfold child_of in *. apply (ext_in _ _ _ He2) in Hc. apply (ext_in _ _ _ He3) in Hc.
  pose proof (nodup_id_eq _ _ _ (wf_nodup _ (proj1 Hi3)) Hc Hc3 eq_refl) as X. injection X as -> -> X. auto.
Qed.
Print Assumptions C15_different_requests_different_nodes.

(* node contents never change, and looking a node up by its id finds it *)
Theorem C15_nodes_immutable : forall s s' i n, reach true s -> steps true s s' ->
  node_at s i = Some n -> node_at s' i = Some n.
Proof.
  intros s s' i n Hr Hs E. destruct (reach_inv _ _ Hr) as (Hi & _). destruct (steps_inv _ _ _ Hs Hi) as (Hi' & He & _).
  apply node_at_in in E. destruct E as (Hn & <-). apply in_node_at; [apply wf_nodup, Hi'|]. eapply ext_in; eauto.
Qed.
Print Assumptions C15_nodes_immutable.

Theorem C15_lookup_by_id : forall s n, reach true s -> In n (t_nodes s) -> n_id n <> ROOT ->
  node_lookup s (n_id n) = Some (Some n).
Proof. intros s n Hr. apply node_lookup_spec. apply (proj1 (reach_inv _ _ Hr)). Qed.
Print Assumptions C15_lookup_by_id.

Theorem C15_ids_unique : forall s, reach true s -> NoDup (map n_id (t_nodes s)).
Proof. intros s Hr. apply wf_nodup. apply (proj1 (reach_inv _ _ Hr)). Qed.
Print Assumptions C15_ids_unique.

(* without creation races a path identifies its node *)
Theorem C15_path_identifies_node : forall s i j l, reach false s -> has_path s i l -> has_path s j l -> i = j.
Proof. intros s i j l Hr. destruct (reach_inv _ _ Hr) as (Hi & U). apply path_inj; auto. Qed.
Print Assumptions C15_path_identifies_node.

(* every node has exactly one path *)
Theorem C15_path_unique : forall s i l l', reach true s -> has_path s i l -> has_path s i l' -> l = l'.
Proof.
  intros s i l l' Hr H H'. destruct (reach_inv _ _ Hr) as ((Hw & _) & _).
  rewrite (has_path_cpath _ _ _ Hw H), (has_path_cpath _ _ _ Hw H'). reflexivity.
Qed.
Print Assumptions C15_path_unique.

Definition ex0 : tree := match tree_init 256 16384 0 with Some s => s | None => mktree 0 0 0 (fun _ => None) (fun _ => None) [] end.
Lemma ex0_reach b : reach b ex0.
Proof. exists 256, 16384, 0, ex0. split; [repeat split; (reflexivity || discriminate)|]. split; [reflexivity|constructor]. Qed.

(* Finding: with two threads racing, the same request can yield two different nodes
   (search without a lock, MetadataTree.cpp:330-334) *)
Theorem C15_race_duplicate_refuted : exists s1 s2 i j, op_ok ex0 (TGetChild 8 (VStr [97]) None) /\
  tstep ex0 0 (TGetChild 8 (VStr [97]) None) = Some (Some i, s1) /\
  tstep s1 1 (TRawCreate 8 (VStr [97]) ROOT) = Some (Some j, s2) /\ i <> j /\
  has_path s2 i [(8, VStr [97])] /\ has_path s2 j [(8, VStr [97])].
Proof.
  eexists _, _, 12, 256. split; [split; [discriminate|intros ? E; discriminate]|].
  split; [vm_compute; reflexivity|]. split; [vm_compute; reflexivity|]. split; [discriminate|].
  split.
  - apply (hp_node _ (mkn 12 8 (VStr [97]) (Some ROOT)) ROOT []); [cbn; auto|reflexivity|constructor].
  - apply (hp_node _ (mkn 256 8 (VStr [97]) (Some ROOT)) ROOT []); [cbn; auto|reflexivity|constructor].
Qed.
Print Assumptions C15_race_duplicate_refuted.

(* C16: paths.  not_full s': the tree still has an unused node block afterwards; else the
   operation may return a null pointer (C17). *)
Theorem C16_get_child_path : forall s t a v p l r s', reach true s -> op_ok s (TGetChild a v p) -> has_path s (or_root p) l ->
  get_child s t a v p = Some (r, s') -> not_full s' -> exists i, r = Some i /\ has_path s' i (l ++ [(a, v)]).
Proof.
  intros s t a v p l r s' Hr (Ha & Hp) Hl E Hnf. destruct (reach_inv _ _ Hr) as (Hi & _).
  destruct (get_child_yields s t a v p l Hi (ptr_ok_ids _ _ Hp) Ha (fun _ => Hl)) as (r' & s1 & E' & _ & _ & _ & _ & Y).
  rewrite E in E'. assert (r' = r) by congruence. assert (s1 = s') by congruence. subst. auto.
Qed.
Print Assumptions C16_get_child_path.

Theorem C16_get_path_path : forall s t a vs p l r s', reach true s -> op_ok s (TGetPath a vs p) -> op_small s (TGetPath a vs p) ->
  has_path s (or_root p) l ->
  get_path s t a vs p = Some (r, s') -> not_full s' -> exists i, r = Some i /\ has_path s' i (l ++ map (fun v => (a, v)) vs).
Proof.
  intros s t a vs p l r s' Hr (Ha & Hp) Hsm Hl E Hnf. destruct (reach_inv _ _ Hr) as (Hi & _).
  destruct (get_path_yields s t a vs p l Hi (ptr_ok_ids _ _ Hp) Ha (fun _ => Hl) Hsm) as (r' & s1 & E' & _ & _ & _ & _ & Y).
  rewrite E in E'. assert (r' = r) by congruence. assert (s1 = s') by congruence. subst. auto.
Qed.
Print Assumptions C16_get_path_path.

(* a list of nodes: null entries are skipped *)
Theorem C16_get_path_nodes_path : forall s t nl p l r s', reach true s -> op_ok s (TGetPathNodes nl p) -> has_path s (or_root p) l ->
  tstep s t (TGetPathNodes nl p) = Some (r, s') -> not_full s' ->
  has_path s' (or_root r) (l ++ flat_map (fun x => match x with
       | Some i => match node_at s i with Some n => [(n_attr n, n_val n)] | None => [] end | None => [] end) nl).
Proof.
  intros s t nl p l r s' Hr (Hl & Hnr & Hp) Hpl E Hnf. destruct (reach_inv _ _ Hr) as (Hi & _). pose proof Hi as (Hw & _).
  destruct (get_path_nodes_yields (map (fun x => match x with Some i => node_at s i | None => None end) nl) s t p l Hi (ptr_ok_ids _ _ Hp))
      as (r' & s1 & E' & _ & _ & _ & _ & Y).
  { intros _. split; auto. intros ->. cbn in Hpl. rewrite (has_path_cpath _ _ _ Hw Hpl). apply cpath_root; auto. }
  { apply Forall_forall. intros x Hx n ->. apply in_map_iff in Hx. destruct Hx as (y & Ey & Hy).
    destruct y as [i|]; [|discriminate]. apply node_at_in in Ey. destruct Ey as (Hn & En).
    eapply wf_attr; eauto. rewrite Forall_forall in Hnr. intro Z. apply (Hnr _ Hy). congruence. }
  cbn [tstep] in E. rewrite E in E'. assert (r' = r) by congruence. assert (s1 = s') by congruence. subst.
  specialize (Y Hnf). rewrite flat_map_concat_map in Y |- *. rewrite map_map in Y.
  erewrite map_ext; [exact Y|]. intros [i|]; [destruct (node_at s i)|]; reflexivity.
Qed.
Print Assumptions C16_get_path_nodes_path.

Theorem C16_remove_innermost : forall s t p a l r s', reach true s -> op_ok s (TRemoveFirst p a) -> has_path s (or_root p) l ->
  remove_first_in_path s t p a = Some (r, s') -> not_full s' -> exists i, r = Some i /\ has_path s' i (rm_innermost a l).
Proof.
  intros s t p a l r s' Hr (Ha & Hp) Hl E Hnf. destruct (reach_inv _ _ Hr) as (Hi & _).
  destruct (remove_first_yields s t p a l Hi Ha (ptr_ok_ids _ _ Hp) Hl) as (r' & s1 & E' & _ & _ & _ & _ & Y).
  rewrite E in E'. assert (r' = r) by congruence. assert (s1 = s') by congruence. subst. auto.
Qed.
Print Assumptions C16_remove_innermost.

Theorem C16_replace_innermost : forall s t p a v l r s', reach true s -> op_ok s (TReplaceFirst p a v) -> has_path s (or_root p) l ->
  replace_first_in_path s t p a v = Some (r, s') -> not_full s' ->
  exists i, r = Some i /\ has_path s' i (rm_innermost a l ++ [(a, v)]).
Proof.
  intros s t p a v l r s' Hr (Ha & Hp) Hl E Hnf. destruct (reach_inv _ _ Hr) as (Hi & _).
  destruct (replace_first_yields s t p a v l Hi Ha (ptr_ok_ids _ _ Hp) Hl) as (r' & s1 & E' & _ & _ & _ & _ & Y).
  rewrite E in E'. assert (r' = r) by congruence. assert (s1 = s') by congruence. subst. auto.
Qed.
Print Assumptions C16_replace_innermost.

Theorem C16_replace_all : forall s t p a vs l r s', reach true s -> op_ok s (TReplaceAll p a vs) -> op_small s (TReplaceAll p a vs) ->
  has_path s (or_root p) l -> replace_all_in_path s t p a vs = Some (r, s') -> not_full s' ->
  exists i, r = Some i /\ has_path s' i (rm_all a l ++ map (fun v => (a, v)) vs).
Proof.
  intros s t p a vs l r s' Hr (Ha & Hp) Hsm Hl E Hnf. destruct (reach_inv _ _ Hr) as (Hi & _).
  destruct (replace_all_yields s t p a vs l Hi Ha (ptr_ok_ids _ _ Hp) Hl Hsm) as (r' & s1 & E' & _ & _ & _ & _ & Y).
  rewrite E in E'. assert (r' = r) by congruence. assert (s1 = s') by congruence. subst. auto.
Qed.
Print Assumptions C16_replace_all.

(* meaning of rm_innermost, independently: some last occurrence is cut out, or there is none *)
Theorem C16_rm_innermost_meaning : forall a l,
  (exists l1 v l2, l = l1 ++ (a, v) :: l2 /\ ~ In a (map fst l2) /\ rm_innermost a l = l1 ++ l2) \/
  (~ In a (map fst l) /\ rm_innermost a l = l).
Proof.
  intros a l. unfold rm_innermost.
  assert (G : forall k, (exists k1 v k2, k = k1 ++ (a, v) :: k2 /\ ~ In a (map fst k1) /\ rm_first a k = k1 ++ k2) \/
                        (~ In a (map fst k) /\ rm_first a k = k)).
  { induction k as [|[b w] k IH]; cbn; [right; auto|]. destruct (N.eqb_spec b a).
    - left. subst. exists [], w, k. auto.
    - destruct IH as [(k1 & v & k2 & -> & H1 & ->)|(H1 & ->)].
      + left. exists ((b, w) :: k1), v, k2. cbn. repeat split; auto. intuition.
      + right. cbn. intuition. }
  destruct (G (rev l)) as [(k1 & v & k2 & E & H1 & ->)|(H1 & ->)].
  - left. exists (rev k2), v, (rev k1). apply (f_equal (@rev _)) in E. rewrite rev_involutive, rev_app_distr in E. cbn in E.
    rewrite <- app_assoc in E. cbn in E. rewrite E, rev_app_distr. repeat split; auto. rewrite map_rev, <- in_rev. auto.
  - right. rewrite rev_involutive. split; auto. rewrite map_rev, <- in_rev in H1. auto.
Qed.
Print Assumptions C16_rm_innermost_meaning.

(* C17: no history writes outside of an allocated slot or twice into the same slot ... *)
Theorem C17_no_overrun : forall s t o, reach true s -> op_ok s o -> op_small s o -> exists r s', tstep s t o = Some (r, s').
Proof.
  intros s t o Hr Ho Hs. destruct (reach_inv _ _ Hr) as (Hi & _).
  destruct (tstep_inv s t o Hi Ho Hs) as (r & s1 & E & _). eauto.
Qed.
Print Assumptions C17_no_overrun.

(* ... every node lies in a slot of an allocated block below the configured maximum ... *)
Theorem C17_slots : forall s n, reach true s -> In n (t_nodes s) -> n_id n <> ROOT ->
  exists b i f, n_id n = b * t_npb s + i /\ t_fill s b = Some f /\ i < f <= t_npb s /\ b < t_nblk s.
Proof.
  intros s n Hr Hn Hne. destruct (reach_inv _ _ Hr) as ((_ & Hb) & _).
  destruct (bi_node _ Hb n Hn Hne) as (b & i & f & E1 & E2 & E3). destruct (bi_fill _ Hb _ _ E1) as (_ & Hbl & Hf).
  exists b, i, f. auto.
Qed.
Print Assumptions C17_slots.

(* ... no two threads fill the same block, and a request on an exhausted tree is answered
   with the existing node or a null pointer and changes nothing *)
Theorem C17_blocks_private : forall s t t' b, reach true s -> t_cur s t = Some b -> t_cur s t' = Some b -> t = t'.
Proof. intros s t t' b Hr. destruct (reach_inv _ _ Hr) as ((_ & Hb) & _). apply (bi_inj _ Hb). Qed.
Print Assumptions C17_blocks_private.

Theorem C17_exhausted_reports_failure : forall s t a v p, reach true s -> t_nblk s <= t_next s ->
  (forall b f, t_cur s t = Some b -> t_fill s b = Some f -> t_npb s <= f + 1) ->
  find_child s (or_root p) a v = None -> get_child s t a v p = Some (None, s).
Proof.
  intros s t a v p Hr Hf Hc E. unfold get_child. rewrite E. unfold create_child, have_free.
  assert (X : (match t_cur s t with None => true | Some b => match t_fill s b with Some i => t_npb s <=? i + 1 | None => true end end) = true).
  { destruct (t_cur s t) as [b|] eqn:E1; auto. destruct (t_fill s b) as [f|] eqn:E2; auto. apply N.leb_le. eauto. }
  rewrite X. destruct (N.leb_spec (t_nblk s) (t_next s)); [reflexivity|lia].
Qed.
Print Assumptions C17_exhausted_reports_failure.

(* Findings: a path request longer than a block overruns the block (have_free_nodeblock does
   not check the size of the new block, MetadataTree.cpp:96-125), and so does the bootstrap
   with CALI_CONTEXTTREE_NODES_PER_BLOCK below 12 (MetadataTree.cpp:33-63) *)
Theorem C17_long_path_refuted : exists vs, op_ok ex0 (TGetPath 8 vs None) /\ length vs = 257%nat /\
  tstep ex0 0 (TGetPath 8 vs None) = None.
Proof.
  exists (map (fun k => VUint (N.of_nat k)) (seq 0 257)). split; [split; [discriminate|intros ? E; discriminate]|].
  split; [rewrite map_length, seq_length; reflexivity|]. vm_compute. reflexivity.
Qed.
Print Assumptions C17_long_path_refuted.
Theorem C17_small_block_refuted : forall nblk t0, tree_init 11 nblk t0 = None.
Proof. reflexivity. Qed.
Print Assumptions C17_small_block_refuted.

(* non-vacuity: a reachable, non-full tree with a three-element path on which the
   operations of C16 produce the expected paths *)
Example C16_ex : exists s1 s2 s3 s4 i j k,
  tstep ex0 0 (TGetChild 20 (VStr [97]) None) = Some (Some i, s1) /\
  tstep s1 0 (TGetPath 21 [VInt 1; VInt 2] (Some i)) = Some (Some j, s2) /\
  tstep s2 1 (TRemoveFirst (Some j) 20) = Some (Some k, s3) /\
  tstep s3 0 (TReplaceAll (Some j) 21 [VInt 7]) = Some (Some 15, s4) /\
  (i, j, k) = (12, 14, 257) /\ not_full s4 /\ reach true s4 /\
  has_path s3 k [(21, VInt 1); (21, VInt 2)] /\ has_path s4 15 [(20, VStr [97]); (21, VInt 7)].
Proof.
  assert (P : forall s (x : option N), x = None \/ (exists i n, x = Some i /\ In n (t_nodes s) /\ n_id n = i) -> ptr_ok s x).
  { intros s x [->|(i & n & -> & Hn & Hi)] j E; [discriminate|]. injection E as <-. eauto. }
  eexists _, _, _, _, 12, 14, 257.
  assert (E1 : exists s1, tstep ex0 0 (TGetChild 20 (VStr [97]) None) = Some (Some 12, s1) /\ True) by (eexists; split; [vm_compute; reflexivity|exact I]).
  split; [vm_compute; reflexivity|]. split; [vm_compute; reflexivity|]. split; [vm_compute; reflexivity|].
  split; [vm_compute; reflexivity|]. split; [reflexivity|]. split; [vm_compute; reflexivity|]. split; [|split].
  - destruct (ex0_reach true) as (npb & nblk & t0 & s0 & Hc & Hinit & Hs). exists npb, nblk, t0, s0. split; [exact Hc|]. split; [exact Hinit|].
    assert (App : forall a b c, steps true a b -> steps true b c -> steps true a c).
    { intros x y z Hxy Hyz. induction Hxy; [exact Hyz|]. exact (st_step true s t o r s1 z H H0 H1 H2 (IHHxy Hyz)). }
    eapply App; [exact Hs|].
    eapply (st_step true _ 0 (TGetChild 20 (VStr [97]) None)).
    { split; [discriminate|]. apply P; auto. } { exact I. } { discriminate. } { vm_compute; reflexivity. }
    eapply (st_step true _ 0 (TGetPath 21 [VInt 1; VInt 2] (Some 12))).
    { split; [discriminate|]. apply P. right. eexists _, _. split; [reflexivity|]. split; [left; reflexivity|reflexivity]. }
    { vm_compute. discriminate. } { discriminate. } { vm_compute; reflexivity. }
    eapply (st_step true _ 1 (TRemoveFirst (Some 14) 20)).
    { split; [discriminate|]. apply P. right. eexists _, _. split; [reflexivity|]. split; [left; reflexivity|reflexivity]. }
    { exact I. } { discriminate. } { vm_compute; reflexivity. }
    eapply (st_step true _ 0 (TReplaceAll (Some 14) 21 [VInt 7])).
    { split; [discriminate|]. apply P. right. eexists _, _. split; [reflexivity|]. split; [right; right; left; reflexivity|reflexivity]. }
    { vm_compute. discriminate. } { discriminate. } { vm_compute; reflexivity. }
    constructor.
  - apply (hp_node _ (mkn 257 21 (VInt 2) (Some 256)) 256 [(21, VInt 1)]); [cbn; auto|reflexivity|].
    apply (hp_node _ (mkn 256 21 (VInt 1) (Some ROOT)) ROOT []); [cbn; auto|reflexivity|constructor].
  - apply (hp_node _ (mkn 15 21 (VInt 7) (Some 12)) 12 [(20, VStr [97])]); [cbn; auto|reflexivity|].
    apply (hp_node _ (mkn 12 20 (VStr [97]) (Some ROOT)) ROOT []); [cbn; auto 10|reflexivity|constructor].
Qed.
