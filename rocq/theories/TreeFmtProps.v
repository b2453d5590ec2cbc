(* C54: the tree format.  For any list of records the printed tree contains every region path of the
   records exactly once, below its parent, with the values of all records for it, aligned and sorted. *)
From Coq Require Import Permutation Sorted.
From Verif Require Import Base VariantModel VariantSpec FilterSpec FilterProofs NamesModel TextModel TreeModel CaliFileModel AggModel FilterModel FmtModel FmtProofs FmtProps TreeFmtModel TreeFmtProofs TreeFmtProofs2.

Definition label_dec (a b : label) : {a = b} + {a <> b}.
Proof. decide equality; [apply value_eq_dec|apply N.eq_dec]. Defined.
Definition same_path (p p' : list label) : bool := if list_eq_dec label_dec p p' then true else false.
Lemma same_path_iff p p' : same_path p p' = true <-> p = p'.
Proof. unfold same_path. destruct (list_eq_dec label_dec p p'); split; intros; congruence. Qed.

Section P.
Variable vtext : value -> bytes.
Variable d : mdb.
Variable q : trspec.
(* a record's region path, outermost first, and its other values *)
Notation path := (rec_path d (is_path_attr d q)).
Notation data := (rec_data d (is_path_attr d q)).
Definition run (recs : list (list entry)) : trstate := fold_left (tr_process vtext d q) recs tr_init.
Definition forest (recs : list (list entry)) : list snode := ts_forest (run recs).
(* what is printed for each line group: the path and the node with that path *)
Definition listing (recs : list (list entry)) : list (list label * snode) := porder (forest_depth (forest recs)) [] (sort_info d q) (forest recs).

Lemma run_snoc recs rec : run (recs ++ [rec]) = tr_process vtext d q (run recs) rec.
Proof. unfold run. rewrite fold_left_app. reflexivity. Qed.
Lemma forest_snoc recs rec : forest (recs ++ [rec]) = tadd (path rec) (data rec) (forest recs).
Proof. unfold forest. rewrite run_snoc. unfold tr_process. destruct (path rec) as [|x p]; reflexivity. Qed.
Lemma forest_uniq recs : uniq (forest recs).
Proof. induction recs as [|rec recs IH] using rev_ind; [split; constructor|]. rewrite forest_snoc. apply tadd_uniq. auto. Qed.
Definition occurs (recs : list (list entry)) (p : list label) : Prop := exists rec t, In rec recs /\ path rec = p ++ t.
Definition at_path (recs : list (list entry)) (p : list label) : list (list entry) := filter (fun rec => same_path (path rec) p) recs.
Lemma prefix_dec (p p' : list label) : {prefix p p'} + {~ prefix p p'}.
Proof.
  revert p'. induction p as [|x p IH]; intro p'; [left; apply prefix_nil|]. destruct p' as [|y p']; [right; intros (t & E); discriminate|]. destruct (label_dec x y) as [<-|Hn]; [|right; rewrite prefix_cons; tauto].
  destruct (IH p'); [left|right]; rewrite prefix_cons; tauto.
Qed.
Lemma forest_recs recs p : p <> [] -> (recs_at p (forest recs) = None /\ ~ occurs recs p) \/ (recs_at p (forest recs) = Some (map data (at_path recs p)) /\ occurs recs p).
Proof.
  intro Hp. induction recs as [|rec recs IH] using rev_ind; [left; split; [destruct p; [congruence|reflexivity]|intros (rec & t & [] & _)]|]. rewrite forest_snoc.
  assert (Oc : occurs (recs ++ [rec]) p <-> occurs recs p \/ prefix p (path rec)).
  { split; [intros (r & t & Hr & E); apply in_app_or in Hr; destruct Hr as [Hr|[<-|[]]]; [left; exists r, t; auto|right; exists t; auto]|]. intros [(r & t & Hr & E)|(t & E)]; [exists r, t|exists rec, t]; split; auto; apply in_or_app; [|right; left]; auto. }
  unfold at_path in *. rewrite filter_app, map_app. cbn [filter].
  destruct (list_eq_dec label_dec p (path rec)) as [E|E].
  - right. split; [|apply Oc; right; exists []; rewrite app_nil_r; auto]. rewrite E in *. rewrite (proj2 (same_path_iff _ _) eq_refl). rewrite tadd_same by auto. cbn [map]. destruct IH as [(I1 & I2)|(I1 & _)]; rewrite I1; cbn [dflt]; auto.
    assert (X : filter (fun r => same_path (path r) (path rec)) recs = []).
    { clear - I2. induction recs as [|r recs IH]; auto. cbn [filter]. destruct (same_path (path r) (path rec)) eqn:E; [|apply IH; intros (r' & t & Hr & K); apply I2; exists r', t; split; [right|]; auto]. exfalso. apply I2. exists r, []. rewrite app_nil_r. split; [left; auto|]. apply same_path_iff. auto. }
    rewrite X. reflexivity.
  - assert (Es : same_path (path rec) p = false) by (destruct (same_path (path rec) p) eqn:K; auto; apply same_path_iff in K; congruence). rewrite Es. cbn [map]. rewrite app_nil_r. destruct (tadd_other (path rec) (data rec) (forest recs) p E Hp) as (T1 & T2).
    destruct (prefix_dec p (path rec)) as [K|K].
    + right. split; [|apply Oc; auto]. rewrite (T1 K). destruct IH as [(I1 & I2)|(I1 & _)]; rewrite I1; cbn [dflt]; auto. f_equal. symmetry.
      assert (X : filter (fun r => same_path (path r) p) recs = []).
      { clear - I2. induction recs as [|r recs IH]; auto. cbn [filter]. destruct (same_path (path r) p) eqn:E; [|apply IH; intros (r' & t & Hr & K); apply I2; exists r', t; split; [right|]; auto]. exfalso. apply I2. exists r, []. rewrite app_nil_r. split; [left; auto|]. apply same_path_iff. auto. }
      rewrite X. reflexivity.
    + rewrite (T2 K). destruct IH as [(I1 & I2)|(I1 & I2)]; [left|right]; split; auto; rewrite Oc; tauto.
Qed.
Lemma node_recs p f n : node_at p f = Some n -> recs_at p f = Some (sn_recs n). Proof. intro H. unfold recs_at. rewrite H. reflexivity. Qed.
Lemma listing_node recs p n : In (p, n) (listing recs) -> exists n0, p <> [] /\ node_at p (forest recs) = Some n0 /\ eqv n0 n.
Proof. intro H. destruct (porder_sound _ _ _ _ _ _ H (forest_uniq recs)) as (p0 & n0 & -> & Hp & Hn & He). exists n0. auto. Qed.
Lemma porder_lab : forall fuel pre si f p n, In (p, n) (porder fuel pre si f) -> exists p0, p = p0 ++ [sn_lab n].
Proof. induction fuel as [|fu IH]; intros pre si f p n H; [destruct H|]. cbn [porder] in H. apply in_flat_map in H. destruct H as (m & _ & [H|H]); [injection H as <- <-; exists pre; auto|eauto]. Qed.

(* Every non-empty prefix of a record's path is listed exactly once, nothing else is; the entry for a path
   is labelled with its last element and has the values of exactly the records with that path. *)
Theorem C54_tree recs :
  NoDup (map fst (listing recs)) /\
  (forall p, In p (map fst (listing recs)) <-> p <> [] /\ exists rec t, In rec recs /\ path rec = p ++ t) /\
  (forall p n, In (p, n) (listing recs) -> (exists p0, p = p0 ++ [sn_lab n]) /\ Permutation (sn_recs n) (map data (filter (fun rec => same_path (path rec) p) recs))).
Proof.
  split; [apply porder_nodup; apply forest_uniq|]. split.
  - intro p. split.
    + intro H. apply in_map_iff in H. destruct H as ((p', n) & <- & H). destruct (listing_node _ _ _ H) as (n0 & Hp & Hn & _). cbn [fst]. split; auto. apply node_recs in Hn. destruct (forest_recs recs p' Hp) as [(K & _)|(_ & K)]; [congruence|exact K].
    + intros (Hp & Ho). destruct (forest_recs recs p Hp) as [(_ & K)|(K & _)]; [contradiction|]. unfold recs_at in K. destruct (node_at p (forest recs)) as [n|] eqn:E; [|discriminate].
      destruct (porder_complete p (forest_depth (forest recs)) [] (sort_info d q) (forest recs) n E ltac:(lia)) as (n' & H & _). apply (in_map fst) in H. exact H.
  - intros p n H. split; [eapply porder_lab; exact H|]. destruct (listing_node _ _ _ H) as (n0 & Hp & Hn & (_ & _ & He)). apply node_recs in Hn. destruct (forest_recs recs p Hp) as [(K & _)|(K & _)]; [congruence|]. rewrite Hn in K. injection K as K. apply Permutation_sym. unfold at_path in K. rewrite <- K. exact He.
Qed.
(* The output is the header and then, in the order of the listing, the lines of each entry, indented by
   its depth; *)
Theorem C54_lines recs : let s := run recs in let attrs := col_attrs d q (ts_info s) in let pw := tcolumn_width q (path_width vtext (forest recs)) in
  tr_flush vtext d q s = tr_header q (ts_info s) attrs pw :: flat_map (fun x => node_lines vtext d q (ts_info s) attrs pw (length (fst x) - 1) (snd x)) (listing recs).
Proof. cbv zeta. unfold tr_flush, listing. fold (forest recs). rewrite (print_porder _ 0 [] _ _ eq_refl). f_equal. rewrite flat_map_concat_map, map_map, <- flat_map_concat_map. reflexivity. Qed.
(* so the nearest line above an entry that is indented less is its parent. *)
Theorem C54_indentation recs before p n after : listing recs = before ++ (p, n) :: after ->
  exists p0 x, p = p0 ++ [x] /\ (p0 = [] \/ exists b1 m b2, before = b1 ++ (p0, m) :: b2 /\ Forall (fun y => (length p0 < length (fst y))%nat) b2).
Proof. apply porder_parent. Qed.

(* ---------------- sorting ---------------- *)
(* the values of a in the records, comparable with each other *)
Definition values_ok (a : N) (recs : list (list entry)) : Prop :=
  forall r1 r2 v1 v2, In r1 recs -> In r2 recs -> rfind a (data r1) = Some v1 -> rfind a (data r2) = Some v2 ->
  in_range v1 /\ not_nan v1 /\ cmp_exact v1 v2 /\ nonempty v1 = true.
Definition Vof (a : N) (recs : list (list entry)) (v : value) : Prop := exists rec, In rec recs /\ rfind a (data rec) = Some v.
Lemma Vof_ok a recs : values_ok a recs -> forall v w, Vof a recs v -> Vof a recs w -> in_range v /\ not_nan v /\ cmp_exact v w /\ nonempty v = true.
Proof. intros H v w (r1 & H1 & E1) (r2 & H2 & E2). exact (H r1 r2 v w H1 H2 E1 E2). Qed.
Lemma at_in recs p r : In r (map data (at_path recs p)) -> exists rec, In rec recs /\ path rec = p /\ data rec = r.
Proof. intro H. apply in_map_iff in H. destruct H as (rec & E & H). apply filter_In in H. destruct H as (H & K). apply same_path_iff in K. exists rec. auto. Qed.
Lemma sval_recs a recs p n v : p <> [] -> node_at p (forest recs) = Some n -> (sval a n v <-> exists rec t, In rec recs /\ path rec = p ++ t /\ rfind a (data rec) = Some v).
Proof.
  intros Hp Hn. split.
  - intro H. destruct (sval_paths a n v H (forest recs) p (forest_uniq recs) Hn) as (t & l & r & H1 & H2 & H3). assert (Hpt : p ++ t <> []) by (destruct p; [congruence|discriminate]). destruct (forest_recs recs (p ++ t) Hpt) as [(K & _)|(K & _)]; [congruence|]. rewrite H1 in K. injection K as K. rewrite K in H2. apply at_in in H2. destruct H2 as (rec & R1 & R2 & R3). exists rec, t. rewrite R3. auto.
  - intros (rec & t & R1 & R2 & R3). assert (Hpt : p ++ t <> []) by (destruct p; [congruence|discriminate]). destruct (forest_recs recs (p ++ t) Hpt) as [(_ & K)|(K & _)]; [exfalso; apply K; exists rec, []; rewrite app_nil_r; auto|].
    eapply (paths_sval a v t p (forest recs) n _ (data rec) Hn K); auto. apply in_map. apply filter_In. split; auto. apply same_path_iff. auto.
Qed.
Lemma forest_sval a recs n v : In n (forest recs) -> sval a n v -> Vof a recs v.
Proof.
  intros Hn Hv. assert (E : node_at [sn_lab n] (forest recs) = Some n) by (rewrite node_at_cons, (fnd_in (forest recs) n (forest_uniq recs) Hn); reflexivity). apply (sval_recs a recs [sn_lab n] n v ltac:(discriminate) E) in Hv. destruct Hv as (rec & t & R1 & _ & R3). exists rec. auto.
Qed.
Lemma listing_sval a recs p n v : In (p, n) (listing recs) -> (sval a n v <-> exists rec t, In rec recs /\ path rec = p ++ t /\ rfind a (data rec) = Some v).
Proof. intro H. destruct (listing_node _ _ _ H) as (n0 & Hp & Hn & He). rewrite <- (sval_recs a recs p n0 v Hp Hn). split; apply sval_eqv; auto. apply eqv_sym. auto. Qed.
Lemma SS_split {A} (R : A -> A -> Prop) : forall l1 x l2 y l3, StronglySorted R (l1 ++ x :: l2 ++ y :: l3) -> R x y.
Proof.
  induction l1 as [|z l1 IH]; intros x l2 y l3 H; cbn [app] in H; inversion H as [|? ? H1 H2]; subst; [|eapply IH; eauto]. rewrite Forall_forall in H2. apply H2. apply in_or_app. right. left. auto.
Qed.
(* ORDER BY ..., a DESC: of two siblings the first one printed has, in its subtree, the greater maximum *)
Theorem C54_sorted_desc recs a si before p x n after y m rest : sort_info d q = si ++ [(a, SDesc)] -> values_ok a recs ->
  listing recs = before ++ (p ++ [x], n) :: after ++ (p ++ [y], m) :: rest ->
  forall rec2 t2 v2, In rec2 recs -> path rec2 = p ++ [y] ++ t2 -> rfind a (data rec2) = Some v2 ->
  exists rec1 t1 v1, In rec1 recs /\ path rec1 = p ++ [x] ++ t1 /\ rfind a (data rec1) = Some v1 /\ vorder v1 v2 <> Lt.
Proof.
  intros Es Hv El rec2 t2 v2 R1 R2 R3. set (V := Vof a recs). pose proof (Vof_ok a recs Hv) as HV. fold V in HV.
  assert (In1 : In (p ++ [x], n) (listing recs)) by (rewrite El; apply in_or_app; right; left; auto).
  assert (In2 : In (p ++ [y], m) (listing recs)) by (rewrite El; apply in_or_app; right; right; apply in_or_app; right; left; auto).
  set (Q := fun n => forall v, sval a n v -> V v).
  assert (Qi : forall z k, In (z, k) (listing recs) -> Q k). { intros z k Hk v Hs. apply (listing_sval a recs z k v Hk) in Hs. destruct Hs as (r & t & S1 & _ & S3). exists r. auto. }
  assert (SS : StronglySorted (sibl (fun a1 b1 => ge (max_val a a1) (max_val a b1))) (listing recs)).
  { unfold listing. apply (porder_sorted Q).
    - intros k Hk. apply Forall_forall. intros c Hc v Hs. apply Hk. eapply sv_kid; eauto.
    - intros k c E Hk v Hs. apply Hk. eapply sval_eqv; [apply eqv_sym; exact E|auto].
    - intros l Hl. rewrite Es, sorted_last. cbv zeta. set (ns := map (sort_node a (is_asc SDesc)) (sorted_nodes si l)).
      assert (Qn : Forall Q ns). { apply Forall_forall. intros k Hk. unfold ns in Hk. apply in_map_iff in Hk. destruct Hk as (k0 & <- & Hk). destruct (leqv_in_r _ _ k0 (sorted_leqv si l) Hk) as (k1 & H1 & E1). rewrite Forall_forall in Hl. intros v Hs. apply (Hl k1 H1). eapply sval_eqv; [apply eqv_sym; eapply eqv_trans; [exact E1|apply (sort_node_eqv a (is_asc SDesc))]|exact Hs]. }
      assert (DV : forall k, Q k -> V' V (max_val a k)) by (intros k Hk; apply (max_spec V HV a (depth k) k (le_n _) Hk)).
      assert (S := ssort_sorted (fun l r => vorder (max_val a r) (max_val a l)) (node_lt a SDesc) Q).
      assert (S' : StronglySorted (lexp (fun l r => vorder (max_val a r) (max_val a l)) (fun _ _ => True)) (ssort (node_lt a SDesc) ns)).
      { apply S; auto.
        - intros u w Du Dw. cbn [node_lt]. pose proof (V'_gt V HV _ _ (DV u Du) (DV w Dw)) as G. pose proof (V'_anti V HV _ _ (DV u Du) (DV w Dw)) as An. destruct (vgtb (max_val a u) (max_val a w)) eqn:Eg.
          + rewrite An, (proj1 G eq_refl). reflexivity.
          + rewrite An. destruct (vorder (max_val a u) (max_val a w)) eqn:Ev; cbn [CompOpp]; auto. assert (false = true) by (apply G; auto). discriminate.
        - intros u w Du Dw. apply (V'_anti V HV); auto.
        - intros u w z Du Dw Dz E. rewrite (V'_anti V HV (max_val a u) (max_val a z)), (V'_anti V HV (max_val a w) (max_val a z)) by auto. f_equal. symmetry. apply (V'_eq V HV); auto.
        - intros u w z Du Dw Dz E1 E2. apply (V'_trans V HV (max_val a z) (max_val a w) (max_val a u)); auto.
        - clear. induction ns; constructor; auto. apply Forall_forall. auto. }
      assert (Qs : Forall Q (ssort (node_lt a SDesc) ns)) by (apply Forall_forall; intros k Hk; apply (proj1 (ssort_in (node_lt a SDesc) ns k)) in Hk; rewrite Forall_forall in Qn; exact (Qn k Hk)).
      clear - S' Qs DV HV. clearbody ns. induction S' as [|u l' S IH F]; [constructor|]. inversion Qs as [|? ? Q1 Q2]; subst. constructor; auto. rewrite Forall_forall in *. intros w Hw. specialize (F w Hw). unfold ge. pose proof (V'_anti V HV _ _ (DV u Q1) (DV w (Q2 w Hw))) as An. destruct F as [F|(F & _)]; rewrite F in An; intro K; rewrite K in An; discriminate.
    - apply Forall_forall. intros k Hk v Hs. eapply forest_sval; eauto.
    - apply forest_uniq. }
  rewrite El in SS. pose proof (SS_split _ _ _ _ _ _ SS p x y eq_refl eq_refl) as Ge. cbn [snd] in Ge.
  destruct (max_spec V HV a (depth n) n (le_n _) (Qi _ _ In1)) as (N1 & N2 & N3). destruct (max_spec V HV a (depth m) m (le_n _) (Qi _ _ In2)) as (M1 & M2 & _).
  assert (Sv : sval a m v2) by (apply (listing_sval a recs (p ++ [y]) m v2 In2); exists rec2, t2; rewrite <- app_assoc; auto). assert (V2 : V v2) by (exists rec2; auto).
  assert (G2 : ge (max_val a n) v2) by (eapply (ge_trans V HV); [exact N1|exact M1|right; exact V2|exact Ge|apply M2; auto]).
  destruct N3 as [N3|N3]; [exfalso; rewrite N3 in G2; apply G2; apply (inv_lt V HV); auto|].
  apply (listing_sval a recs (p ++ [x]) n _ In1) in N3. destruct N3 as (rec1 & t1 & S1 & S2 & S3). exists rec1, t1, (max_val a n). rewrite <- app_assoc in S2. auto.
Qed.
Lemma full_nodes a recs : (forall rec, In rec recs -> path rec <> [] -> rfind a (data rec) <> None) ->
  forall k n p, (depth n <= k)%nat -> p <> [] -> node_at p (forest recs) = Some n -> full a n.
Proof.
  intros H. induction k as [|k IH]; intros n p Hk Hp Hn; [destruct n; cbn [depth] in Hk; lia|]. constructor.
  - pose proof (node_recs _ _ _ Hn) as Hr. destruct (forest_recs recs p Hp) as [(K & _)|(_ & (rec & t & R1 & R2))]; [congruence|]. assert (Hne : path rec <> []) by (rewrite R2; destruct p; [congruence|discriminate]). pose proof (H rec R1 Hne) as Hf. destruct (rfind a (data rec)) as [v|] eqn:Ev; [|congruence]. exists v. apply (sval_recs a recs p n v Hp Hn). exists rec, t. auto.
  - apply Forall_forall. intros c Hc. apply (IH c (p ++ [sn_lab c])); [pose proof (kid_depth n c Hc); lia|destruct p; discriminate|]. rewrite (node_at_app p _ n _ Hn). apply fnd_in; auto. eapply node_uniq; eauto. apply forest_uniq.
Qed.
(* ORDER BY ..., a ASC: of two siblings the first one printed has the smaller minimum, if every record has
   a value for a *)
Theorem C54_sorted_asc recs a si before p x n after y m rest : sort_info d q = si ++ [(a, SAsc)] -> values_ok a recs ->
  (forall rec, In rec recs -> path rec <> [] -> rfind a (data rec) <> None) ->
  listing recs = before ++ (p ++ [x], n) :: after ++ (p ++ [y], m) :: rest ->
  forall rec2 t2 v2, In rec2 recs -> path rec2 = p ++ [y] ++ t2 -> rfind a (data rec2) = Some v2 ->
  exists rec1 t1 v1, In rec1 recs /\ path rec1 = p ++ [x] ++ t1 /\ rfind a (data rec1) = Some v1 /\ vorder v1 v2 <> Gt.
Proof.
  intros Es Hv Ha El rec2 t2 v2 R1 R2 R3. set (V := Vof a recs). pose proof (Vof_ok a recs Hv) as HV. fold V in HV.
  assert (In1 : In (p ++ [x], n) (listing recs)) by (rewrite El; apply in_or_app; right; left; auto).
  assert (In2 : In (p ++ [y], m) (listing recs)) by (rewrite El; apply in_or_app; right; right; apply in_or_app; right; left; auto).
  set (Q := fun n => (forall v, sval a n v -> V v) /\ full a n).
  assert (Fe : forall k c, eqv k c -> full a k -> full a c). { intros k c E F. inversion F as [? (v & Hs) Fk]; subst. constructor; [exists v; eapply sval_eqv; eauto|]. destruct E as (_ & E & _). rewrite <- E. auto. }
  assert (Qe : forall k c, eqv k c -> Q k -> Q c). { intros k c E (Hk & Hf). split; [|eapply Fe; eauto]. intros v Hs. apply Hk. eapply sval_eqv; [apply eqv_sym; exact E|auto]. }
  assert (Qi : forall z k, In (z, k) (listing recs) -> Q k). { intros z k Hk. destruct (listing_node _ _ _ Hk) as (k0 & Hz & Hn & He). apply (Qe k0 k He). split; [|eapply full_nodes; eauto]. intros v Hs. apply (sval_recs a recs z k0 v Hz Hn) in Hs. destruct Hs as (r & t & S1 & _ & S3). exists r. auto. }
  assert (DV : forall k, Q k -> V (min_val a k)) by (intros k (Hk & Hf); apply (min_spec V HV a (depth k) k (le_n _) Hk Hf)).
  assert (DV' : forall k, Q k -> V' V (min_val a k)) by (intros k Hk; right; auto).
  assert (SS : StronglySorted (sibl (fun a1 b1 => ge (min_val a b1) (min_val a a1))) (listing recs)).
  { unfold listing. apply (porder_sorted Q); auto.
    - intros k (Hk & Hf). apply Forall_forall. intros c Hc. split; [intros v Hs; apply Hk; eapply sv_kid; eauto|]. inversion Hf as [? _ Fk]; subst. rewrite Forall_forall in Fk. auto.
    - intros l Hl. rewrite Es, sorted_last. cbv zeta. set (ns := map (sort_node a (is_asc SAsc)) (sorted_nodes si l)).
      assert (Qn : Forall Q ns). { apply Forall_forall. intros k Hk. unfold ns in Hk. apply in_map_iff in Hk. destruct Hk as (k0 & <- & Hk). destruct (leqv_in_r _ _ k0 (sorted_leqv si l) Hk) as (k1 & H1 & E1). rewrite Forall_forall in Hl. apply (Qe k1); auto. eapply eqv_trans; [exact E1|apply (sort_node_eqv a (is_asc SAsc))]. }
      assert (S := ssort_sorted (fun l r => vorder (min_val a l) (min_val a r)) (node_lt a SAsc) Q).
      assert (S' : StronglySorted (lexp (fun l r => vorder (min_val a l) (min_val a r)) (fun _ _ => True)) (ssort (node_lt a SAsc) ns)).
      { apply S; auto.
        - intros u w Du Dw. cbn [node_lt]. pose proof (V'_lt V HV _ _ (DV' u Du) (DV' w Dw)) as G. destruct (vltb (min_val a u) (min_val a w)) eqn:Eg.
          + rewrite (proj1 G eq_refl). reflexivity.
          + destruct (vorder (min_val a u) (min_val a w)) eqn:Ev; auto. assert (false = true) by (apply G; auto). discriminate.
        - intros u w Du Dw. apply (V'_anti V HV); auto.
        - intros u w z Du Dw Dz E. apply (V'_eq V HV); auto.
        - intros u w z Du Dw Dz E1 E2. apply (V'_trans V HV (min_val a u) (min_val a w) (min_val a z)); auto.
        - clear. induction ns; constructor; auto. apply Forall_forall. auto. }
      assert (Qs : Forall Q (ssort (node_lt a SAsc) ns)) by (apply Forall_forall; intros k Hk; apply (proj1 (ssort_in (node_lt a SAsc) ns k)) in Hk; rewrite Forall_forall in Qn; exact (Qn k Hk)).
      clear - S' Qs DV' HV. clearbody ns. induction S' as [|u l' S IH F]; [constructor|]. inversion Qs as [|? ? Q1 Q2]; subst. constructor; auto. rewrite Forall_forall in *. intros w Hw. specialize (F w Hw). unfold ge. pose proof (V'_anti V HV _ _ (DV' u Q1) (DV' w (Q2 w Hw))) as An. destruct F as [F|(F & _)]; rewrite F in An; intro K; rewrite K in An; discriminate.
    - apply Forall_forall. intros k Hk. split; [intros v Hs; eapply forest_sval; eauto|]. apply (full_nodes a recs Ha (depth k) k [sn_lab k] (le_n _)); [discriminate|]. rewrite node_at_cons, (fnd_in (forest recs) k (forest_uniq recs) Hk). reflexivity.
    - apply forest_uniq. }
  rewrite El in SS. pose proof (SS_split _ _ _ _ _ _ SS p x y eq_refl eq_refl) as Ge. cbn [snd] in Ge.
  destruct (Qi _ _ In1) as (Q1 & Q1'). destruct (Qi _ _ In2) as (Q2 & Q2'). destruct (min_spec V HV a (depth n) n (le_n _) Q1 Q1') as (N1 & N2 & N3). destruct (min_spec V HV a (depth m) m (le_n _) Q2 Q2') as (M1 & M2 & _).
  assert (Sv : sval a m v2) by (apply (listing_sval a recs (p ++ [y]) m v2 In2); exists rec2, t2; rewrite <- app_assoc; auto). assert (V2 : V v2) by (exists rec2; auto).
  assert (G2 : ge v2 (min_val a n)) by (eapply (ge_trans V HV); [right; exact V2|right; exact M1|right; exact N1|apply M2; auto|exact Ge]).
  apply (listing_sval a recs (p ++ [x]) n _ In1) in N3. destruct N3 as (rec1 & t1 & S1 & S2 & S3). exists rec1, t1, (min_val a n). rewrite <- app_assoc in S2. repeat split; auto.
  intro K. apply G2. rewrite (V'_anti V HV (min_val a n) v2), K by (right; auto). reflexivity.
Qed.
(* and the records of one node are printed in the order of their values *)
Theorem C54_records_sorted recs a o si p n : o <> SNone -> sort_info d q = si ++ [(a, o)] -> values_ok a recs ->
  (forall rec, In rec recs -> path rec <> [] -> rfind a (data rec) <> None) -> In (p, n) (listing recs) ->
  StronglySorted (fun r1 r2 => forall v1 v2, rfind a r1 = Some v1 -> rfind a r2 = Some v2 -> vorder v1 v2 <> match o with SAsc => Gt | _ => Lt end) (sn_recs n).
Proof.
  intros Ho Es Hv Ha Hin. set (V := Vof a recs). pose proof (Vof_ok a recs Hv) as HV. fold V in HV.
  assert (X : exists rs, sn_recs n = ssort (rec_lt a (is_asc o)) rs).
  { assert (L : forall fuel pre f p n, In (p, n) (porder fuel pre (si ++ [(a, o)]) f) -> exists rs, sn_recs n = ssort (rec_lt a (is_asc o)) rs); [|unfold listing in Hin; rewrite Es in Hin; exact (L _ _ _ _ _ Hin)].
    clear. induction fuel as [|fu IH]; intros pre f p n Hin; [destruct Hin|]. cbn [porder] in Hin. apply in_flat_map in Hin. destruct Hin as (k & Hk & [H|H]); [|eauto]. injection H as _ <-. destruct (sorted_from si a o f k Hk) as (_ & _ & _ & Hr). exact Hr. }
  destruct X as (rs & X). rewrite X.
  assert (Hrs : Forall (fun r => exists v, rfind a r = Some v /\ V v) rs).
  { apply Forall_forall. intros r Hr. assert (Hr' : In r (sn_recs n)) by (rewrite X; apply ssort_in; auto). destruct (C54_tree recs) as (_ & _ & T). destruct (T p n Hin) as (_ & Pm). apply (Permutation_in _ Pm) in Hr'. apply in_map_iff in Hr'. destruct Hr' as (rec & <- & Hr'). apply filter_In in Hr'. destruct Hr' as (R1 & R2). apply same_path_iff in R2. destruct (listing_node _ _ _ Hin) as (_ & Hp & _ & _).
    assert (Hn : path rec <> []) by congruence. pose proof (Ha rec R1 Hn) as Hf. destruct (rfind a (data rec)) as [v|] eqn:Ev; [|congruence]. exists v. split; auto. exists rec. auto. }
  set (D := fun r => exists v, rfind a r = Some v /\ V v) in *.
  set (cmp := fun r1 r2 => match rfind a r1, rfind a r2 with Some v1, Some v2 => if is_asc o then vorder v1 v2 else vorder v2 v1 | _, _ => Eq end).
  assert (S' : StronglySorted (lexp cmp (fun _ _ => True)) (ssort (rec_lt a (is_asc o)) rs)).
  { apply (ssort_sorted cmp (rec_lt a (is_asc o)) D); auto; unfold cmp.
    - intros r1 r2 (v1 & E1 & V1) (v2 & E2 & V2). unfold rec_lt. rewrite E1, E2. assert (W1 : V' V v1) by (right; auto). assert (W2 : V' V v2) by (right; auto). destruct (is_asc o).
      + pose proof (V'_lt V HV v1 v2 W1 W2) as G. destruct (vltb v1 v2); [rewrite (proj1 G eq_refl); auto|]. destruct (vorder v1 v2); auto. assert (false = true) by (apply G; auto). discriminate.
      + pose proof (V'_gt V HV v1 v2 W1 W2) as G. rewrite (V'_anti V HV v1 v2 W1 W2). destruct (vgtb v1 v2); [rewrite (proj1 G eq_refl); auto|]. destruct (vorder v1 v2); cbn [CompOpp]; auto. assert (false = true) by (apply G; auto). discriminate.
    - intros r1 r2 (v1 & E1 & V1) (v2 & E2 & V2). rewrite E1, E2. destruct (is_asc o); apply (V'_anti V HV); right; auto.
    - intros r1 r2 r3 (v1 & E1 & V1) (v2 & E2 & V2) (v3 & E3 & V3). rewrite E1, E2, E3. destruct (is_asc o); intro E; [apply (V'_eq V HV); auto; right; auto|].
      rewrite (V'_anti V HV v1 v3), (V'_anti V HV v2 v3) by (right; auto). f_equal. symmetry. apply (V'_eq V HV); auto; right; auto.
    - intros r1 r2 r3 (v1 & E1 & V1) (v2 & E2 & V2) (v3 & E3 & V3). rewrite E1, E2, E3. destruct (is_asc o); intros; [apply (V'_trans V HV v1 v2 v3)|apply (V'_trans V HV v3 v2 v1)]; auto; right; auto.
    - clear. induction rs; constructor; auto. apply Forall_forall. auto. }
  assert (Ds : Forall D (ssort (rec_lt a (is_asc o)) rs)) by (apply Forall_forall; intros r Hr; apply (proj1 (ssort_in (rec_lt a (is_asc o)) rs r)) in Hr; rewrite Forall_forall in Hrs; exact (Hrs r Hr)).
  clear - S' Ds HV Ho. induction S' as [|r l S IH F]; [constructor|]. inversion Ds as [|? ? D1 D2]; subst. constructor; auto. rewrite Forall_forall in *. intros r2 H2 v1 v2 E1 E2. specialize (F r2 H2). unfold lexp, cmp in F. rewrite E1, E2 in F.
  destruct D1 as (w1 & W1 & U1). rewrite E1 in W1. injection W1 as <-. destruct (D2 r2 H2) as (w2 & W2 & U2). rewrite E2 in W2. injection W2 as <-. destruct o; cbn [is_asc] in F; [congruence|destruct F as [F|(F & _)]; rewrite F; discriminate|].
  pose proof (V'_anti V HV v1 v2 (or_intror U1) (or_intror U2)) as An. destruct F as [F|(F & _)]; rewrite F in An; intro K; rewrite K in An; discriminate.
Qed.
End P.
