(* LET operators: one operator, then a list of operators *)
From Verif Require Import Base VariantModel VariantSpec VariantOrderProofs NamesModel NamesProps TextModel TreeModel TreeProofs CaliFileModel CaliFileProofs2 CaliFileProofs4 ArithSpec FloatModel AggModel AggSpec AggProofs2 AggProofs3 AggProofs5 FilterModel FilterSpec FilterProofs FilterProofs2.
Open Scope N_scope.

Lemma type_node_path d ty : db_ok d -> npath d (match type_node ty with Some t => t | None => ROOT end) (match type_node ty with Some _ => [(9, VType ty)] | None => [] end).
Proof.
  intro Hd. destruct (type_node ty) as [t|] eqn:E; [|constructor]. assert (L := type_node_lt ty t E).
  assert (B : dnode d t = Some (mkn t 9 (VType ty) (Some ROOT))).
  { rewrite (ok_boot d Hd t L). unfold type_node in E. repeat (match type of E with (if ?x =? ?y then _ else _) = _ => destruct (N.eqb_spec x y) as [Q|_]; [injection E as <-; rewrite Q; reflexivity|] end). discriminate. }
  change [(9, VType ty)] with ([] ++ [(n_attr (mkn t 9 (VType ty) (Some ROOT)), n_val (mkn t 9 (VType ty) (Some ROOT)))]). apply np_node; [unfold INV_ID; lia|exact B|]. constructor.
Qed.
Lemma create_attribute_path d name ty prop : wf d -> get_attr d name = None -> size_ok (snd (create_attribute d name ty prop)) ->
  npath (snd (create_attribute d name ty prop)) (fst (create_attribute d name ty prop)) (match type_node ty with Some _ => [(9, VType ty)] | None => [] end ++ [(10, VInt prop); (8, VStr name)]).
Proof.
  intros Hw E. pose proof Hw as (Hd & Hn). unfold create_attribute. fold (get_attr d name). rewrite E.
  set (pt := match type_node ty with Some t => t | None => ROOT end).
  change [(10, VInt prop); (8, VStr name)] with ([(10, VInt prop)] ++ [(8, VStr name)]). rewrite mte_app.
  set (d1 := snd (make_tree_entry d [(10, VInt prop)] pt)). set (p1 := fst (make_tree_entry d [(10, VInt prop)] pt)).
  destruct (make_tree_entry d1 [(8, VStr name)] p1) as (i, d2) eqn:E2. cbn [fst snd]. intro Hs.
  assert (Hs2 : size_ok d2) by exact Hs.
  assert (Hs1 : size_ok d1). { eapply size_dext; [|exact Hs2]. replace d2 with (snd (make_tree_entry d1 [(8, VStr name)] p1)) by (rewrite E2; reflexivity). apply mte_len. }
  assert (F10 : Forall (fun x => is_attr d (fst x) = true /\ fst x <> 8 /\ snd x <> VInv) [(10, VInt prop)]).
  { constructor; [|constructor]. cbn [fst snd]. split; [apply boot_is_attr; auto|split; [lia|discriminate]]. }
  destruct (mte_ok [(10, VInt prop)] d pt _ Hw F10 (type_node_path d ty Hd) Hs1) as (G1 & W1 & P1).
  fold d1 p1 in G1, W1, P1. pose proof W1 as (Hd1 & Hn1).
  assert (E1 : get_attr d1 name = None). { rewrite (get_attr_same d d1); auto. apply mte_attrs. }
  assert (X : forall n, dnode d2 i = Some n -> n_attr n = 8 -> n_val n = VStr name -> n_par n = Some p1 -> i < N.of_nat (length (d_nodes d2)) -> npath (mkdb (d_nodes d2) ((name, i) :: d_attrs d2)) i (match type_node ty with Some _ => [(9, VType ty)] | None => [] end ++ [(10, VInt prop)] ++ [(8, VStr name)])).
  { intros n Hni H8 Hv Hp Hlt. rewrite app_assoc. rewrite <- H8, <- Hv. apply np_node; [unfold size_ok in Hs2; lia|exact Hni|]. unfold par_id. rewrite Hp.
    eapply npath_dext; [|exact P1]. replace d2 with (snd (make_tree_entry d1 [(8, VStr name)] p1)) by (rewrite E2; reflexivity). exact (mte_len [(8, VStr name)] d1 p1). }
  cbn [make_tree_entry] in E2. destruct (dfind d1 p1 8 (VStr name)) as [n|] eqn:Ef.
  - injection E2 as <- <-. apply dfind_some in Ef as (Hin & F1 & F2 & F3). apply dnode_in in Hin as (j & Hj). assert (Ej := ok_id d1 Hd1 j n Hj). rewrite Ej in *. exact (X n Hj F2 F3 F1 (dnode_lt d1 j n Hj)).
  - unfold dcreate in E2. injection E2 as <- <-. apply (X (mkn (N.of_nat (length (d_nodes d1))) 8 (VStr name) (Some p1))); try reflexivity; [apply dnode_push|]. cbn [d_nodes]. rewrite app_length. cbn [length]. lia.
Qed.
Lemma new_attr_type d name ty prop : wf d -> get_attr d name = None -> size_ok (snd (create_attribute d name ty prop)) -> ty <= MAXTYPE ->
  attr_type (snd (create_attribute d name ty prop)) (fst (create_attribute d name ty prop)) = ty.
Proof.
  intros Hw E Hs Ht. assert (P := create_attribute_path d name ty prop Hw E Hs). destruct (create_attribute_grow d name ty prop Hw Hs) as (G & W & A).
  unfold attr_type. rewrite (climb_ok _ _ _ 9 (proj1 W) Hs P (get_attr_lt _ _ _ (proj2 W) A)). clear P A W G Hs E Hw.
  destruct (type_node ty) as [t|] eqn:Et; [reflexivity|]. cbn [fnd app rev find fst snd]. unfold type_node in Et. unfold MAXTYPE in Ht.
  repeat (match type of Et with (if ?b then _ else _) = _ => destruct b eqn:?; [discriminate|] end). repeat match goal with H : (_ =? _) = false |- _ => apply N.eqb_neq in H end.
  unfold T_USR, T_INT, T_UINT, T_STRING, T_ADDR, T_DOUBLE, T_BOOL, T_TYPE, T_PTR in *. change (fnd 9 [(10, VInt prop); (8, VStr name)]) with (@None value). unfold T_INV. lia.
Qed.
(* the database after create_attribute *)
Lemma create_attribute_full d name ty prop : wf d -> types_ok d -> ty <= MAXTYPE -> size_ok (snd (create_attribute d name ty prop)) ->
  wf (snd (create_attribute d name ty prop)) /\ grow d (snd (create_attribute d name ty prop)) /\ types_ok (snd (create_attribute d name ty prop)) /\
  get_attr (snd (create_attribute d name ty prop)) name = Some (fst (create_attribute d name ty prop)) /\
  attr_type (snd (create_attribute d name ty prop)) (fst (create_attribute d name ty prop)) = match get_attr d name with Some a => attr_type d a | None => ty end.
Proof.
  intros Hw Ht Hty Hs. destruct (create_attribute_grow d name ty prop Hw Hs) as (G & W & A). split; [exact W|]. split; [exact G|].
  assert (T : attr_type (snd (create_attribute d name ty prop)) (fst (create_attribute d name ty prop)) = match get_attr d name with Some a => attr_type d a | None => ty end).
  { destruct (get_attr d name) as [a|] eqn:E; [|exact (new_attr_type d name ty prop Hw E Hs Hty)]. unfold create_attribute. fold (get_attr d name). rewrite E. reflexivity. }
  split; [|split; [exact A|exact T]].
  intros s a Hsa. destruct (get_attr d s) as [b|] eqn:E.
  - rewrite (gr_keep _ _ G s b E) in Hsa. injection Hsa as <-. rewrite (attr_type_stable d _ b Hw W G Hs (get_attr_lt d s b (proj2 Hw) E)). exact (Ht s b E).
  - destruct (beqb name s) eqn:B.
    + apply beqb_eq in B. subst s. rewrite A in Hsa. injection Hsa as <-. rewrite T, E. exact Hty.
    + exfalso. unfold create_attribute in Hsa. destruct (alookup (d_attrs d) name) as [x|] eqn:En; cbn [snd] in Hsa; [congruence|].
      destruct (make_tree_entry d _ _) as (i, d1) eqn:M. cbn [snd] in Hsa. unfold get_attr in Hsa. cbn [d_attrs alookup] in Hsa. rewrite B in Hsa.
      assert (Q : d_attrs d1 = d_attrs d). { replace d1 with (snd (make_tree_entry d [(10, VInt prop); (8, VStr name)] (match type_node ty with Some t => t | None => ROOT end))) by (rewrite M; reflexivity). apply mte_attrs. }
      rewrite Q in Hsa. unfold get_attr in E. congruence.
Qed.
Definition added (d : mdb) (tgt : bytes) (rec : list entry) (v : value) (rec' : list entry) (d' : mdb) : Prop :=
  wf d' /\ grow d d' /\ types_ok d' /\ exists a, get_attr d' tgt = Some a /\ rec' = rec ++ [EImm a v].
Lemma add_entry_ok d tgt ty prop rec v rec' d' : wf d -> types_ok d -> ty <= MAXTYPE -> size_ok d' -> add_entry d tgt ty prop rec v = (rec', d') -> added d tgt rec v rec' d'.
Proof.
  intros Hw Ht Hty Hs. unfold add_entry. assert (F := create_attribute_full d tgt ty prop Hw Ht Hty). destruct (create_attribute d tgt ty prop) as (a, d1). cbn [fst snd] in F. intro Q. injection Q as <- <-.
  destruct (F Hs) as (W & G & T & A & _). split; [exact W|]. split; [exact G|]. split; [exact T|]. exists a. auto.
Qed.
Lemma val_type_max v : val_type v <= MAXTYPE.
Proof. destruct v; unfold MAXTYPE; cbn; lia. Qed.
Lemma type_of_max d x : types_ok d -> type_of d x <= MAXTYPE.
Proof. intro H. unfold type_of. destruct (get_attr d x) as [a|] eqn:E; [exact (H x a E)|unfold MAXTYPE, T_INV; lia]. Qed.
Lemma dconv_some lo hi b z w : dconv lo hi b = CRes z w <-> dtrunc (dbl b) = Some z /\ (lo <= z <= hi)%Z /\ w = true.
Proof.
  unfold dconv. destruct (dtrunc (dbl b)) as [y|]; [|split; [discriminate|intros (? & _); discriminate]].
  destruct (Z.leb_spec lo y), (Z.leb_spec y hi); cbn [andb]; split; try discriminate; try (intros (Q & R & _); injection Q as <-; lia).
  - intro Q. injection Q as <- <-. auto.
  - intros (Q & R & ->). injection Q as <-. reflexivity.
Qed.
(* stability of the leaf lookups *)
Lemma path_entry_stable d d' e : wf d -> wf d' -> grow d d' -> size_ok d' -> entry_ok d e -> path_entry d' e = path_entry d e.
Proof.
  intros Hw Hw' G Hs' He. destruct e as [i|a v]; cbn [path_entry]; [|reflexivity]. assert (Hs := size_dext d d' (gr_ext _ _ G) Hs'). destruct He as (Hlt & _). destruct (npath_ex d i (proj1 Hw) Hs Hlt) as (p & Hp).
  assert (Hi := lt_not_inv d Hs i Hlt). rewrite (node_path_ok d i p (proj1 Hw) Hs Hp Hi), (node_path_ok d' i p (proj1 Hw') Hs' (npath_dext d d' i p (gr_ext _ _ G) Hp) Hi).
  assert (Q : forall l, Forall (fun x => is_attr d (fst x) = true) l -> find (fun x => is_nested d' (fst x)) l = find (fun x : N * value => is_nested d (fst x)) l).
  { induction l as [|x l IH]; intro F; cbn [find]; [reflexivity|]. apply Forall_cons_iff in F as (F1 & F2). rewrite (is_nested_stable d d' (fst x) Hw Hw' G Hs' (is_attr_lt d _ F1)), (IH F2). reflexivity. }
  rewrite Q; [reflexivity|]. apply Forall_forall. intros x Hx. apply (npath_attr d i p x Hp (proj1 Hw)). apply in_rev. exact Hx.
Qed.
Lemma get_entry_stable d d' e a : wf d -> wf d' -> grow d d' -> size_ok d' -> entry_ok d e -> get_entry_of d' e a = get_entry_of d e a.
Proof.
  intros Hw Hw' G Hs' He. assert (Hs := size_dext d d' (gr_ext _ _ G) Hs'). destruct e as [i|b v]; unfold get_entry_of; cbn [entry_node e_val]; [|reflexivity].
  destruct He as (Hlt & _). destruct (dnode_some d i Hlt) as (n & Hn). rewrite Hn, (dext_node d d' i n (gr_ext _ _ G) Hn). destruct (npath_ex d i (proj1 Hw) Hs Hlt) as (p & Hp).
  assert (Hi := lt_not_inv d Hs i Hlt). rewrite (node_path_ok d i p (proj1 Hw) Hs Hp Hi), (node_path_ok d' i p (proj1 Hw') Hs' (npath_dext d d' i p (gr_ext _ _ G) Hp) Hi). reflexivity.
Qed.
Definition let_effect (d : mdb) (tgt : bytes) (op : letop) (rec rec' : list entry) (d' : mdb) : Prop :=
  wf d' /\ grow d d' /\ types_ok d' /\
  ((exists v a, let_value d rec tgt op v /\ get_attr d' tgt = Some a /\ rec' = rec ++ [EImm a v]) \/ (rec' = rec /\ forall v, ~ let_value d rec tgt op v)).
Lemma added_effect d tgt op rec v rec' d' : added d tgt rec v rec' d' -> let_value d rec tgt op v -> let_effect d tgt op rec rec' d'.
Proof. intros (W & G & T & a & A & E) H. split; [exact W|]. split; [exact G|]. split; [exact T|]. left. exists v, a. auto. Qed.
Lemma none_effect d tgt op rec : wf d -> types_ok d -> (forall v, ~ let_value d rec tgt op v) -> let_effect d tgt op rec rec d.
Proof. intros Hw Ht H. split; [exact Hw|]. split; [apply grow_refl|]. split; [exact Ht|]. right. auto. Qed.
Lemma let1_ok d tgt op rec rec' d' : wf d -> types_ok d -> Forall (entry_ok d) rec -> size_ok d' -> let1 d tgt op rec = Some (rec', d') -> let_effect d tgt op rec rec' d'.
Proof.
  intros Hw Ht Hr Hs'. destruct op as [xn xd sc|x sc|x f|xs|xs| |x]; cbn [let1].
  - (* ratio *)
    destruct (value_eq_dec (get_value d xn rec) VInv) as [En|En].
    { rewrite En. intro Q. injection Q as <- <-. apply none_effect; auto. intros v H. inversion H; subst. assert (S := size_dext d d (dext_refl d) Hs'). match goal with H : record_value d rec xn _ |- _ => assert (X := record_get d Hw S rec xn _ Hr H); destruct H as (H & _); congruence end. }
    destruct (value_eq_dec (get_value d xd rec) VInv) as [Ed|Ed].
    { rewrite Ed. intro Q. assert (Q' : (rec, d) = (rec', d')) by (destruct (get_value d xn rec); congruence). injection Q' as <- <-. apply none_effect; auto. intros v H. inversion H; subst. match goal with H : record_value d rec xd _ |- _ => assert (X := record_get d Hw Hs' rec xd _ Hr H); destruct H as (H & _); congruence end. }
    intro Q. assert (Q' : (if dltb 0 (dabs (v_f64 (get_value d xd rec))) then Some (add_entry d tgt T_DOUBLE LETPROP rec (VDouble (dmul sc (ddiv (v_f64 (get_value d xn rec)) (v_f64 (get_value d xd rec)))))) else Some (rec, d)) = Some (rec', d')) by (destruct (get_value d xn rec); try congruence; destruct (get_value d xd rec); congruence). clear Q.
    destruct (dltb 0 (dabs (v_f64 (get_value d xd rec)))) eqn:Ez.
    + injection Q' as Q'. assert (A := add_entry_ok d tgt T_DOUBLE LETPROP rec _ rec' d' Hw Ht ltac:(unfold MAXTYPE, T_DOUBLE; lia) Hs' Q').
      assert (S : size_ok d) by (exact (size_dext d d' (gr_ext _ _ (proj1 (proj2 A))) Hs')).
      apply (added_effect _ _ _ _ _ _ _ A). apply lv_ratio; [exact (get_record d Hw S rec xn Hr En)|exact (get_record d Hw S rec xd Hr Ed)|exact Ez].
    + injection Q' as <- <-. apply none_effect; auto. intros v H. inversion H; subst. match goal with H : record_value d rec xd _ |- _ => assert (X := record_get d Hw Hs' rec xd _ Hr H) end. congruence.
  - (* scale *)
    destruct (value_eq_dec (get_value d x rec) VInv) as [En|En].
    { rewrite En. intro Q. injection Q as <- <-. apply none_effect; auto. intros v H. inversion H; subst. match goal with H : record_value d rec x _ |- _ => assert (X := record_get d Hw Hs' rec x _ Hr H); destruct H as (H & _); congruence end. }
    rewrite (nz_match (get_value d x rec) (Some (rec, d)) (fun v => Some (add_entry d tgt T_DOUBLE LETPROP rec (VDouble (dmul sc (v_f64 v))))) En). cbv beta. intro Q. injection Q as Q.
    assert (A := add_entry_ok d tgt T_DOUBLE LETPROP rec _ rec' d' Hw Ht ltac:(unfold MAXTYPE, T_DOUBLE; lia) Hs' Q).
    assert (S : size_ok d) by (exact (size_dext d d' (gr_ext _ _ (proj1 (proj2 A))) Hs')).
    apply (added_effect _ _ _ _ _ _ _ A). apply lv_scale. exact (get_record d Hw S rec x Hr En).
  - (* truncate *)
    destruct (value_eq_dec (get_value d x rec) VInv) as [En|En].
    { rewrite En. intro Q. injection Q as <- <-. apply none_effect; auto. intros v H. inversion H; subst; match goal with H : record_value d rec x _ |- _ => assert (X := record_get d Hw Hs' rec x _ Hr H); destruct H as (H & _); congruence end. }
    intro Q. assert (Q' : match (if (if (type_of d x =? T_INT) || (type_of d x =? T_UINT) then type_of d x else T_DOUBLE) =? T_INT then match dconv INT_MIN INT_MAX (truncated (get_value d x rec) f) with CRes z _ => Some (VInt z) | CUB => None end
              else if (if (type_of d x =? T_INT) || (type_of d x =? T_UINT) then type_of d x else T_DOUBLE) =? T_UINT then match dconv 0 ULLONG_MAX (dabs (truncated (get_value d x rec) f)) with CRes z _ => Some (VUint (Z.to_N z)) | CUB => None end
              else Some (VDouble (truncated (get_value d x rec) f))) with
       | Some w => Some (add_entry d tgt (if (type_of d x =? T_INT) || (type_of d x =? T_UINT) then type_of d x else T_DOUBLE) LETPROP rec w) | None => None end = Some (rec', d')).
    { revert Q. destruct (get_value d x rec); [congruence|intro Q; exact Q..]. }
    clear Q. revert Q'. set (v := get_value d x rec) in *.
    assert (Fin : forall w ty, ty <= MAXTYPE -> (size_ok d -> record_value d rec x v -> let_value d rec tgt (LTruncate x f) w) -> Some (add_entry d tgt ty LETPROP rec w) = Some (rec', d') -> let_effect d tgt (LTruncate x f) rec rec' d').
    { intros w ty Hty Hv Q. injection Q as Q. assert (A := add_entry_ok d tgt ty LETPROP rec _ rec' d' Hw Ht Hty Hs' Q). assert (S : size_ok d) by (exact (size_dext d d' (gr_ext _ _ (proj1 (proj2 A))) Hs')).
      apply (added_effect _ _ _ _ _ _ _ A). apply Hv; [exact S|]. exact (get_record d Hw S rec x Hr En). }
    destruct (N.eqb_spec (type_of d x) T_INT) as [Ti|Ti]; cbn [orb].
    + rewrite Ti. change (T_INT =? T_INT) with true. cbv iota. destruct (dconv INT_MIN INT_MAX (truncated v f)) as [z b|] eqn:Ec; [|discriminate]. apply dconv_some in Ec as (Ez & Hz & _).
      apply Fin; [unfold MAXTYPE, T_INT; lia|]. intros S Hv. exact (lv_trunc_int d rec tgt x f v z Hv Ti Ez Hz).
    + destruct (N.eqb_spec (type_of d x) T_UINT) as [Tu|Tu].
      * rewrite Tu. change (T_UINT =? T_INT) with false. change (T_UINT =? T_UINT) with true. cbv iota. destruct (dconv 0 ULLONG_MAX (dabs (truncated v f))) as [z b|] eqn:Ec; [|discriminate]. apply dconv_some in Ec as (Ez & Hz & _).
        apply Fin; [unfold MAXTYPE, T_UINT; lia|]. intros S Hv. exact (lv_trunc_uint d rec tgt x f v z Hv Tu Ez Hz).
      * change (T_DOUBLE =? T_INT) with false. change (T_DOUBLE =? T_UINT) with false. cbv iota.
        apply Fin; [unfold MAXTYPE, T_DOUBLE; lia|]. intros S Hv. exact (lv_trunc_double d rec tgt x f v Hv Ti Tu).
  - (* first *)
    destruct (first_of d xs rec) as [(x, v)|] eqn:Ef.
    + fold (type_of d x). intro Q. injection Q as Q. assert (A := add_entry_ok d tgt (type_of d x) LETPROP rec _ rec' d' Hw Ht (type_of_max d x Ht) Hs' Q). assert (S : size_ok d) by (exact (size_dext d d' (gr_ext _ _ (proj1 (proj2 A))) Hs')).
      apply (added_effect _ _ _ _ _ _ _ A). destruct (proj1 (first_of_spec d Hw S xs rec v Hr) (ex_intro _ x Ef)) as (pre & y & post & -> & H1 & H2). exact (lv_first d rec tgt pre y post v H1 H2).
    + intro Q. injection Q as <- <-. apply none_effect; auto. intros v H. remember (LFirst xs) as op eqn:Eo. destruct H; try discriminate. injection Eo as Eo.
      destruct (proj2 (first_of_spec d Hw Hs' xs rec v Hr)) as (y & Q); [|congruence]. exists pre, x, post. auto.
  - (* sum *)
    rewrite sum_fold. set (vs := map (fun x => oval (get_value d x rec)) xs). set (s := fold_left vadd _ VInv).
    destruct (value_eq_dec s VInv) as [E|E].
    + rewrite E. intro Q. injection Q as <- <-. apply none_effect; auto. intros v H. remember (LSum xs) as op eqn:Eo. destruct H as [| | | | | |ys ws H1 H2| |]; try discriminate. injection Eo as ->. apply H2.
      rewrite (proj1 (sum_ovals d Hw Hs' rec xs ws Hr) H1). exact E.
    + rewrite (nz_match s (Some (rec, d)) (fun v => Some (add_entry d tgt (val_type v) LETPROP rec v)) E). cbv beta. intro Q. injection Q as Q.
      assert (A := add_entry_ok d tgt (val_type s) LETPROP rec _ rec' d' Hw Ht (val_type_max s) Hs' Q). assert (S : size_ok d) by (exact (size_dext d d' (gr_ext _ _ (proj1 (proj2 A))) Hs')).
      apply (added_effect _ _ _ _ _ _ _ A). apply (lv_sum d rec tgt xs vs); [|exact E]. apply (proj2 (sum_ovals d Hw S rec xs vs Hr)). reflexivity.
  - (* leaf *)
    assert (F := create_attribute_full d tgt T_STRING LETPROP Hw Ht ltac:(unfold MAXTYPE, T_STRING; lia)). destruct (create_attribute d tgt T_STRING LETPROP) as (a, d1). cbn [fst snd] in F.
    intro Q. assert (E1 : d1 = d') by (destruct (leaf_value _ _ rec); congruence). subst d1. destruct (F Hs') as (W & G & T & A & Ty). assert (S := size_dext d d' (gr_ext _ _ G) Hs').
    split; [exact W|]. split; [exact G|]. split; [exact T|]. rewrite Ty in Q. set (ty := match get_attr d tgt with Some _ => _ | None => _ end) in *.
    assert (L : forall v, leaf_value ty (path_entry d') rec = Some v <-> first_typed ty (leaf_region d) rec v).
    { apply leaf_value_spec. intros e v Hin. rewrite Forall_forall in Hr. rewrite (path_entry_stable d d' e Hw W G Hs' (Hr e Hin)). exact (path_entry_spec d Hw S e v (Hr e Hin)). }
    destruct (leaf_value ty (path_entry d') rec) as [v|] eqn:El; injection Q as <-.
    + left. exists v, a. split; [|auto]. apply lv_leaf. apply L. reflexivity.
    + right. split; [reflexivity|]. intros v H. remember LLeaf as op eqn:Eo. destruct H as [| | | | | | |v H|]; try discriminate. apply L in H. discriminate.
  - (* leaf of *)
    destruct (get_attr d x) as [t|] eqn:Et.
    2:{ intro Q. injection Q as <- <-. apply none_effect; auto. intros v H. remember (LLeafOf x) as op eqn:Eo. destruct H; try discriminate. injection Eo as ->. congruence. }
    assert (F := create_attribute_full d tgt (attr_type d t) (Z.land (Z.lor LETPROP (attr_props d t)) (Z.lnot NESTED)) Hw Ht (Ht x t Et)). destruct (create_attribute d tgt (attr_type d t) _) as (a, d1). cbn [fst snd] in F.
    intro Q. assert (E1 : d1 = d') by (destruct (leaf_value _ _ rec); congruence). subst d1. destruct (F Hs') as (W & G & T & A & Ty). assert (S := size_dext d d' (gr_ext _ _ G) Hs').
    split; [exact W|]. split; [exact G|]. split; [exact T|]. rewrite Ty in Q. set (ty := match get_attr d tgt with Some _ => _ | None => _ end) in *.
    assert (L : forall v, leaf_value ty (fun e => get_entry_of d' e t) rec = Some v <-> first_typed ty (own_value d t) rec v).
    { apply leaf_value_spec. intros e v Hin. rewrite Forall_forall in Hr. rewrite (get_entry_stable d d' e t Hw W G Hs' (Hr e Hin)). exact (get_entry_spec d Hw S e t v (Hr e Hin) (get_attr_is d x t Hw Et)). }
    destruct (leaf_value ty _ rec) as [v|] eqn:El; injection Q as <-.
    + left. exists v, a. split; [|auto]. apply (lv_leafof d rec tgt x t v Et). apply L. reflexivity.
    + right. split; [reflexivity|]. intros v H. remember (LLeafOf x) as op eqn:Eo. destruct H as [| | | | | | | |x0 t0 v Ht0 H]; try discriminate. injection Eo as ->. rewrite Et in Ht0. injection Ht0 as <-. apply L in H. discriminate.
Qed.
