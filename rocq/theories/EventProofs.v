From Verif Require Import Base VariantModel RFilterModel RuntimeModel EventModel EventSpec.
Open Scope N_scope.

Lemma bytes_eqb_eq a : forall b, bytes_eqb a b = true -> a = b.
Proof.
  induction a as [|x a IH]; intros [|y b] H; cbn in H; try congruence.
  apply andb_prop in H. destruct H as (H1 & H2). apply N.eqb_eq in H1. f_equal; auto.
Qed.
Lemma vtype_ts a b : ts a = ts b -> vtype a = vtype b.
Proof. unfold vtype. intros ->. reflexivity. Qed.
Lemma size_ts a b : ts a = ts b -> get_size a = get_size b.
Proof. intro H. unfold get_size. rewrite (vtype_ts a b H), H. reflexivity. Qed.
Lemma vtype_str v : (vtype v =? T_USR) || (vtype v =? T_STRING) = true ->
  vtype v = extract_type (ts v) /\ get_size v = extract_size (ts v).
Proof.
  intro H. unfold get_size. rewrite H. unfold vtype in *. destruct (extract_type (ts v) <=? MAXTYPE) eqn:E; cbn in *; [|discriminate].
  split; [reflexivity|]. destruct (extract_type (ts v) =? T_INV) eqn:E2; [|reflexivity].
  apply N.eqb_eq in E2. rewrite E2 in H. discriminate.
Qed.
Lemma var_eq_data m a b : var_eq m a b = true -> var_data m a = var_data m b.
Proof.
  unfold var_eq. intro H. apply andb_prop in H. destruct H as (H1 & H2). apply N.eqb_eq in H1.
  unfold var_data. rewrite <- (vtype_ts a b H1), <- (size_ts a b H1).
  destruct ((vtype a =? T_USR) || (vtype a =? T_STRING)) eqn:E.
  - destruct (vtype_str a E) as (T1 & T2). unfold value_eq in H2. rewrite <- T1, E in H2.
    destruct (word a =? word b) eqn:W; [apply N.eqb_eq in W; rewrite W; reflexivity|].
    rewrite T2. apply bytes_eqb_eq. exact H2.
  - unfold value_eq in H2. destruct ((extract_type (ts a) =? T_USR) || (extract_type (ts a) =? T_STRING)) eqn:E2.
    + exfalso. unfold vtype in E. destruct (extract_type (ts a) <=? MAXTYPE) eqn:E3; [congruence|].
      apply N.leb_gt in E3. unfold MAXTYPE in E3. apply orb_prop in E2. destruct E2 as [X|X]; apply N.eqb_eq in X; rewrite X in E3; cbv in E3; discriminate.
    + apply N.eqb_eq in H2. rewrite H2. reflexivity.
Qed.

Lemma has_flag_iff p f : has_flag p f = false <-> N.land p f = 0.
Proof. unfold has_flag. rewrite negb_false_iff. apply N.eqb_eq. Qed.

(* induction over items *)
Fixpoint item_ind' (P : item -> Prop) (HS : forall t a v m, P (ISet t a v m))
  (HR : forall t a vb mb kids ve me, Forall P kids -> P (IRegion t a vb mb kids ve me)) (i : item) : P i :=
  match i with
  | ISet t a v m => HS t a v m
  | IRegion t a vb mb kids ve me =>
      HR t a vb mb kids ve me ((fix all (l : list item) : Forall P l := match l with [] => Forall_nil P | k :: r => Forall_cons k (item_ind' P HS HR k) (all r) end) kids)
  end.

Section RX.
Variable rx_match : bytes -> bytes -> bool.
Variable c : ecfg.
Variable marks : list N.
Notation mk := (fun id => existsb (N.eqb id) marks).
Notation run := (erun rx_match c).

Lemma proper_region enc t a vb mb kids ve me : proper rx_match c mk enc (IRegion t a vb mb kids ve me) <->
  all_proper rx_match c mk ((vb, mb) :: enc) kids /\ var_eq me ve vb = true /\
  Forall (fun x => var_data me (fst x) = var_data (snd x) (fst x)) ((vb, mb) :: enc).
Proof.
  cbn [proper]. apply and_iff_compat_r. unfold all_proper. induction kids as [|k r IH]; [split; auto|].
  rewrite Forall_cons_iff, <- IH. reflexivity.
Qed.
Lemma erun_app l1 l2 s : run s (l1 ++ l2) = let (o1, s1) := run s l1 in let (o2, s2) := run s1 l2 in (o1 ++ o2, s2).
Proof.
  revert s. induction l1 as [|e l1 IH]; intro s; [cbn; destruct (run s l2); reflexivity|].
  cbn [erun app]. destruct (estep rx_match c s e) as (o, s1). rewrite IH. destruct (run s1 l1) as (o1, s2).
  destruct (run s2 l2) as (o2, s3). rewrite app_assoc. reflexivity.
Qed.

(* the stack holds begin values of enclosing regions that pass the branch filter *)
Definition stack_ok (enc : list (cvar * memory)) (st : list cvar) : Prop :=
  Forall (fun b => exists m, In (b, m) enc /\ pass rx_match (ec_branch c) (var_data m b) = true) st.
Definition opened (inside : bool) (st : list cvar) : Prop := inside = true <-> st <> [].

Lemma run_item i : forall enc inside st, stack_ok enc st -> opened inside st -> (inside = true -> has_filters (ec_branch c) = true) ->
  proper rx_match c mk enc i ->
  run (mkes marks st) (events i) = (expected rx_match c mk inside i, mkes marks st).
Proof.
  induction i as [t a v m|t a vb mb kids ve me IH] using item_ind'; intros enc inside st SO OP FI PR.
  - cbn [proper] in PR. cbn [events erun estep expected]. unfold pre_open, find_marker. cbn [es_marks es_stack].
    unfold wanted. unfold opens_branch, wanted in PR.
    destruct (existsb (N.eqb (ea_id a)) marks) eqn:Mk; cbn [negb andb]; [|reflexivity]. cbn [andb] in PR.
    rewrite (negb_orb) || idtac.
    destruct (ea_type a =? T_STRING) eqn:TY; destruct (pass rx_match (ec_region c) (var_data m v)) eqn:PS; cbn [negb andb orb] in *; try reflexivity.
    all: destruct (has_filters (ec_branch c)) eqn:HF; cbn [negb andb orb] in *; [rewrite PR|reflexivity].
    all: destruct st as [|b st]; [destruct inside; [destruct OP as (OP & _); specialize (OP eq_refl); congruence|reflexivity]|].
    all: destruct inside; [reflexivity|destruct OP as (_ & OP); specialize (OP ltac:(discriminate)); discriminate].
  - apply proper_region in PR. destruct PR as (PK & EQ & ST).
    assert (KR : forall l inside' st', Forall (fun i => forall enc inside st, stack_ok enc st -> opened inside st ->
        (inside = true -> has_filters (ec_branch c) = true) -> proper rx_match c mk enc i ->
        run (mkes marks st) (events i) = (expected rx_match c mk inside i, mkes marks st)) l ->
        all_proper rx_match c mk ((vb, mb) :: enc) l -> stack_ok ((vb, mb) :: enc) st' -> opened inside' st' ->
        (inside' = true -> has_filters (ec_branch c) = true) ->
        run (mkes marks st') (flat_map events l) = (flat_map (expected rx_match c mk inside') l, mkes marks st')).
    { induction l as [|k l IHl]; intros inside' st' HI HP S' O' F'; [reflexivity|].
      inversion HI as [|? ? HI1 HI2]; subst. inversion HP as [|? ? HP1 HP2]; subst.
      cbn [flat_map]. rewrite erun_app, (HI1 _ _ _ S' O' F' HP1), (IHl _ _ HI2 HP2 S' O' F'). reflexivity. }
    assert (DE : var_data me ve = var_data mb vb).
    { rewrite (var_eq_data _ _ _ EQ). inversion ST as [|? ? S1 S2]; subst. exact S1. }
    cbn [events expected]. change (EvBegin t a vb mb :: flat_map events kids ++ [EvEnd t a ve me])
      with ([EvBegin t a vb mb] ++ flat_map events kids ++ [EvEnd t a ve me]).
    assert (SO' : stack_ok ((vb, mb) :: enc) st).
    { unfold stack_ok in *. rewrite Forall_forall in *. intros b Hb. destruct (SO b Hb) as (m & I1 & I2). exists m. split; [right; exact I1|exact I2]. }
    set (ws := wanted rx_match c mk a vb mb).
    assert (WE : forall v m, var_data m v = var_data mb vb ->
      (negb (find_marker (mkes marks st) a) = true \/ (ea_type a =? T_STRING) && negb (pass rx_match (ec_region c) (var_data m v)) = true) <-> ws = false).
    { intros v m D. subst ws. unfold wanted, find_marker. rewrite D. cbn [es_marks].
      destruct (existsb (N.eqb (ea_id a)) marks), (ea_type a =? T_STRING), (pass rx_match (ec_region c) (var_data mb vb)); cbn; intuition discriminate. }
    rewrite erun_app.
    assert (BEG : run (mkes marks st) [EvBegin t a vb mb] =
      (if ws && (negb (has_filters (ec_branch c)) || (inside || opens_branch rx_match c mk a vb mb)) then [mk_push c KBegin a vb] else [],
       mkes marks (if opens_branch rx_match c mk a vb mb then vb :: st else st))).
    { cbn [erun estep]. unfold pre_open. destruct (WE vb mb eq_refl) as (W1 & W2). unfold opens_branch. fold ws.
      destruct (negb (find_marker (mkes marks st) a)) eqn:E1; [rewrite (W1 (or_introl eq_refl)); reflexivity|].
      destruct ((ea_type a =? T_STRING) && negb (pass rx_match (ec_region c) (var_data mb vb))) eqn:E2; [rewrite (W1 (or_intror eq_refl)); reflexivity|].
      destruct ws eqn:Ew; [|destruct (W2 eq_refl); discriminate]. cbn [andb].
      destruct (has_filters (ec_branch c)) eqn:HF; cbn [negb andb orb]; [|reflexivity].
      destruct (pass rx_match (ec_branch c) (var_data mb vb)) eqn:PB; cbn [es_stack es_marks].
      - rewrite orb_true_r. reflexivity.
      - rewrite orb_false_r. destruct st as [|b st]; [destruct inside; [destruct OP as (OP & _); specialize (OP eq_refl); congruence|reflexivity]|].
        destruct inside; [reflexivity|destruct OP as (_ & OP); specialize (OP ltac:(discriminate)); discriminate]. }
    rewrite BEG. cbv beta iota. rewrite erun_app.
    set (ob := opens_branch rx_match c mk a vb mb) in *.
    assert (OBW : ob = true -> ws = true /\ has_filters (ec_branch c) = true /\ pass rx_match (ec_branch c) (var_data mb vb) = true).
    { intro H. subst ob ws. unfold opens_branch in H. apply andb_prop in H. destruct H as (H & H3). apply andb_prop in H. destruct H as (H1 & H2). auto. }
    rewrite (KR kids (inside || ob) (if ob then vb :: st else st) IH PK).
    2:{ destruct ob; [|exact SO']. constructor; [|exact SO']. exists mb. split; [left; reflexivity|]. destruct (OBW eq_refl) as (_ & _ & Y). exact Y. }
    2:{ destruct ob; unfold opened; [rewrite orb_true_r; split; congruence|rewrite orb_false_r; exact OP]. }
    2:{ intro H. destruct ob; [destruct (OBW eq_refl) as (_ & Y & _); exact Y|]. rewrite orb_false_r in H. auto. }
    assert (END : run (mkes marks (if ob then vb :: st else st)) [EvEnd t a ve me] =
      (if ws && (negb (has_filters (ec_branch c)) || (inside || ob)) then [mk_push c KEnd a ve] else [], mkes marks st)).
    { cbn [erun estep]. unfold pre_end. destruct (WE ve me DE) as (W1 & W2). unfold find_marker in *. cbn [es_marks es_stack] in *.
      destruct (negb (existsb (N.eqb (ea_id a)) marks)) eqn:E1.
      { rewrite (W1 (or_introl eq_refl)) in *. destruct ob; [destruct (OBW eq_refl); discriminate|reflexivity]. }
      destruct ((ea_type a =? T_STRING) && negb (pass rx_match (ec_region c) (var_data me ve))) eqn:E2.
      { rewrite (W1 (or_intror eq_refl)) in *. destruct ob; [destruct (OBW eq_refl); discriminate|reflexivity]. }
      destruct ws eqn:Ew; [|destruct (W2 eq_refl); discriminate]. cbn [andb].
      destruct (has_filters (ec_branch c)) eqn:HF; cbn [negb orb].
      2:{ destruct ob; [destruct (OBW eq_refl) as (_ & Y & _); discriminate|reflexivity]. }
      destruct ob eqn:Eo.
      - rewrite EQ, orb_true_r. reflexivity.
      - rewrite orb_false_r. destruct st as [|b st]; [destruct inside; [destruct OP as (OP & _); specialize (OP eq_refl); congruence|reflexivity]|].
        assert (inside = true) as -> by (apply OP; discriminate).
        destruct (var_eq me ve b) eqn:VB; [|reflexivity]. exfalso.
        inversion SO as [|? ? (m0 & I0 & P0) S0]; subst.
        inversion ST as [|? ? T1 T2]; subst. rewrite Forall_forall in T2. specialize (T2 _ I0). cbn [fst snd] in T2.
        rewrite <- T2, <- (var_eq_data _ _ _ VB), DE in P0.
        subst ob. unfold opens_branch in Eo. fold ws in Eo. rewrite Ew, HF, P0 in Eo. discriminate. }
    rewrite END. cbn [app]. reflexivity.
Qed.

Lemma run_items l : forall st0, all_proper rx_match c mk [] l -> st0 = [] ->
  run (mkes marks st0) (flat_map events l) = (flat_map (expected rx_match c mk false) l, mkes marks []).
Proof.
  induction l as [|i l IH]; intros st0 H ->; [reflexivity|]. inversion H as [|? ? H1 H2]; subst.
  cbn [flat_map]. rewrite erun_app, (run_item i [] false []); auto; [|constructor|split; congruence|discriminate].
  rewrite IH; auto.
Qed.
End RX.
