(* C49: snapshots of the event service *)
From Coq Require Import Sorting.Permutation.
From Verif Require Import Base VariantModel RFilterModel RFilterProofs RuntimeModel EventModel EventSpec EventProofs.
Open Scope N_scope.

Lemma level_div p : N.shiftr (N.land p P_LEVEL_MASK) 16 = (p / 65536) mod 8.
Proof.
  apply N.bits_inj. intro i. rewrite N.shiftr_spec', N.land_spec. change 8 with (2 ^ 3). change 65536 with (2 ^ 16).
  destruct (N.lt_ge_cases i 3) as [L|L].
  - rewrite N.mod_pow2_bits_low, N.div_pow2_bits by exact L.
    assert (N.testbit P_LEVEL_MASK (i + 16) = true) as ->; [|apply andb_true_r].
    assert (i = 0 \/ i = 1 \/ i = 2) as [->|[->| ->]] by lia; reflexivity.
  - rewrite N.mod_pow2_bits_high by exact L.
    assert (N.testbit P_LEVEL_MASK (i + 16) = false) as ->; [|apply andb_false_r].
    apply N.bits_above_log2. change (N.log2 P_LEVEL_MASK) with 18. lia.
Qed.
Lemma mem_iff x l : existsb (N.eqb x) l = true <-> In x l.
Proof.
  rewrite existsb_exists. split; [intros (y & H1 & H2); apply N.eqb_eq in H2; subst; exact H1|].
  intro H. exists x. split; [exact H|apply N.eqb_refl].
Qed.
Lemma check_spec c s a : let s' := check_attribute c s a in
  es_stack s' = es_stack s /\ (forall id, In id (es_marks s') <-> In id (es_marks s) \/ (id = ea_id a /\ eligible c a)).
Proof.
  cbv zeta. unfold check_attribute.
  assert (EL : eligible c a <-> (ea_id a <? 12) || has_flag (ea_prop a) P_SKIP_EVENTS = false /\
     (0 <? length (ec_names c))%nat && negb (existsb (eqb_bytes (ea_name a)) (ec_names c)) = false /\ (ea_level a <? ec_level c) = false).
  { unfold eligible, ea_level. rewrite level_div, orb_false_iff, N.ltb_ge, has_flag_iff, N.ltb_ge, andb_false_iff, negb_false_iff, existsb_exists, Nat.ltb_ge.
    assert (X : ec_names c = [] \/ In (ea_name a) (ec_names c) <-> (length (ec_names c) <= 0)%nat \/ (exists x, In x (ec_names c) /\ eqb_bytes (ea_name a) x = true)).
    { split; (intros [H|H]; [left|right]).
      - rewrite H. cbn. lia.
      - exists (ea_name a). split; [exact H|apply eqb_bytes_spec; reflexivity].
      - destruct (ec_names c); [reflexivity|cbn in H; lia].
      - destruct H as (x & H1 & H2). apply eqb_bytes_spec in H2. subst. exact H1. }
    rewrite X. tauto. }
  destruct ((ea_id a <? 12) || has_flag (ea_prop a) P_SKIP_EVENTS).
  { split; [reflexivity|]. intro id. rewrite EL. intuition discriminate. }
  destruct ((0 <? length (ec_names c))%nat && negb (existsb (eqb_bytes (ea_name a)) (ec_names c))).
  { split; [reflexivity|]. intro id. rewrite EL. intuition discriminate. }
  destruct (ea_level a <? ec_level c).
  { split; [reflexivity|]. intro id. rewrite EL. intuition discriminate. }
  cbn [es_stack es_marks]. split; [reflexivity|]. intro id.
  assert (E : eligible c a) by (apply EL; auto).
  destruct (existsb (N.eqb (ea_id a)) (es_marks s)) eqn:M.
  - apply mem_iff in M. split; [auto|]. intros [H|(-> & _)]; auto.
  - cbn [In]. split; [intros [<-|H]; auto|]. intros [H|(-> & _)]; auto.
Qed.
Lemma on_spec c s a : let s' := on_attribute c s a in
  es_stack s' = es_stack s /\ (forall id, In id (es_marks s') <-> In id (es_marks s) \/ (id = ea_id a /\ ea_sub a = false /\ eligible c a)).
Proof.
  cbv zeta. unfold on_attribute. destruct (ea_sub a).
  - split; [reflexivity|]. intro id. intuition discriminate.
  - destruct (check_spec c s a) as (H1 & H2). split; [exact H1|]. intro id. rewrite H2. intuition.
Qed.
Lemma init_spec c attrs : forall s, es_stack (fold_left (on_attribute c) attrs s) = es_stack s /\
  (forall id, In id (es_marks (fold_left (on_attribute c) attrs s)) <->
    In id (es_marks s) \/ exists a, In a attrs /\ id = ea_id a /\ ea_sub a = false /\ eligible c a).
Proof.
  induction attrs as [|a l IH]; intro s; cbn [fold_left].
  - split; [reflexivity|]. intro id. split; [auto|]. intros [H|(a & [] & _)]; exact H.
  - destruct (IH (on_attribute c s a)) as (H1 & H2). destruct (on_spec c s a) as (H3 & H4).
    split; [congruence|]. intro id. rewrite H2, H4. split.
    + intros [[H|H]|(b & H)]; [auto|right; exists a; split; [left; reflexivity|exact H]|].
      right. exists b. split; [right; apply H|apply H].
    + intros [H|(b & [<-|H] & R)]; [auto|auto|]. right. exists b. auto.
Qed.

Section RX.
Variable rx_match : bytes -> bytes -> bool.
Notation run := (erun rx_match).
(* what a definition event marks *)
Definition marks_it (c : ecfg) (e : eev) (id : N) : Prop :=
  exists a, id = ea_id a /\ eligible c a /\ (e = EvSubscribe a \/ (e = EvCreate a /\ ea_sub a = false)).
Lemma step_marks c s e : let s' := snd (estep rx_match c s e) in
  forall id, In id (es_marks s') <-> In id (es_marks s) \/ marks_it c e id.
Proof.
  cbv zeta. intro id. destruct e as [a|a|t a v m|t a v m|t a v m]; cbn [estep snd].
  - destruct (on_spec c s a) as (_ & H). rewrite H. apply or_iff_compat_l. unfold marks_it. split.
    + intros (-> & H1 & H2). exists a. auto.
    + intros (b & -> & H1 & [H2|(H2 & H3)]); inversion H2; subst; auto.
  - destruct (check_spec c s a) as (_ & H). rewrite H. apply or_iff_compat_l. unfold marks_it. split.
    + intros (-> & H1). exists a. auto.
    + intros (b & -> & H1 & [H2|(H2 & H3)]); inversion H2; subst; auto.
  - assert (X : es_marks (snd (pre_open rx_match c KBegin s a v m)) = es_marks s).
    { unfold pre_open. repeat match goal with |- context [if ?b then _ else _] => destruct b end; try reflexivity.
      all: try (destruct (es_stack s); reflexivity). }
    rewrite X. split; [auto|]. intros [H|(b & _ & _ & [H|(H & _)])]; [exact H|discriminate|discriminate].
  - assert (X : es_marks (snd (pre_open rx_match c KSet s a v m)) = es_marks s).
    { unfold pre_open. repeat match goal with |- context [if ?b then _ else _] => destruct b end; try reflexivity.
      all: try (destruct (es_stack s); reflexivity). }
    rewrite X. split; [auto|]. intros [H|(b & _ & _ & [H|(H & _)])]; [exact H|discriminate|discriminate].
  - assert (X : es_marks (snd (pre_end rx_match c s a v m)) = es_marks s).
    { unfold pre_end. repeat match goal with |- context [if ?b then _ else _] => destruct b end; try reflexivity.
      all: destruct (es_stack s); try reflexivity. all: cbn [snd]; destruct (var_eq m v c0); reflexivity. }
    rewrite X. split; [auto|]. intros [H|(b & _ & _ & [H|(H & _)])]; [exact H|discriminate|discriminate].
Qed.
Lemma run_marks c h : forall s id, In id (es_marks (snd (run c s h))) <-> In id (es_marks s) \/ exists e, In e h /\ marks_it c e id.
Proof.
  induction h as [|e h IH]; intros s id; cbn [erun].
  - cbn. split; [auto|]. intros [H|(e & [] & _)]; exact H.
  - pose proof (step_marks c s e id) as ST. cbv zeta in ST. destruct (estep rx_match c s e) as (o, s1). cbn [snd] in ST.
    specialize (IH s1 id). destruct (run c s1 h) as (os, s2). cbn [snd] in *. rewrite IH, ST. split.
    + intros [[H|H]|(x & H1 & H2)]; [auto|right; exists e; split; [left; reflexivity|exact H]|right; exists x; split; [right; exact H1|exact H2]].
    + intros [H|(x & [<-|H1] & H2)]; [auto|auto|]. right. exists x. auto.
Qed.
(* region events only depend on the mark of their own attribute *)
Lemma step_local c s1 s2 e a : use_of e = Some a -> es_stack s1 = es_stack s2 -> find_marker s1 a = find_marker s2 a ->
  fst (estep rx_match c s1 e) = fst (estep rx_match c s2 e) /\ es_stack (snd (estep rx_match c s1 e)) = es_stack (snd (estep rx_match c s2 e)) /\
  es_marks (snd (estep rx_match c s2 e)) = es_marks s2.
Proof.
  intros U ES FM. destruct e as [x|x|t x v m|t x v m|t x v m]; cbn in U; try discriminate; injection U as ->; cbn [estep].
  - unfold pre_open. rewrite FM, ES. destruct (negb (find_marker s2 a)); [auto|].
    destruct ((ea_type a =? T_STRING) && negb (pass rx_match (ec_region c) (var_data m v))); [auto|].
    destruct (has_filters (ec_branch c)); [|auto].
    destruct (pass rx_match (ec_branch c) (var_data m v)); destruct (es_stack s2); auto.
  - unfold pre_open. rewrite FM, ES. destruct (negb (find_marker s2 a)); [auto|].
    destruct ((ea_type a =? T_STRING) && negb (pass rx_match (ec_region c) (var_data m v))); [auto|].
    destruct (has_filters (ec_branch c)); [|auto].
    destruct (pass rx_match (ec_branch c) (var_data m v)); destruct (es_stack s2); auto.
  - unfold pre_end. rewrite FM, ES. destruct (negb (find_marker s2 a)); [auto|].
    destruct ((ea_type a =? T_STRING) && negb (pass rx_match (ec_region c) (var_data m v))); [auto|].
    destruct (has_filters (ec_branch c)); [|auto].
    destruct (es_stack s2) as [|b r] eqn:E2; [cbn [fst snd]; rewrite ?ES, ?E2; auto|]. cbn [fst snd].
    destruct (var_eq m v b); cbn [es_stack es_marks]; rewrite ?ES, ?E2; auto.
Qed.
Lemma run_regions c M h : forall s s2,
  (forall h1 e h2 a, h = h1 ++ e :: h2 -> use_of e = Some a -> forall d b, In d h2 -> def_of d = Some b -> ea_id b <> ea_id a) ->
  (forall id, In id M <-> In id (es_marks (snd (run c s h)))) -> es_stack s = es_stack s2 -> es_marks s2 = M ->
  fst (run c s h) = fst (run c s2 (region_events h)) /\ es_stack (snd (run c s h)) = es_stack (snd (run c s2 (region_events h))).
Proof.
  induction h as [|e h IH]; intros s s2 DF MM ES EM; [cbn; auto|].
  assert (DF' : forall h1 x h2 a, h = h1 ++ x :: h2 -> use_of x = Some a -> forall d b, In d h2 -> def_of d = Some b -> ea_id b <> ea_id a).
  { intros h1 x h2 a E. apply (DF (e :: h1) x h2 a). rewrite E. reflexivity. }
  unfold region_events. cbn [filter]. destruct (use_of e) as [a|] eqn:U.
  - cbn [erun]. change (filter (fun e0 => match use_of e0 with Some _ => true | None => false end) h) with (region_events h).
    assert (FM : find_marker s a = find_marker s2 a).
    { assert (X : In (ea_id a) (es_marks s) <-> In (ea_id a) M).
      { rewrite MM, (run_marks c (e :: h) s). split; [auto|]. intros [H|(x & [<-|Hx] & (b & Hb & _ & D))]; [exact H| |].
        - destruct D as [->|(-> & _)]; discriminate.
        - exfalso. refine (DF [] e h a eq_refl U x b Hx _ (eq_sym Hb)). destruct D as [->|(-> & _)]; reflexivity. }
      unfold find_marker. rewrite EM. apply eq_true_iff_eq. rewrite !mem_iff. exact X. }
    destruct (step_local c s s2 e a U ES FM) as (S1 & S2 & S3).
    specialize (IH (snd (estep rx_match c s e)) (snd (estep rx_match c s2 e)) DF').
    cbn [erun] in MM. destruct (estep rx_match c s e) as (o1, t1). destruct (estep rx_match c s2 e) as (o2, t2). cbn [fst snd] in *.
    destruct (run c t1 h) as (p1, u1) eqn:R1. destruct (run c t2 (region_events h)) as (p2, u2) eqn:R2. cbn [fst snd] in *.
    destruct IH as (I1 & I2); [exact MM|exact S2|congruence|]. split; congruence.
  - change (filter (fun e0 => match use_of e0 with Some _ => true | None => false end) h) with (region_events h).
    cbn [erun] in *. assert (S0 : fst (estep rx_match c s e) = [] /\ es_stack (snd (estep rx_match c s e)) = es_stack s).
    { destruct e as [x|x|t x v m|t x v m|t x v m]; cbn in U; try discriminate; cbn [estep fst snd]; split; try reflexivity.
      - apply (on_spec c s x). - apply (check_spec c s x). }
    destruct S0 as (S0 & S1). specialize (IH (snd (estep rx_match c s e)) s2 DF').
    destruct (estep rx_match c s e) as (o1, t1). cbn [fst snd] in *. subst o1.
    destruct (run c t1 h) as (p1, u1). cbn [fst snd app] in *. apply IH; [exact MM|congruence|exact EM].
Qed.

(* C49: an attribute triggers iff it is eligible and not an unsubscribed subscription attribute,
   no matter in which order attributes are created and subscribed to *)
Theorem C49_marked : forall c attrs h a, ids_ok attrs h -> mentioned attrs h a ->
  (find_marker (snd (run c (es_init c attrs) h)) a = true <-> triggers c attrs h a).
Proof.
  intros c attrs h a IO MA. unfold find_marker. rewrite mem_iff, run_marks. unfold es_init.
  destruct (init_spec c attrs (mkes [] [])) as (_ & H). rewrite H. unfold triggers. cbn [es_marks In]. split.
  - intros [[[]|(b & B1 & B2 & B3 & B4)]|(e & E1 & (b & B1 & B2 & B3))].
    + assert (a = b) as -> by (apply (IO a b MA (or_introl B1) B2)). auto.
    + assert (a = b) as ->.
      { apply (IO a b MA); [|exact B1]. right. exists e. split; [exact E1|]. right. destruct B3 as [->|(-> & _)]; reflexivity. }
      split; [exact B2|]. destruct B3 as [->|(-> & B3)]; auto.
  - intros (EL & [([D|D] & S)|D]).
    + left. right. exists a. auto.
    + right. exists (EvCreate a). split; [exact D|]. exists a. auto.
    + right. exists (EvSubscribe a). split; [exact D|]. exists a. auto.
Qed.

(* C49: for every configuration and every history whose begin/set/end events form the well-nested
   execution `items`, the service takes exactly the expected snapshots, in order, and the branch
   filter is closed again at the end. *)
Theorem C49_triggers : forall c attrs h items (mk : N -> bool),
  ids_ok attrs h -> defs_first h -> region_events h = flat_map events items ->
  (forall a, mentioned attrs h a -> mk (ea_id a) = true <-> triggers c attrs h a) ->
  all_proper rx_match c mk [] items ->
  fst (run c (es_init c attrs) h) = flat_map (expected rx_match c mk false) items /\
  es_stack (snd (run c (es_init c attrs) h)) = [].
Proof.
  intros c attrs h items mk IO DF RE MK AP.
  set (s0 := es_init c attrs). set (M := es_marks (snd (run c s0 h))).
  assert (S0 : es_stack s0 = []) by (apply (init_spec c attrs (mkes [] []))).
  destruct (run_regions c M h s0 (mkes M [])) as (R1 & R2); auto.
  { intros h1 e h2 a E U d b. apply (DF h1 e h2 a d b E U). }
  { intro id. reflexivity. }
  rewrite R1, R2, RE.
  (* mk and membership in M agree on the attributes in the items *)
  assert (AG : forall a, (exists e, In e (flat_map events items) /\ use_of e = Some a) -> mk (ea_id a) = existsb (N.eqb (ea_id a)) M).
  { intros a (e & E1 & E2). assert (MA : mentioned attrs h a).
    { right. exists e. split; [|auto]. rewrite <- RE in E1. unfold region_events in E1. apply filter_In in E1. apply E1. }
    apply eq_true_iff_eq. rewrite (MK a MA), <- (C49_marked c attrs h a IO MA). reflexivity. }
  assert (EQ : forall i, (forall a, (exists e, In e (events i) /\ use_of e = Some a) -> mk (ea_id a) = existsb (N.eqb (ea_id a)) M) ->
     (forall ins, expected rx_match c mk ins i = expected rx_match c (fun id => existsb (N.eqb id) M) ins i) /\
     (forall enc, proper rx_match c mk enc i -> proper rx_match c (fun id => existsb (N.eqb id) M) enc i)).
  { induction i as [t a v m|t a vb mb kids ve me IH] using item_ind'; intro AGi.
    - assert (X : mk (ea_id a) = existsb (N.eqb (ea_id a)) M) by (apply AGi; eexists; split; [left; reflexivity|reflexivity]).
      split; [intro ins; cbn [expected]; unfold wanted; rewrite X; reflexivity|].
      intro enc. cbn [proper]. unfold opens_branch, wanted. rewrite X. auto.
    - assert (X : mk (ea_id a) = existsb (N.eqb (ea_id a)) M) by (apply AGi; eexists; split; [left; reflexivity|reflexivity]).
      assert (KI : Forall (fun i => (forall ins, expected rx_match c mk ins i = expected rx_match c (fun id => existsb (N.eqb id) M) ins i) /\
         (forall enc, proper rx_match c mk enc i -> proper rx_match c (fun id => existsb (N.eqb id) M) enc i)) kids).
      { apply Forall_forall. intros k Hk. rewrite Forall_forall in IH. apply (IH k Hk). intros b (e & E1 & E2). apply AGi.
        exists e. split; [|exact E2]. cbn [events]. right. apply in_or_app. left. apply in_flat_map. exists k. auto. }
      split.
      + intro ins. cbn [expected]. unfold opens_branch, wanted. rewrite X. f_equal. f_equal.
        clear - KI. induction KI as [|k l [K1 _] _ IHl]; [reflexivity|]. cbn [flat_map]. rewrite K1, IHl. reflexivity.
      + intros enc PR. apply proper_region. 
        assert (PR2 : all_proper rx_match c mk ((vb, mb) :: enc) kids /\ var_eq me ve vb = true /\
          Forall (fun x => var_data me (fst x) = var_data (snd x) (fst x)) ((vb, mb) :: enc)).
        { cbn [proper] in PR. destruct PR as (P1 & P2). split; [|exact P2]. clear - P1. unfold all_proper.
          induction kids as [|k l IHl]; [constructor|]. destruct P1 as (P1 & P2). constructor; auto. }
        destruct PR2 as (P1 & P2). split; [|exact P2]. unfold all_proper in *. clear - P1 KI.
        induction KI as [|k l [_ K2] _ IHl]; [constructor|]. inversion P1; subst. constructor; auto. }
  assert (EQS : flat_map (expected rx_match c mk false) items = flat_map (expected rx_match c (fun id => existsb (N.eqb id) M) false) items /\
     all_proper rx_match c (fun id => existsb (N.eqb id) M) [] items).
  { clear - AP AG EQ. unfold all_proper in *. induction items as [|i l IHl]; [split; [reflexivity|constructor]|].
    inversion AP as [|? ? A1 A2]; subst. destruct (EQ i) as (E1 & E2).
    { intros a (e & X1 & X2). apply AG. exists e. split; [|exact X2]. cbn [flat_map]. apply in_or_app. auto. }
    destruct IHl as (I1 & I2); [exact A2| |].
    { intros a (e & X1 & X2). apply AG. exists e. split; [|exact X2]. cbn [flat_map]. apply in_or_app. auto. }
    cbn [flat_map]. rewrite E1, I1. split; [reflexivity|constructor; auto]. }
  destruct EQS as (Q1 & Q2). rewrite (run_items rx_match c M items [] Q2 eq_refl), Q1. auto.
Qed.

(* C49: for every attribute there are as many begin as end snapshots, and the end snapshots are the
   ones that count a region visit *)
Definition is_info (k : ekind) (id : N) (p : epush) : bool :=
  match p_info p with
  | Some (x, i, _) => (i =? id) && match x, k with KBegin, KBegin | KSet, KSet | KEnd, KEnd => true | _, _ => false end
  | None => false
  end.
Definition count (f : epush -> bool) (l : list epush) : nat := length (filter f l).
Lemma count_app f a b : count f (a ++ b) = (count f a + count f b)%nat.
Proof. unfold count. rewrite filter_app, app_length. reflexivity. Qed.
Theorem C49_balanced : forall c attrs h items (mk : N -> bool) id,
  ids_ok attrs h -> defs_first h -> region_events h = flat_map events items ->
  (forall a, mentioned attrs h a -> mk (ea_id a) = true <-> triggers c attrs h a) ->
  all_proper rx_match c mk [] items ->
  let out := fst (run c (es_init c attrs) h) in
  count (is_info KBegin id) out = count (is_info KEnd id) out /\
  (ec_info c = true -> Forall (fun p => p_count p = true <-> exists i, is_info KEnd i p = true) out).
Proof.
  intros c attrs h items mk id H1 H2 H3 H4 H5. cbv zeta.
  destruct (C49_triggers c attrs h items mk H1 H2 H3 H4 H5) as (-> & _).
  assert (K : forall i ins, count (is_info KBegin id) (expected rx_match c mk ins i) = count (is_info KEnd id) (expected rx_match c mk ins i) /\
     (ec_info c = true -> Forall (fun p => p_count p = true <-> exists i, is_info KEnd i p = true) (expected rx_match c mk ins i))).
  { assert (PC : forall k a v, ec_info c = true -> p_count (mk_push c k a v) = true <-> exists i, is_info KEnd i (mk_push c k a v) = true).
    { intros k a v E. unfold mk_push, is_info. rewrite E. cbn [p_count p_info]. destruct k; split; intro H; try discriminate; try (destruct H as (i & H); rewrite andb_false_r in H; discriminate).
      - exists (ea_id a). rewrite N.eqb_refl. reflexivity. - reflexivity. }
    induction i as [t a v m|t a vb mb kids ve me IH] using item_ind'; intro ins; cbn [expected].
    - split.
      + destruct (_ && _); [|reflexivity]. unfold count, mk_push, is_info. destruct (ec_info c); cbn; rewrite ?andb_false_r; reflexivity.
      + intro E. destruct (_ && _); [|constructor]. constructor; [|constructor]. apply PC. exact E.
    - set (ins' := ins || opens_branch rx_match c mk a vb mb). set (here := wanted rx_match c mk a vb mb && (negb (has_filters (ec_branch c)) || ins')).
      assert (KI : count (is_info KBegin id) (flat_map (expected rx_match c mk ins') kids) = count (is_info KEnd id) (flat_map (expected rx_match c mk ins') kids) /\
        (ec_info c = true -> Forall (fun p => p_count p = true <-> exists i, is_info KEnd i p = true) (flat_map (expected rx_match c mk ins') kids))).
      { induction IH as [|k l Hk _ IHl]; [split; [reflexivity|constructor]|]. cbn [flat_map]. destruct (Hk ins') as (K1 & K2). destruct IHl as (L1 & L2).
        rewrite !count_app. split; [lia|]. intro E. apply Forall_app. auto. }
      destruct KI as (K1 & K2). split.
      + rewrite !count_app, K1. destruct here; [|reflexivity]. unfold count, mk_push, is_info. destruct (ec_info c); cbn; rewrite ?andb_false_r, ?andb_true_r; [|lia].
        destruct (ea_id a =? id); cbn; lia.
      + intro E. apply Forall_app. split; [destruct here; constructor; [apply PC; exact E|constructor]|]. apply Forall_app. split; [auto|].
        destruct here; constructor; [apply PC; exact E|constructor]. }
  clear - K. induction items as [|i l IHl]; [split; [reflexivity|constructor]|]. cbn [flat_map]. destruct (K i false) as (K1 & K2). destruct IHl as (L1 & L2).
  rewrite !count_app. split; [lia|]. intro E. apply Forall_app. auto.
Qed.
End RX.

(* C49: the record of a snapshot holds the context values, each as often as in the context, the
   event information (as innermost element of the path of the region's attribute if it is not stored
   as value) and, for an end event, the count. *)
Lemma sremove_perm {V} (eqb : @sentry V -> sentry -> bool) l e : (forall a b, eqb a b = true <-> a = b) -> In e l ->
  Permutation (flat_map says l) (flat_map says (sremove eqb l e) ++ says e).
Proof.
  intros EQ. induction l as [|x l IH]; intro H; [destruct H|]. cbn [sremove]. destruct (eqb e x) eqn:E.
  - apply EQ in E. subst. cbn [flat_map]. apply Permutation_app_comm.
  - destruct H as [->|H]; [rewrite (proj2 (EQ e e) eq_refl) in E; discriminate|]. cbn [flat_map].
    rewrite <- app_assoc. apply Permutation_app_head. auto.
Qed.
Lemma sremove_len {V} (eqb : @sentry V -> sentry -> bool) l e : (length (sremove eqb l e) <= length l)%nat.
Proof. induction l as [|x l IH]; cbn; [lia|]. destruct (eqb e x); cbn; lia. Qed.
Theorem C49_record : forall (V : Type) (eqb : @sentry V -> sentry -> bool), (forall a b, eqb a b = true <-> a = b) ->
  forall info k id asval v one bb ctx,
  (length ctx + 2 <= SNAP_MAX)%nat ->
  (asval = false -> forall p, bb = Some p -> In (SRef p) ctx) ->
  let rec := push_record eqb info k id asval v one bb ctx in
  Permutation (flat_map says rec)
    (flat_map says ctx ++ (if info then [(AEvent k id, v)] else []) ++ (match k with KEnd => [(ACount, one)] | _ => [] end)) /\
  (info = true -> asval = false -> In (SRef (match bb with Some p => p | None => [] end ++ [(AEvent k id, v)])) rec).
Proof.
  intros V eqb EQ info k id asval v one bb ctx LEN BB. cbv zeta.
  assert (A0 : sappend [] ctx = ctx).
  { unfold sappend. cbn [app length]. rewrite Nat.sub_0_r. apply firstn_all2. lia. }
  assert (A1 : forall l es : list (@sentry V), (length l + length es <= SNAP_MAX)%nat -> sappend l es = l ++ es).
  { intros l es H. unfold sappend. rewrite firstn_all2; [reflexivity|lia]. }
  assert (CN : flat_map says (match k with KEnd => [SImm ACount one] | _ => [] end) = match k with KEnd => [(ACount, one)] | _ => [] end) by (destruct k; reflexivity).
  assert (CL : (length (match k with KEnd => [SImm ACount one] | _ => [] end) <= 1)%nat) by (destruct k; cbn; lia).
  unfold push_record. rewrite A0. destruct info.
  2:{ split; [|discriminate]. rewrite A1 by lia. rewrite flat_map_app, CN. reflexivity. }
  destruct asval.
  - split; [|discriminate]. rewrite A1 by (cbn [length]; lia). rewrite flat_map_app. cbn [flat_map says app]. rewrite CN. reflexivity.
  - destruct bb as [p|].
    + pose proof (sremove_len eqb ctx (SRef p)) as SL. rewrite A1 by (cbn [length]; lia). split.
      * rewrite flat_map_app. cbn [flat_map says]. rewrite CN.
        rewrite (Permutation_app_tail _ (sremove_perm eqb ctx (SRef p) EQ (BB eq_refl p eq_refl))). cbn [says].
        rewrite <- !app_assoc. reflexivity.
      * intros _ _. apply in_or_app. right. left. reflexivity.
    + rewrite A1 by (cbn [length]; lia). split.
      * rewrite flat_map_app. cbn [flat_map says app]. rewrite CN. reflexivity.
      * intros _ _. apply in_or_app. right. left. reflexivity.
Qed.
