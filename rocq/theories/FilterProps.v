(* C34: WHERE conditions.  C35: LET operators. *)
From Verif Require Import Base VariantModel VariantSpec NamesModel NamesProps TextModel TreeModel TreeProofs CaliFileModel CaliFileProofs2 CaliFileProofs4 ArithSpec FloatModel AggModel AggSpec AggProofs2 AggProofs3 AggProofs5 AggProps3 FilterModel FilterSpec FilterProofs FilterProofs2 FilterProofs3.
Open Scope N_scope.

(* C34: a record passes the filter exactly when it satisfies every condition *)
Theorem C34_filter parse d cs rec : wf d -> size_ok d -> Forall (entry_ok d) rec -> Forall (comparable parse d rec) cs ->
  pass parse d cs rec = true <-> Forall (satisfies parse d rec) cs.
Proof. intros Hw Hs Hr Hc. exact (pass_spec d Hw Hs parse rec cs Hr Hc). Qed.
(* the output is the sublist of the passing records, in order *)
Theorem C34_select parse d cs recs : wf d -> size_ok d -> Forall (Forall (entry_ok d)) recs -> (forall r, In r recs -> Forall (comparable parse d r) cs) ->
  keep (fun r => Forall (satisfies parse d r) cs) recs (select parse d cs recs).
Proof.
  intros Hw Hs Hr Hc. unfold select. apply keep_filter. intros r Hin. rewrite Forall_forall in Hr. exact (pass_spec d Hw Hs parse r cs (Hr r Hin) (Hc r Hin)).
Qed.
(* exist / not exist and equal / not equal split the records *)
Theorem C34_complement parse d rec s t : wf d -> size_ok d -> Forall (entry_ok d) rec ->
  pass parse d [mkcond ONotExist s t] rec = negb (pass parse d [mkcond OExist s t] rec) /\
  pass parse d [mkcond ONotEqual s t] rec = negb (pass parse d [mkcond OEqual s t] rec).
Proof. intros _ _ _. unfold pass. cbn [forallb pass1 c_op]. unfold clause_attr, clause_value. cbn [c_name c_text]. rewrite !andb_true_r. split; reflexivity. Qed.
(* an attribute no record carries, in particular an unknown one: exist, =, <, >, <=, >= fail, not exist and /= hold *)
Theorem C34_absent parse d rec c : wf d -> size_ok d -> Forall (entry_ok d) rec -> (forall a v, get_attr d (c_name c) = Some a -> ~ carries d rec a v) ->
  pass parse d [c] rec = match c_op c with ONone | ONotExist | ONotEqual => true | _ => false end.
Proof.
  intros Hw Hs Hr Hn. assert (Hc : comparable parse d rec c). { unfold comparable. destruct (c_op c); auto; intros a v E H; exfalso; exact (Hn a v E H). }
  unfold pass. cbn [forallb]. rewrite andb_true_r. assert (S := pass1_spec d Hw Hs parse rec c Hr Hc).
  unfold satisfies in S. cbv zeta in S. destruct (c_op c); destruct (pass1 parse d rec c); try reflexivity; exfalso.
  all: destruct S as (S1 & S2); first [(assert (Q := S2 Logic.I); discriminate Q) | (destruct (S1 eq_refl) as (a & v & E & H & _); exact (Hn a v E H)) | (assert (Q : false = true); [apply S2; intros (a & v & E & H & _); exact (Hn a v E H)|discriminate Q])].
Qed.
Lemma ref_imm i a v : ERef i = EImm a v -> False. Proof. discriminate. Qed.
Lemma ref_inj i j : ERef i = ERef j -> i = j. Proof. intro H. injection H. auto. Qed.
Lemma imm_inj a b v w : EImm a v = EImm b w -> v = w. Proof. intro H. injection H. auto. Qed.
Lemma some_inj (a b : N) : Some a = Some b -> a = b. Proof. intro H. injection H. auto. Qed.
Lemma pair_snd (a b : N) (v w : value) : (a, v) = (b, w) -> v = w. Proof. intro H. injection H. auto. Qed.
Lemma pair_fst (a b : N) (v w : value) : (a, v) = (b, w) -> a = b. Proof. intro H. injection H. auto. Qed.
(* Refuted: the ordering conditions order all values.  Integers that differ by 2^31 or more are ordered
   wrongly: x = 3000000000 passes x < 0, because the comparison result is truncated to an int. *)
Definition ps (ty : N) (s : bytes) : value := from_string (fun _ => None) ty s.
Theorem C34_large_difference_refuted : exists d rec c v, wf d /\ size_ok d /\ Forall (entry_ok d) rec /\ carries d rec (match get_attr d (c_name c) with Some a => a | None => 0 end) v /\
  (forall w, carries d rec (match get_attr d (c_name c) with Some a => a | None => 0 end) w -> w = v) /\ c_op c = OLess /\ vorder v (clause_value ps d c) = Gt /\ pass ps d [c] rec = true.
Proof.
  destruct exd_wf as (W & S). exists exd, [xi 3000000000], (mkcond OLess xn [48]), (VInt 3000000000). split; [exact W|]. split; [exact S|]. split; [|].
  - constructor; [|constructor]. vm_compute. reflexivity.
  - cbn [c_name c_op]. assert (E : get_attr exd xn = Some xa) by (vm_compute; reflexivity). rewrite E. split; [left; left; reflexivity|]. split.
    + intros w [[Q|[]]|(i & p & [Q|[]] & _)]; [apply imm_inj in Q; symmetry; exact Q|exfalso; exact (ref_imm _ _ _ (eq_sym Q))].
    + split; [reflexivity|]. split; vm_compute; reflexivity.
Qed.
(* Refuted: < and >= split the records.  A region path m/f/b has names both below and above "c". *)
Theorem C34_less_greater_refuted : exists d rec s t, wf d /\ size_ok d /\ Forall (entry_ok d) rec /\ Forall (comparable ps d rec) [mkcond OLess s t; mkcond OGreaterEq s t] /\
  pass ps d [mkcond OLess s t] rec = true /\ pass ps d [mkcond OGreaterEq s t] rec = true.
Proof.
  destruct exd_wf as (W & S). exists exd, [ERef n_b], rn, [99]. split; [exact W|]. split; [exact S|].
  assert (Hr : Forall (entry_ok exd) [ERef n_b]) by (constructor; [apply entry_okb_ok; [apply W|exact S|vm_compute; reflexivity]|constructor]).
  split; [exact Hr|]. split; [|split; vm_compute; reflexivity].
  assert (E : get_attr exd rn = Some ra) by (vm_compute; reflexivity). assert (T : attr_type exd ra = T_STRING) by (vm_compute; reflexivity).
  assert (C : forall a v, get_attr exd rn = Some a -> carries exd [ERef n_b] a v -> in_range v /\ in_range (ps (attr_type exd a) [99]) /\ cmp_exact v (ps (attr_type exd a) [99])).
  { intros a v Q. rewrite E in Q. apply some_inj in Q. subst a. rewrite T. intros [[Q|[]]|(i & p & [Q|[]] & Hp & Hx)]; [exfalso; exact (ref_imm _ _ _ Q)|]. apply ref_inj in Q. subst i.
    assert (Lt : n_b < N.of_nat (length (d_nodes exd))) by (vm_compute; reflexivity). assert (Np := node_path_ok exd n_b p (proj1 W) S Hp (lt_not_inv exd S n_b Lt)).
    assert (Nv : node_path exd n_b = [(ra, bn); (ra, fn); (ra, mn)]) by (vm_compute; reflexivity). rewrite Nv in Np. apply in_rev in Hx. rewrite <- Np in Hx.
    destruct Hx as [Q|[Q|[Q|[]]]]; apply pair_snd in Q; subst v; change (ps T_STRING [99]) with (VStr [99]); cbn [in_range cmp_exact bn fn mn]; (split; [exact Logic.I|split; [exact Logic.I|intros [Q|[]]; discriminate Q]]). }
  constructor; [exact C|constructor; [exact C|constructor]].
Qed.
(* a concrete filter: records in region f with x > 4 *)
Definition exconds : list cond := [mkcond OEqual rn [102]; mkcond OGreater xn [52]].
Example C34_example : wf exd /\ size_ok exd /\ Forall (Forall (entry_ok exd)) exrecs /\ (forall r, In r exrecs -> Forall (comparable ps exd r) exconds) /\ select ps exd exconds exrecs = [[ERef n_b; xi 5]; [xi 7; ERef n_b]].
Proof.
  destruct exd_wf as (W & S). split; [exact W|]. split; [exact S|]. split; [apply recs_okb; [apply W|exact S|vm_compute; reflexivity]|]. split; [|vm_compute; reflexivity].
  intros r Hr. constructor; [exact Logic.I|]. constructor; [|constructor]. unfold comparable. cbn [c_op exconds]. intros a v Q Hc. cbn [c_name c_text] in *.
  assert (E : get_attr exd xn = Some xa) by (vm_compute; reflexivity). rewrite E in Q. apply some_inj in Q. subst a. assert (T : ps (attr_type exd xa) [52] = VInt 4) by (vm_compute; reflexivity). rewrite T.
  assert (V : exists z, In (xi z) r /\ v = VInt z).
  { destruct Hc as [Hc|(i & p & Hi & Hp & Hx)].
    - destruct Hr as [<-|[<-|[<-|[<-|[]]]]]; destruct Hc as [Hc|[Hc|[]]]; first [exfalso; exact (ref_imm _ _ _ Hc)|apply imm_inj in Hc; subst v; eexists; split; [|reflexivity]; first [left; reflexivity|right; left; reflexivity]].
    - exfalso. assert (Ln : i = n_m \/ i = n_b) by (destruct Hr as [<-|[<-|[<-|[<-|[]]]]]; destruct Hi as [Q|[Q|[]]]; first [exfalso; exact (ref_imm _ _ _ (eq_sym Q))|apply ref_inj in Q; auto]).
      assert (Lt : i < N.of_nat (length (d_nodes exd))) by (destruct Ln as [->| ->]; vm_compute; reflexivity). assert (Np := node_path_ok exd i p (proj1 W) S Hp (lt_not_inv exd S i Lt)).
      apply in_rev in Hx. rewrite <- Np in Hx. assert (F : forallb (fun x => negb (fst x =? xa)) (node_path exd i) = true) by (destruct Ln as [->| ->]; vm_compute; reflexivity).
      rewrite forallb_forall in F. specialize (F _ Hx). cbn [fst] in F. rewrite N.eqb_refl in F. discriminate F. }
  destruct V as (z & Hz & ->). assert (-2 <= z <= 10)%Z by (destruct Hr as [<-|[<-|[<-|[<-|[]]]]]; destruct Hz as [Q|[Q|[]]]; unfold xi in Q; first [exfalso; exact (ref_imm _ _ _ Q)|apply imm_inj in Q; injection Q as <-; lia]).
  cbn [in_range cmp_exact]. unfold s64_ok. lia.
Qed.

(* C35 *)
Lemma let_passes_spec parse d l rec : wf d -> size_ok d -> Forall (entry_ok d) rec -> comparable parse d rec (l_cond l) -> let_passes parse d l rec = true <-> satisfies parse d rec (l_cond l).
Proof.
  intros Hw Hs Hr Hc. assert (Q : let_passes parse d l rec = pass1 parse d rec (l_cond l)).
  { unfold let_passes, pass. cbn [forallb]. rewrite andb_true_r. destruct (c_op (l_cond l)) eqn:E; try reflexivity. unfold pass1. rewrite E. reflexivity. }
  rewrite Q. exact (pass1_spec d Hw Hs parse rec (l_cond l) Hr Hc).
Qed.
Lemma let1_ext d tgt op rec rec' d' : let1 d tgt op rec = Some (rec', d') -> dext d d'.
Proof.
  assert (A : forall ty prop v r e, add_entry d tgt ty prop rec v = (r, e) -> dext d e).
  { intros ty prop v r e. unfold add_entry. assert (X := create_attribute_ext d tgt ty prop). destruct (create_attribute d tgt ty prop) as (a, d1). cbn [snd] in X. intro Q. injection Q as <- <-. exact X. }
  assert (B : forall ty prop v, Some (add_entry d tgt ty prop rec v) = Some (rec', d') -> dext d d') by (intros ty prop v Q; injection Q as Q; exact (A _ _ _ _ _ Q)).
  assert (C : Some (rec, d) = Some (rec', d') -> dext d d') by (intro Q; injection Q as _ <-; apply dext_refl).
  destruct op as [xn0 xd sc|x sc|x f|xs|xs| |x]; cbn [let1].
  - destruct (get_value d xn0 rec); try exact C; destruct (get_value d xd rec); try exact C; match goal with |- context [if ?b then _ else _] => destruct b end; first [apply B|exact C].
  - destruct (get_value d x rec); first [apply B|exact C].
  - destruct (get_value d x rec); try exact C; match goal with |- match ?b with Some _ => _ | None => _ end = _ -> _ => destruct b end; first [apply B|discriminate].
  - destruct (first_of d xs rec) as [(x, v)|]; first [apply B|exact C].
  - destruct (fold_left _ xs VInv); first [apply B|exact C].
  - assert (X := create_attribute_ext d tgt T_STRING LETPROP). destruct (create_attribute d tgt T_STRING LETPROP) as (a, d1). cbn [snd] in X. destruct (leaf_value _ _ rec); intro Q; injection Q as _ <-; exact X.
  - destruct (get_attr d x) as [t|]; [|exact C]. assert (X := create_attribute_ext d tgt (attr_type d t) (Z.land (Z.lor LETPROP (attr_props d t)) (Z.lnot NESTED))). destruct (create_attribute d tgt (attr_type d t) _) as (a, d1). cbn [snd] in X. destruct (leaf_value _ _ rec); intro Q; injection Q as _ <-; exact X.
Qed.
Lemma preprocess_ext parse ls : forall d rec rec' d', preprocess parse d ls rec = Some (rec', d') -> dext d d'.
Proof.
  induction ls as [|l ls IH]; intros d rec rec' d'; cbn [preprocess]; [intro Q; injection Q as _ <-; apply dext_refl|].
  destruct (let_passes parse d l rec); [|apply IH]. destruct (let1 d (l_target l) (l_op l) rec) as [(rec1, d1)|] eqn:E; [|discriminate]. intro H. eapply dext_trans; [exact (let1_ext _ _ _ _ _ _ E)|exact (IH _ _ _ _ H)].
Qed.
(* every operator whose condition holds and which has a value for the record as it is then (with the entries
   of the earlier operators) appends one entry for its target attribute; nothing else changes *)
Theorem C35_let parse ls d rec rec' d' : wf d -> types_ok d -> Forall (entry_ok d) rec -> size_ok d' ->
  (forall pre l post rk dk, ls = pre ++ l :: post -> preprocess parse d pre rec = Some (rk, dk) -> comparable parse dk rk (l_cond l)) ->
  preprocess parse d ls rec = Some (rec', d') -> let_steps parse ls d rec d' rec' /\ wf d' /\ grow d d' /\ Forall (entry_ok d') rec'.
Proof.
  revert d rec. induction ls as [|l ls IH]; intros d rec Hw Ht Hr Hs' Hc H; cbn [preprocess] in H.
  - injection H as <- <-. split; [constructor|]. split; [exact Hw|]. split; [apply grow_refl|exact Hr].
  - assert (Hs : size_ok d). { eapply size_dext; [|exact Hs']. apply (preprocess_ext parse (l :: ls) d rec rec' d'). cbn [preprocess]. exact H. }
    assert (P := let_passes_spec parse d l rec Hw Hs Hr (Hc [] l ls rec d eq_refl eq_refl)). destruct (let_passes parse d l rec) eqn:El.
    + destruct (let1 d (l_target l) (l_op l) rec) as [(rec1, d1)|] eqn:E1; [|discriminate]. assert (Hs1 : size_ok d1) by (exact (size_dext d1 d' (preprocess_ext parse ls d1 rec1 rec' d' H) Hs')).
      destruct (let1_ok d (l_target l) (l_op l) rec rec1 d1 Hw Ht Hr Hs1 E1) as (W1 & G1 & T1 & Eff).
      assert (R1 : Forall (entry_ok d1) rec1).
      { assert (R0 := entries_grow d d1 rec Hw Hs1 G1 Hr). destruct Eff as [(v & a & _ & A & ->)|(-> & _)]; [|exact R0]. rewrite Forall_app. split; [exact R0|]. constructor; [|constructor]. exact (get_attr_is d1 (l_target l) a W1 A). }
      destruct (IH d1 rec1 W1 T1 R1 Hs') as (St & W' & G' & R'); [|exact H|].
      { intros pre l' post rk dk E Hp. apply (Hc (l :: pre) l' post rk dk); [rewrite E; reflexivity|]. cbn [preprocess]. rewrite El, E1. exact Hp. }
      split; [|split; [exact W'|split; [exact (grow_trans _ _ _ G1 G')|exact R']]]. econstructor; [|exact St].
      destruct Eff as [(v & a & V & A & ->)|(-> & NV)]; [apply ls_add; [apply P; reflexivity|exact V|exact G1|exact A]|apply ls_none; [right; exact NV|exact G1]].
    + destruct (IH d rec Hw Ht Hr Hs') as (St & W' & G' & R'); [|exact H|].
      { intros pre l' post rk dk E Hp. apply (Hc (l :: pre) l' post rk dk); [rewrite E; reflexivity|]. cbn [preprocess]. rewrite El. exact Hp. }
      split; [|auto]. econstructor; [|exact St]. apply ls_none; [left; intro Q; apply P in Q; discriminate|apply grow_refl].
Qed.
(* the original entries are kept, in order; at most one entry is added per operator, each an immediate entry
   for the target attribute of an operator *)
Theorem C35_keeps parse ls d rec rec' d' : wf d -> types_ok d -> Forall (entry_ok d) rec -> size_ok d' ->
  (forall pre l post rk dk, ls = pre ++ l :: post -> preprocess parse d pre rec = Some (rk, dk) -> comparable parse dk rk (l_cond l)) ->
  preprocess parse d ls rec = Some (rec', d') ->
  exists add, rec' = rec ++ add /\ (length add <= length ls)%nat /\ Forall (fun e => exists l a v, In l ls /\ e = EImm a v /\ get_attr d' (l_target l) = Some a) add.
Proof.
  intros Hw Ht Hr Hs' Hc H. destruct (C35_let parse ls d rec rec' d' Hw Ht Hr Hs' Hc H) as (St & _ & _). clear -St.
  induction St as [d rec|l ls d rec d1 rec1 d2 rec2 S St IH].
  - exists []. rewrite app_nil_r. repeat split; auto.
  - assert (G : grow d1 d2). { clear -St. induction St as [|l0 ls0 a ra0 b rb c rc S St IH]; [apply grow_refl|]. eapply grow_trans; [|exact IH]. destruct S; assumption. }
    destruct IH as (add & -> & Hl & F). assert (F' : Forall (fun e => exists l0 a v, In l0 (l :: ls) /\ e = EImm a v /\ get_attr d2 (l_target l0) = Some a) add).
    { eapply Forall_impl; [|exact F]. intros e (l0 & a & v & Hi & Q). exists l0, a, v. split; [right; exact Hi|exact Q]. }
    destruct S as [d rec d1 a v _ _ _ A|d rec d1 _ _].
    + exists (EImm a v :: add). rewrite <- app_assoc. split; [reflexivity|]. cbn [length]. split; [lia|]. constructor; [|exact F']. exists l, a, v. split; [left; reflexivity|]. split; [reflexivity|]. exact (gr_keep _ _ G _ _ A).
    + exists add. split; [reflexivity|]. cbn [length]. split; [lia|exact F'].
Qed.
(* Refuted: the value of a target has the type of the target attribute.  first(x, rg) takes the type of the
   attribute found in the first record, so a later record gives a string for an int attribute. *)
Lemma types_okb d : forallb (fun x => attr_type d (snd x) <=? MAXTYPE) (d_attrs d) = true -> types_ok d.
Proof.
  intros Q s a E. rewrite forallb_forall in Q. unfold get_attr in E.
  assert (H : In a (map snd (d_attrs d))). { revert E. clear. generalize (d_attrs d). induction l as [|(k, w) l IH]; cbn [alookup map]; [discriminate|]. destruct (beqb k s); [intro Q'; injection Q' as ->; left; reflexivity|intro Q'; right; exact (IH Q')]. }
  apply in_map_iff in H as (x & Ex & Hx). specialize (Q x Hx). rewrite Ex in Q. apply N.leb_le in Q. exact Q.
Qed.
Definition tn : bytes := [116].
Definition ltf : letspec := mklet tn (LFirst [xn; rn]) (mkcond ONone [] []).
Theorem C35_type_refuted : exists d l rec1 rec2 rec1' d1 rec2' d2 a v, wf d /\ types_ok d /\ Forall (entry_ok d) rec1 /\ Forall (entry_ok d) rec2 /\
  preprocess ps d [l] rec1 = Some (rec1', d1) /\ preprocess ps d1 [l] rec2 = Some (rec2', d2) /\ In (EImm a v) rec2' /\ get_attr d2 (l_target l) = Some a /\ val_type v <> attr_type d2 a.
Proof.
  destruct exd_wf as (W & S).
  assert (X : exists rec1' d1 rec2' d2 a v, preprocess ps exd [ltf] [xi 1] = Some (rec1', d1) /\ preprocess ps d1 [ltf] [ERef n_b] = Some (rec2', d2) /\ In (EImm a v) rec2' /\ get_attr d2 (l_target ltf) = Some a /\ val_type v <> attr_type d2 a).
  { destruct (preprocess ps exd [ltf] [xi 1]) as [(r1, d1)|] eqn:E1; [|exfalso; vm_compute in E1; discriminate E1]. vm_compute in E1. injection E1 as <- <-.
    eexists _, _, _, _, _, _. split; [reflexivity|]. split; [vm_compute; reflexivity|]. split; [right; left; reflexivity|]. split; [vm_compute; reflexivity|vm_compute; discriminate]. }
  destruct X as (r1 & d1 & r2 & d2 & a & v & H). exists exd, ltf, [xi 1], [ERef n_b], r1, d1, r2, d2, a, v. split; [exact W|]. split; [|split; [|split; [|exact H]]].
  - apply types_okb. vm_compute. reflexivity.
  - constructor; [apply entry_okb_ok; [apply W|exact S|vm_compute; reflexivity]|constructor].
  - constructor; [apply entry_okb_ok; [apply W|exact S|vm_compute; reflexivity]|constructor].
Qed.
(* a concrete case: LET t = truncate(x, 4) where rg = f, u = scale(t, 2.0), w = leaf() *)
Definition exlets : list letspec :=
  [mklet tn (LTruncate xn 4616189618054758400) (mkcond OEqual rn [102]); mklet [117] (LScale tn 4611686018427387904) (mkcond ONone [] []); mklet [119] LLeaf (mkcond ONone [] [])].
Definition exlet_db : mdb := Eval vm_compute in match preprocess ps exd exlets [ERef n_b; xi 7] with Some (_, d) => d | None => db_init end.
Example C35_example : types_ok exd /\ size_ok exlet_db /\ (forall l, In l exlets -> c_op (l_cond l) = OEqual \/ c_op (l_cond l) = ONone) /\
  exists a b c, preprocess ps exd exlets [ERef n_b; xi 7] = Some ([ERef n_b; xi 7; EImm a (VInt 4); EImm b (VDouble 4620693217682128896); EImm c (VStr [98])], exlet_db) /\
  get_attr exlet_db tn = Some a /\ get_attr exlet_db [117] = Some b /\ get_attr exlet_db [119] = Some c.
Proof.
  split; [apply types_okb; vm_compute; reflexivity|]. split; [unfold size_ok; vm_compute; discriminate|]. split.
  - intros l [<-|[<-|[<-|[]]]]; cbn; auto.
  - eexists _, _, _. split; [vm_compute; reflexivity|]. vm_compute. repeat split; reflexivity.
Qed.
