(* C30-C33: the hypotheses of the theorems are met: every list of records over a well-formed database gives an
   aggregation; concrete runs; and counterexamples for what does not hold *)
From Verif Require Import Base VariantModel VariantSpec NamesModel NamesProps TextModel TreeModel TreeProofs CaliFileModel CaliFileProofs2 CaliFileProofs3 CaliFileProofs4 FloatModel ArithSpec ArithProofs AggModel AggSpec AggSpec2 AggProofs AggProofs2 AggProofs3 AggProofs4 AggProofs5 AggProofs6 AggProofs7 AggProofs8 AggProofs9 AggProofs10 AggProofs11 AggProps AggProps2.
From Coq Require Import Permutation Sorted.
Open Scope N_scope.

Lemma mk_step_ext d q rec s d1 : mk_step d q rec = (s, d1) -> dext d d1.
Proof.
  intro Em. unfold mk_step in Em. destruct (make_key d q rec) as ((key, anc), d0) eqn:E0. apply make_key_ext in E0. assert (X := match_all_ext rec (q_ker q) d0). destruct (match_all d0 rec (q_ker q)). injection Em as _ <-. eapply dext_trans; eauto.
Qed.
Lemma process_ext q recs : forall st, dext (fst st) (fst (fold_left (process q) recs st)).
Proof.
  induction recs as [|r recs IH]; intros (d, g); cbn [fold_left]; [apply dext_refl|]. eapply dext_trans; [|apply IH]. unfold process. cbn [fst snd]. destruct (mk_step d q r) as (s, d1) eqn:E. cbn [fst]. eapply mk_step_ext; eauto.
Qed.
Lemma exec_arun q recs : forall dn d g, arun q dn d g -> wf d -> Forall (Forall (entry_ok d)) recs -> targets_known d q -> size_ok (fst (fold_left (process q) recs (d, g))) ->
  arun q (dn ++ recs) (fst (fold_left (process q) recs (d, g))) (snd (fold_left (process q) recs (d, g))) /\ grow d (fst (fold_left (process q) recs (d, g))).
Proof.
  induction recs as [|r recs IH]; intros dn d g HA Hw F HT Hs; cbn [fold_left] in *; [rewrite app_nil_r; split; [exact HA|apply grow_refl]|].
  apply Forall_cons_iff in F as (Fr & F). assert (R : rec_ok d q r). { split; auto. intros c x k a e Hc Hn Hx Et _ _ _. exfalso. exact (HT c x Hc Hn Hx Et). }
  assert (X := process_ext q recs (process q (d, g) r)). destruct (process q (d, g) r) as (d1, g1) eqn:EP. cbn [fst] in X. assert (Hs1 := size_dext _ _ X Hs).
  assert (HA1 := ar_add q dn d g r d1 g1 HA R EP). unfold process in EP. cbn [fst snd] in EP. destruct (mk_step d q r) as (s, d1') eqn:Em. injection EP as -> _. destruct (mk_step_ok d q r s d1 Hw R Em Hs1) as (G & W & _).
  change (r :: recs) with ([r] ++ recs). rewrite app_assoc. destruct (IH (dn ++ [r]) d1 g1 HA1 W) as (I1 & I2); auto.
  - eapply Forall_impl; [|exact F]. intros y Hy. exact (entries_grow d d1 y Hw Hs1 G Hy).
  - intros c x Hc Hn Hx. intro E. destruct (get_attr d (fst x)) as [a|] eqn:Ea; [|exact (HT c x Hc Hn Hx Ea)]. rewrite (gr_keep _ _ G _ _ Ea) in E. discriminate.
  - split; [exact I1|]. exact (grow_trans _ _ _ G I2).
Qed.
(* any records of a database whose attributes are known can be aggregated (unless a 32-bit count is zero
   when an average is computed: then flush divides by zero) *)
Theorem C31_any_input q d recs out d' : wf d -> Forall (Forall (entry_ok d)) recs -> targets_known d q -> flush q (aggregate q d recs) = Some (out, d') -> size_ok d' ->
  aggregated q recs out d' /\ grow d d'.
Proof.
  intros Hw F HT HF Hs. unfold aggregate in HF. assert (X : size_ok (fst (fold_left (process q) recs (d, agg_init (q_ker q))))).
  { destruct (fold_left (process q) recs (d, agg_init (q_ker q))) as (d1, g1). cbn [fst]. eapply size_dext; [eapply flush_ext; exact HF|exact Hs]. }
  destruct (exec_arun q recs [] d (agg_init (q_ker q)) (ar_new q d Hw) Hw F HT X) as (A & G). cbn [app] in A.
  destruct (fold_left (process q) recs (d, agg_init (q_ker q))) as (d1, g1) eqn:E. cbn [fst snd] in *. split; [exists d1, g1; auto|]. destruct (arun_wf q recs d1 g1 A X) as (W1 & _). unfold flush in HF. cbn [fst snd] in HF. destruct (flush_ok _ _ _ _ _ _ HF W1 Hs) as (G2 & _). eapply grow_trans; eauto.
Qed.

(* ---------- a concrete database ---------- *)
Definition entry_okb (d : mdb) (e : entry) : bool :=
  match e with EImm a _ => is_attr d a | ERef i => (i <? N.of_nat (length (d_nodes d))) && (i <? INV_ID) && forallb (fun x => negb (fst x =? 8)) (node_path d i) end.
Lemma entry_okb_ok d e : db_ok d -> size_ok d -> entry_okb d e = true -> entry_ok d e.
Proof.
  intros Hd Hs. destruct e as [i|a v]; cbn [entry_okb entry_ok]; auto. intro H. apply andb_true_iff in H as (H & F). apply andb_true_iff in H as (H1 & H2). apply N.ltb_lt in H1, H2. split; auto. intros l Hl.
  assert (Ei : i <> INV_ID) by (intros ->; apply (N.lt_irrefl _ H2)). rewrite (node_path_ok d i l Hd Hs Hl Ei) in F. rewrite forallb_forall in F. apply Forall_forall. intros x Hx. apply in_rev in Hx. apply F in Hx. apply negb_true_iff, N.eqb_neq in Hx. exact Hx.
Qed.
Lemma recs_okb d recs : db_ok d -> size_ok d -> forallb (forallb (entry_okb d)) recs = true -> Forall (Forall (entry_ok d)) recs.
Proof.
  intros Hd Hs H. rewrite forallb_forall in H. apply Forall_forall. intros r Hr. specialize (H r Hr). rewrite forallb_forall in H. apply Forall_forall. intros e He. apply entry_okb_ok; auto.
Qed.
Definition known_b (d : mdb) (q : qspec) : bool := forallb (fun c => no_target c || forallb (fun x => match get_attr d (fst x) with Some _ => true | None => false end) (kattrs c)) (q_ker q).
Lemma known_b_ok d q : known_b d q = true -> targets_known d q.
Proof.
  intros H c x Hc Hn Hx E. unfold known_b in H. rewrite forallb_forall in H. specialize (H c Hc). rewrite Hn in H. cbn [orb] in H. rewrite forallb_forall in H. specialize (H x Hx). rewrite E in H. discriminate.
Qed.
Definition xn : bytes := [120].             (* x *)
Definition rn : bytes := [114;103].         (* rg: a nested region attribute *)
Definition mn : value := VStr [109].        (* regions m, m/f, m/f/b *)
Definition fn : value := VStr [102].
Definition bn : value := VStr [98].
Definition db1 : mdb := snd (create_attribute db_init rn T_STRING 256).
Definition db2 : mdb := snd (create_attribute db1 xn T_INT 1).
Definition ra : N := fst (create_attribute db_init rn T_STRING 256).
Definition xa : N := fst (create_attribute db1 xn T_INT 1).
Definition exd : mdb := snd (make_tree_entry db2 [(ra, mn); (ra, fn); (ra, bn)] ROOT).
Definition n_m : N := fst (make_tree_entry exd [(ra, mn)] ROOT).
Definition n_f : N := fst (make_tree_entry exd [(ra, mn); (ra, fn)] ROOT).
Definition n_b : N := fst (make_tree_entry exd [(ra, mn); (ra, fn); (ra, bn)] ROOT).
Lemma exd_wf : wf exd /\ size_ok exd.
Proof.
  destruct (create_attribute_grow db_init rn T_STRING 256 wf_init) as (_ & W1 & _); [unfold size_ok; vm_compute; discriminate|]. fold db1 in W1.
  destruct (create_attribute_grow db1 xn T_INT 1 W1) as (_ & W2 & _); [unfold size_ok; vm_compute; discriminate|]. fold db2 in W2.
  destruct (mte_ok [(ra, mn); (ra, fn); (ra, bn)] db2 ROOT [] W2) as (_ & W3 & _).
  - assert (E1 : is_attr db2 ra = true) by (vm_compute; reflexivity). assert (E2 : ra <> 8) by (vm_compute; discriminate). constructor; [|constructor; [|constructor; [|constructor]]]; cbn [fst snd]; (split; [exact E1|split; [exact E2|discriminate]]).
  - change ROOT with INV_ID. constructor.
  - unfold size_ok. vm_compute. discriminate.
  - split; [exact W3|]. unfold size_ok. vm_compute. discriminate.
Qed.
(* aggregation by computation *)
Lemma agg_by_compute q recs : forallb (forallb (entry_okb exd)) recs = true -> known_b exd q = true ->
  match flush q (aggregate q exd recs) with Some (out, d') => size_ok d' -> aggregated q recs out d' /\ grow exd d' | None => True end.
Proof.
  intros H1 H2. destruct exd_wf as (W & S). destruct (flush q (aggregate q exd recs)) as [(out, d')|] eqn:E; auto. intro Hs. apply (C31_any_input q exd recs out d'); auto; [apply recs_okb; auto; apply W|apply known_b_ok; auto].
Qed.
Definition xi (z : Z) : entry := EImm xa (VInt z).
Definition exq : qspec := mkq [] false true [CCount; CSum xn false; CSum xn true; CMin xn false; CMax xn false; CAvg xn].
Definition exrecs : list (list entry) := [[ERef n_m; xi 10]; [ERef n_b; xi 5]; [xi 7; ERef n_b]; [ERef n_m; xi (-2)]].
Definition exout : list (list entry) := Eval vm_compute in match flush exq (aggregate exq exd exrecs) with Some (o, _) => o | None => [] end.
Definition exdb : mdb := Eval vm_compute in match flush exq (aggregate exq exd exrecs) with Some (_, d) => d | None => db_init end.
(* four records in regions m and m/f/b: one output record for m, one for m/f/b, and one for m/f that only
   carries the inclusive sum; the counts, sums, minima, maxima, averages are as expected *)
Example C30_example : aggregated exq exrecs exout exdb /\ grow exd exdb /\
  map (map (fun e => match e with EImm a v => (match dnode exdb a with Some n => v_text (n_val n) | None => [] end, v) | ERef i => ([], VUint i) end)) exout =
  [[([], VUint n_m); (n_count, VUint 2); (p_sum ++ xn, VInt 8); (p_incl ++ xn, VInt 20); (p_min ++ xn, VInt (-2)); (p_max ++ xn, VInt 10); (p_avg ++ xn, VInt 4); (p_avgsum ++ xn, VInt 8); (p_avgcnt ++ xn, VUint 2)];
   [([], VUint n_b); (n_count, VUint 2); (p_sum ++ xn, VInt 12); (p_incl ++ xn, VInt 12); (p_min ++ xn, VInt 5); (p_max ++ xn, VInt 7); (p_avg ++ xn, VInt 6); (p_avgsum ++ xn, VInt 12); (p_avgcnt ++ xn, VUint 2)];
   [([], VUint n_f); (p_incl ++ xn, VInt 12)]].
Proof.
  assert (H := agg_by_compute exq exrecs). assert (E : flush exq (aggregate exq exd exrecs) = Some (exout, exdb)) by (vm_compute; reflexivity). rewrite E in H.
  destruct H as (A & G); [vm_compute; reflexivity|vm_compute; reflexivity|unfold size_ok; vm_compute; discriminate|]. split; [exact A|]. split; [exact G|]. vm_compute. reflexivity.
Qed.
Example C33_example : get_attr exdb xn <> None /\ all_ints exdb [xn] exrecs /\ Forall (fun r => vals exdb [p_sum ++ xn; p_incl ++ xn] r = []) exrecs.
Proof.
  split; [vm_compute; discriminate|]. split.
  - unfold all_ints. assert (E : map (vals exdb [xn]) exrecs = [[VInt 10]; [VInt 5]; [VInt 7]; [VInt (-2)]]) by (vm_compute; reflexivity).
    apply (proj1 (map_forall (Forall (fun v => exists z, v = VInt z /\ s64_ok z)) (vals exdb [xn]) exrecs)). rewrite E. constructor; [|constructor; [|constructor; [|constructor; [|constructor]]]]; (constructor; [eexists; split; [reflexivity|unfold s64_ok; lia]|constructor]).
  - assert (E : map (vals exdb [p_sum ++ xn; p_incl ++ xn]) exrecs = [[]; []; []; []]) by (vm_compute; reflexivity).
    apply (proj1 (map_forall (fun l => l = []) (vals exdb [p_sum ++ xn; p_incl ++ xn]) exrecs)). rewrite E. constructor; [reflexivity|constructor; [reflexivity|constructor; [reflexivity|constructor; [reflexivity|constructor]]]].
Qed.
(* a second example groups by an attribute that is given as immediate value, and by region name *)
Definition kq : qspec := mkq [xn] false false [CCount].
Definition krecs : list (list entry) := [[xi 1]; [xi 2; ERef n_m]; [xi 1; ERef n_b]].
Definition fo (q : qspec) (d : mdb) (recs : list (list entry)) : list (list entry) := match flush q (aggregate q d recs) with Some (o, _) => o | None => [] end.
Definition fd (q : qspec) (d : mdb) (recs : list (list entry)) : mdb := match flush q (aggregate q d recs) with Some (_, e) => e | None => db_init end.
Definition kout := Eval vm_compute in fo kq exd krecs.
Definition kdb := Eval vm_compute in fd kq exd krecs.
Example C31_example : aggregated kq krecs kout kdb /\ map (filter (fun e => match e with EImm a _ => a =? xa | _ => true end)) kout = [[xi 1]; [xi 2]].
Proof.
  assert (H := agg_by_compute kq krecs). assert (E : flush kq (aggregate kq exd krecs) = Some (kout, kdb)) by (vm_compute; reflexivity). rewrite E in H.
  destruct H as (A & _); [vm_compute; reflexivity|vm_compute; reflexivity|unfold size_ok; vm_compute; discriminate|]. split; [exact A|vm_compute; reflexivity].
Qed.

(* ---------- merging: the hypotheses are met ---------- *)
Lemma refpath_nodes d rec l a : db_ok d -> size_ok d -> refpath d rec l -> In a (map fst l) -> exists i, In (ERef i) rec /\ In a (map fst (node_path d i)).
Proof.
  intros Hd Hs. induction 1 as [|b v rec l _ IH|i p rec l Hp _ IH]; intro Hin; [destruct Hin|destruct (IH Hin) as (i & H1 & H2); exists i; split; [right|]; auto|].
  rewrite map_app in Hin. apply in_app_or in Hin as [Hin|Hin]; [destruct (IH Hin) as (j & H1 & H2); exists j; split; [right|]; auto|].
  exists i. split; [left; reflexivity|]. destruct (N.eq_dec i INV_ID) as [->|Hi].
  - inversion Hp; subst; [destruct Hin|congruence].
  - rewrite (node_path_ok d i p Hd Hs Hp Hi). rewrite map_rev. apply in_rev. rewrite rev_involutive. exact Hin.
Qed.
Definition sep_b (d : mdb) (q : qspec) (recs : list (list entry)) : bool :=
  forallb (fun c => forallb (fun n => match get_attr d n with
      | Some a => forallb (forallb (fun e => match e with ERef i => negb (existsb (fun x => fst x =? a) (node_path d i)) | _ => true end)) recs
      | None => true end) (in_names c ++ out_names c)) (q_ker q) &&
  forallb (fun i => forallb (fun j => (i =? j)%nat ||
      match nth_error (q_ker q) i, nth_error (q_ker q) j with
      | Some ci, Some cj => forallb (fun n => negb (existsb (fun m => beqb n m) (in_names cj))) (out_names ci)
      | _, _ => true end) (seq 0 (length (q_ker q)))) (seq 0 (length (q_ker q))).
Lemma sep_b_ok d q recs : db_ok d -> size_ok d -> q_keys q = [] -> sep_b d q recs = true -> separated d q recs.
Proof.
  intros Hd Hs Ek H. unfold sep_b in H. apply andb_true_iff in H as (H1 & H2). rewrite forallb_forall in H1, H2. split.
  - intros c n a Hc Hn Ha. split; [intros (s & k & X & _); rewrite Ek in X; destruct X|]. intros r l Hr Hl Hin. specialize (H1 c Hc). rewrite forallb_forall in H1. specialize (H1 n Hn). rewrite Ha in H1. rewrite forallb_forall in H1. specialize (H1 r Hr). rewrite forallb_forall in H1.
    destruct (refpath_nodes d r l a Hd Hs Hl Hin) as (i & Hi & Hp). specialize (H1 (ERef i) Hi). cbn in H1. apply negb_true_iff in H1. apply in_map_iff in Hp as (x & Ex & Hx). assert (X : existsb (fun x => fst x =? a) (node_path d i) = true) by (apply existsb_exists; exists x; split; auto; apply N.eqb_eq; auto). congruence.
  - intros i j ci cj n Hij Hi Hj Hn Hin. assert (Li : In i (seq 0 (length (q_ker q)))) by (apply in_seq; split; [lia|]; cbn; apply nth_error_Some; congruence). assert (Lj : In j (seq 0 (length (q_ker q)))) by (apply in_seq; split; [lia|]; cbn; apply nth_error_Some; congruence).
    specialize (H2 i Li). rewrite forallb_forall in H2. specialize (H2 j Lj). rewrite Hi, Hj in H2. destruct (Nat.eqb_spec i j); [congruence|]. cbn [orb] in H2. rewrite forallb_forall in H2. specialize (H2 n Hn). apply negb_true_iff in H2. assert (X : existsb (fun m => beqb n m) (in_names cj) = true) by (apply existsb_exists; exists n; split; auto; apply beqb_eq; reflexivity). congruence.
Qed.
Lemma agg_at q d recs : wf d -> size_ok d -> forallb (forallb (entry_okb d)) recs = true -> known_b d q = true ->
  match flush q (aggregate q d recs) with Some (out, d') => size_ok d' -> aggregated q recs out d' /\ grow d d' /\ wf d' | None => True end.
Proof.
  intros W S H1 H2. destruct (flush q (aggregate q d recs)) as [(out, d')|] eqn:E; auto. intro Hs. destruct (C31_any_input q d recs out d') as (A & G); auto; [apply recs_okb; auto; apply W|apply known_b_ok; auto|]. split; auto. split; auto. apply (aggregated_ok q recs out d' A).
Qed.
Definition mq : qspec := mkq [] false true [CCount; CSum xn false; CMin xn false; CMax xn false; CAvg xn; CScale xn 4611686018427387904 false].
Definition recsA : list (list entry) := [[ERef n_m; xi 10]; [ERef n_b; xi 5]].
Definition recsB : list (list entry) := [[xi 7; ERef n_b]; [ERef n_m; xi (-2)]; [ERef n_f]].
Definition outA := Eval vm_compute in fo mq exd recsA.
Definition dbA := Eval vm_compute in fd mq exd recsA.
Definition outB := Eval vm_compute in fo mq dbA recsB.
Definition dbB := Eval vm_compute in fd mq dbA recsB.
Definition outM := Eval vm_compute in fo mq dbB (outA ++ outB).
Definition dbM := Eval vm_compute in fd mq dbB (outA ++ outB).
Definition outT := Eval vm_compute in fo mq exd (recsA ++ recsB).
Definition dbT := Eval vm_compute in fd mq exd (recsA ++ recsB).
Example C32_example : wf exd /\ Forall (Forall (entry_ok exd)) (recsA ++ recsB) /\ targets_known exd mq /\ Forall (mergeable exd (recsA ++ recsB)) (q_ker mq) /\ separated dbM mq (recsA ++ recsB) /\
  aggregated mq recsA outA dbA /\ grow exd dbA /\ aggregated mq recsB outB dbB /\ grow exd dbB /\ aggregated mq (outA ++ outB) outM dbM /\ grow dbA dbM /\ grow dbB dbM /\
  aggregated mq (recsA ++ recsB) outT dbT /\ grow exd dbT /\ Forall (integral exd (recsA ++ recsB)) (q_ker mq) /\ length outM = 3%nat.
Proof.
  destruct exd_wf as (W0 & S0).
  assert (HA := agg_at mq exd recsA W0 S0). assert (EA : flush mq (aggregate mq exd recsA) = Some (outA, dbA)) by (vm_compute; reflexivity). rewrite EA in HA. destruct HA as (AA & GA & WA); [vm_compute; reflexivity|vm_compute; reflexivity|unfold size_ok; vm_compute; discriminate|].
  assert (HB := agg_at mq dbA recsB WA). assert (EB : flush mq (aggregate mq dbA recsB) = Some (outB, dbB)) by (vm_compute; reflexivity). rewrite EB in HB. destruct HB as (AB & GB & WB); [unfold size_ok; vm_compute; discriminate|vm_compute; reflexivity|vm_compute; reflexivity|unfold size_ok; vm_compute; discriminate|].
  assert (HM := agg_at mq dbB (outA ++ outB) WB). assert (EM : flush mq (aggregate mq dbB (outA ++ outB)) = Some (outM, dbM)) by (vm_compute; reflexivity). rewrite EM in HM. destruct HM as (AM & GM & WM); [unfold size_ok; vm_compute; discriminate|vm_compute; reflexivity|vm_compute; reflexivity|unfold size_ok; vm_compute; discriminate|].
  assert (HT := agg_at mq exd (recsA ++ recsB) W0 S0). assert (ET : flush mq (aggregate mq exd (recsA ++ recsB)) = Some (outT, dbT)) by (vm_compute; reflexivity). rewrite ET in HT. destruct HT as (AT & GT & WT); [vm_compute; reflexivity|vm_compute; reflexivity|unfold size_ok; vm_compute; discriminate|].
  split; [exact W0|]. split; [apply recs_okb; [apply W0|exact S0|vm_compute; reflexivity]|]. split; [apply known_b_ok; vm_compute; reflexivity|].
  assert (OT : forall names, map (vals exd names) (recsA ++ recsB) = [[VInt 10]; [VInt 5]; [VInt 7]; [VInt (-2)]; []] -> one_type (flat_map (vals exd names) (recsA ++ recsB))).
  { intros names E. left. exists [10; 5; 7; -2]%Z. rewrite flat_map_concat_map, E. split; [reflexivity|]. constructor; [|constructor; [|constructor; [|constructor; [|constructor]]]]; unfold s64_ok; lia. }
  assert (OA : one_type (flat_map (avals exd [xn; p_avgsum ++ xn]) (recsA ++ recsB))).
  { left. exists [10; 5; 7; -2]%Z. split; [vm_compute; reflexivity|]. constructor; [|constructor; [|constructor; [|constructor; [|constructor]]]]; unfold s64_ok; lia. }
  split.
  { cbn [q_ker mq]. constructor; [|constructor; [|constructor; [|constructor; [|constructor; [|constructor; [|constructor]]]]]]; cbn [mergeable integral].
    - assert (E : map (counts_for exd CCount) (recsA ++ recsB) = [1; 1; 1; 1; 1]) by (vm_compute; reflexivity). split; [|rewrite E; unfold u64_ok; vm_compute; reflexivity].
      apply (proj1 (map_forall (fun n => 0 < n) (counts_for exd CCount) (recsA ++ recsB))). rewrite E. apply Forall_forall. intros n Hn. assert (n = 1) by (cbn in Hn; intuition congruence). subst n. reflexivity.
    - apply OT. vm_compute. reflexivity.
    - apply OT. vm_compute. reflexivity.
    - apply OT. vm_compute. reflexivity.
    - split; [exact OA|]. split; [|unfold u64_ok; vm_compute; reflexivity].
      assert (E : map (fun r => (avg_count exd xn r, avals exd [xn; p_avgsum ++ xn] r)) (recsA ++ recsB) = [(1, [VInt 10]); (1, [VInt 5]); (1, [VInt 7]); (1, [VInt (-2)]); (0, [])]) by (vm_compute; reflexivity).
      apply (proj1 (map_forall (fun p : N * list value => fst p = 0 <-> snd p = []) (fun r => (avg_count exd xn r, avals exd [xn; p_avgsum ++ xn] r)) (recsA ++ recsB))). rewrite E.
      constructor; [|constructor; [|constructor; [|constructor; [|constructor; [|constructor]]]]]; cbn [fst snd]; split; intro; try reflexivity; discriminate.
    - apply OT. vm_compute. reflexivity. }
  split; [apply sep_b_ok; [apply WM|unfold size_ok; vm_compute; discriminate|reflexivity|vm_compute; reflexivity]|].
  split; [exact AA|]. split; [exact GA|]. split; [exact AB|]. split; [exact (grow_trans _ _ _ GA GB)|]. split; [exact AM|]. split; [exact (grow_trans _ _ _ GB GM)|]. split; [exact GM|]. split; [exact AT|]. split; [exact GT|]. split; [|reflexivity].
  cbn [q_ker mq]. constructor; [exact Logic.I|constructor; [|constructor; [|constructor; [|constructor; [|constructor; [|constructor]]]]]]; cbn [integral]; try exact OA; apply OT; vm_compute; reflexivity.
Qed.

(* ---------- what does not hold ---------- *)
(* sums of doubles depend on the order of the records *)
Definition xdb (z : Z) : entry := EImm xa (VDouble (d_of_Z z)).
Definition dq : qspec := mkq [] false false [CSum xn false].
Definition drecs : list (list entry) := [[xdb 9007199254740992]; [xdb 1]; [xdb 1]].
Theorem C32_double_order_refuted : exists q recs1 recs2 out1 out2 d1 d2 a v1 v2, Permutation recs1 recs2 /\ aggregated q recs1 out1 d1 /\ grow exd d1 /\ aggregated q recs2 out2 d2 /\ grow exd d2 /\ d1 = d2 /\
  get_attr d1 (p_sum ++ xn) = Some a /\ out1 = [[EImm a (VDouble v1)]] /\ out2 = [[EImm a (VDouble v2)]] /\ v1 <> v2.
Proof.
  exists dq, drecs, (rev drecs), (fo dq exd drecs), (fo dq exd (rev drecs)), (fd dq exd drecs), (fd dq exd (rev drecs)), 23, 4845873199050653696, 4845873199050653697.
  assert (H1 := agg_by_compute dq drecs). assert (E1 : flush dq (aggregate dq exd drecs) = Some (fo dq exd drecs, fd dq exd drecs)) by (vm_compute; reflexivity). rewrite E1 in H1.
  assert (H2 := agg_by_compute dq (rev drecs)). assert (E2 : flush dq (aggregate dq exd (rev drecs)) = Some (fo dq exd (rev drecs), fd dq exd (rev drecs))) by (vm_compute; reflexivity). rewrite E2 in H2.
  destruct H1 as (A1 & G1); [vm_compute; reflexivity|vm_compute; reflexivity|unfold size_ok; vm_compute; discriminate|].
  destruct H2 as (A2 & G2); [vm_compute; reflexivity|vm_compute; reflexivity|unfold size_ok; vm_compute; discriminate|].
  split; [apply Permutation_rev|]. split; [exact A1|]. split; [exact G1|]. split; [exact A2|]. split; [exact G2|]. split; [vm_compute; reflexivity|]. split; [vm_compute; reflexivity|]. split; [vm_compute; reflexivity|]. split; [vm_compute; reflexivity|]. discriminate.
Qed.
(* merging results that contain inclusive sums counts values twice: aggregating an aggregation result again
   (without any other records) changes the inclusive sum of m from 20 to 44 *)
Definition iq : qspec := mkq [] false true [CSum xn true].
Definition out1 := Eval vm_compute in fo iq exd exrecs.
Definition db_1 := Eval vm_compute in fd iq exd exrecs.
Definition out2 := Eval vm_compute in fo iq db_1 out1.
Definition db_2 := Eval vm_compute in fd iq db_1 out1.
Theorem C33_reaggregate_refuted : exists a, aggregated iq exrecs out1 db_1 /\ aggregated iq out1 out2 db_2 /\ grow db_1 db_2 /\ get_attr db_1 (p_incl ++ xn) = Some a /\
  In [ERef n_m; EImm a (VInt 20)] out1 /\ In [ERef n_m; EImm a (VInt 44)] out2.
Proof.
  exists 23. destruct exd_wf as (W0 & S0).
  assert (HA := agg_at iq exd exrecs W0 S0). assert (EA : flush iq (aggregate iq exd exrecs) = Some (out1, db_1)) by (vm_compute; reflexivity). rewrite EA in HA. destruct HA as (AA & GA & WA); [vm_compute; reflexivity|vm_compute; reflexivity|unfold size_ok; vm_compute; discriminate|].
  assert (HB := agg_at iq db_1 out1 WA). assert (EB : flush iq (aggregate iq db_1 out1) = Some (out2, db_2)) by (vm_compute; reflexivity). rewrite EB in HB. destruct HB as (AB & GB & WB); [unfold size_ok; vm_compute; discriminate|vm_compute; reflexivity|vm_compute; reflexivity|unfold size_ok; vm_compute; discriminate|].
  split; [exact AA|]. split; [exact AB|]. split; [exact GB|]. split; [vm_compute; reflexivity|]. split; vm_compute; auto.
Qed.
(* sum(x) over records that carry only an earlier result sum#x, in a database without attribute x: the value
   is lost *)
Definition dsum : mdb := snd (create_attribute db_init (p_sum ++ xn) T_INT 2113).
Definition suma : N := fst (create_attribute db_init (p_sum ++ xn) T_INT 2113).
Theorem C30_preaggregated_refuted : exists out d', flush dq (aggregate dq dsum [[EImm suma (VInt 5)]]) = Some (out, d') /\ get_attr d' (p_sum ++ xn) = Some suma /\ out = [[]].
Proof. eexists. eexists. vm_compute. split; [reflexivity|]. split; reflexivity. Qed.
