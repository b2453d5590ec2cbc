(* Proofs: flushing a query; the two kinds of queries over files *)
From Verif Require Import Base VariantModel VariantSpec NamesModel NamesProps TextModel TreeModel TreeProofs CaliFileModel CaliFileProofs CaliFileProofs2 CaliFileProofs3 CaliFileProofs4 CaliFileProps ArithSpec AggModel AggSpec AggProofs AggProofs2 AggProofs3 AggProofs4 AggProofs5 AggProofs6 FilterModel QFileModel QFileSpec QFileProofs QFileProofs2 QFileProofs3 QFileProofs4 QFileProofs5.
Open Scope N_scope.

(* ---------------- flush: result attributes are created once ---------------- *)
Definition unreg (d : mdb) (s : bytes) : bool := match get_attr d s with Some _ => false | None => true end.
Definition phi (names : list bytes) (d : mdb) : nat := (length (d_nodes d) + 2 * length (filter (unreg d) names))%nat.
Lemma filter_le {A} (f g : A -> bool) l : (forall x, f x = true -> g x = true) -> (length (filter f l) <= length (filter g l))%nat.
Proof. intros H. induction l as [|x l IH]; [auto|]. cbn [filter]. destruct (f x) eqn:E; [rewrite (H x E); cbn [length]; lia|]. destruct (g x); cbn [length]; lia. Qed.
Lemma filter_lt {A} (f g : A -> bool) l y : (forall x, f x = true -> g x = true) -> In y l -> f y = false -> g y = true -> (length (filter f l) < length (filter g l))%nat.
Proof.
  intros H. induction l as [|x l IH]; intros [] Hf Hg; cbn [filter].
  - subst x. rewrite Hf, Hg. cbn [length]. pose proof (filter_le f g l H). lia.
  - specialize (IH H0 Hf Hg). destruct (f x) eqn:E; [rewrite (H x E); cbn [length]; lia|]. destruct (g x); cbn [length]; lia.
Qed.
Lemma create_phi names d n ty p : In n names -> (phi names (snd (create_attribute d n ty p)) <= phi names d)%nat.
Proof.
  intro Hin. pose proof (create_adds d n ty p) as (_ & L). unfold create_attribute in *. fold (get_attr d n) in *. destruct (get_attr d n) eqn:E; [cbn [snd]; lia|].
  destruct (make_tree_entry d _ _) as (i, d1) eqn:Em. pose proof (mte_attrs [(10, VInt p); (8, VStr n)] d (match type_node ty with Some t => t | None => ROOT end)) as C. rewrite Em in C. cbn [snd] in *. unfold phi.
  pose proof (filter_lt (unreg (mkdb (d_nodes d1) ((n, i) :: d_attrs d1))) (unreg d) names n) as F. assert (Hlt : (length (filter (unreg (mkdb (d_nodes d1) ((n, i) :: d_attrs d1))) names) < length (filter (unreg d) names))%nat).
  { apply F; auto.
    - intros x. unfold unreg, get_attr. cbn [d_attrs alookup]. rewrite C. destruct (beqb n x); [discriminate|auto].
    - unfold unreg, get_attr. cbn [d_attrs alookup]. rewrite beqb_refl. reflexivity.
    - unfold unreg. rewrite E. reflexivity. }
  cbn [d_nodes] in *. lia.
Qed.
Definition onames (c : kcfg) : list bytes :=
  match c with
  | CCount => [n_count]
  | CScount arg _ => [p_scount ++ arg; n_scount]
  | CSum x i => [sel i p_incl p_sum ++ x]
  | CMin x i => [sel i p_imin p_min ++ x]
  | CMax x i => [sel i p_imax p_max ++ x]
  | CAny x => [p_any ++ x]
  | CScale x _ i => [sel i p_iscsum p_scsum ++ x; sel i p_iscale p_scale ++ x]
  | CAvg x => [p_avg ++ x; p_avgsum ++ x; p_avgcnt ++ x]
  | CRatio x y _ i => [sel i p_isrsum p_srsum ++ x; sel i p_isrsum p_srsum ++ y; sel i p_iratio p_ratio ++ x ++ [47] ++ y]
  | CPct x i => [sel i p_ipctsum p_pctsum ++ x; sel i p_ipct p_pct ++ x]
  | CVar x => [p_var ++ x; p_varcnt ++ x; p_varsum ++ x; p_varsq ++ x]
  end.
Lemma res_phi names d x n ty p a d1 : res_attr d x n ty p = (a, d1) -> In n names -> (phi names d1 <= phi names d)%nat.
Proof. unfold res_attr, make_attr. cbn [ka_name ka_type ka_prop]. intros H Hin. match type of H with create_attribute ?d ?n ?t ?p = _ => pose proof (create_phi names d n t p Hin) as C end. rewrite H in C. exact C. Qed.
Ltac phi_step H := match type of H with
  | context [res_attr ?d ?x ?n ?t ?p] => let a := fresh "a" in let e := fresh "d" in let E := fresh "E" in destruct (res_attr d x n t p) as (a, e) eqn:E
  end.
Ltac phi_use names := repeat match goal with E : res_attr ?d ?x ?n ?t ?p = (?a, ?e) |- _ =>
  let P := fresh "P" in assert (P : (phi names e <= phi names d)%nat) by (apply (res_phi names d x n t p a e E); auto); clear E end.
Lemma append_phi names c t d k es d1 : incl (onames c) names -> append_result c t d k = Some (es, d1) -> (phi names d1 <= phi names d)%nat.
Proof.
  intros Hi H.
  destruct c; cbn [append_result onames] in *;
    repeat match type of H with context [if ?b then _ else _] => destruct b end; try discriminate H;
    repeat phi_step H; try discriminate H;
    repeat match type of H with context [if ?b then _ else _] => destruct b end; repeat phi_step H;
    injection H as <- <-;
    try (assert (I1 := Hi _ (or_introl eq_refl))); try (assert (I2 := Hi _ (or_intror (or_introl eq_refl)))); try (assert (I3 := Hi _ (or_intror (or_intror (or_introl eq_refl))))); try (assert (I4 := Hi _ (or_intror (or_intror (or_intror (or_introl eq_refl))))));
    phi_use names; lia.
Qed.
Definition no_avg (q : qspec) : Prop := Forall (fun c => match c with CAvg _ => False | _ => True end) (q_ker q).
Lemma append_some c t d k : match c with CAvg _ => False | _ => True end -> exists r, append_result c t d k = Some r.
Proof.
  intros H. destruct c; try contradiction H; cbn [append_result]; repeat match goal with |- context [if ?b then _ else _] => destruct b end; repeat match goal with |- context [res_attr ?d ?x ?n ?t ?p] => destruct (res_attr d x n t p) end; repeat match goal with |- context [if ?b then _ else _] => destruct b end; repeat match goal with |- context [res_attr ?d ?x ?n ?t ?p] => destruct (res_attr d x n t p) end; eexists; reflexivity.
Qed.
Lemma appends_phi names l : forall d es d1, (forall x, In x l -> incl (onames (fst (fst x))) names) -> append_results l d = Some (es, d1) -> (phi names d1 <= phi names d)%nat.
Proof.
  induction l as [|((c, t), k) l IH]; intros d es d1 Hi H; cbn [append_results] in H; [assert (d = d1) by congruence; subst; lia|].
  destruct (append_result c t d k) as [(e1, d2)|] eqn:E; [|discriminate H]. destruct (append_results l d2) as [(e2, d3)|] eqn:E2; [|discriminate H]. assert (d3 = d1) by congruence. subst d3.
  pose proof (append_phi names c t d k e1 d2 (Hi _ (or_introl eq_refl)) E). pose proof (IH d2 e2 d1 (fun x Hx => Hi x (or_intror Hx)) E2). lia.
Qed.
Lemma appends_some l : forall d, (forall x, In x l -> match fst (fst x) with CAvg _ => False | _ => True end) -> exists r, append_results l d = Some r.
Proof.
  induction l as [|((c, t), k) l IH]; intros d Hi; cbn [append_results]; [eexists; reflexivity|]. destruct (append_some c t d k (Hi _ (or_introl eq_refl))) as ((e1, d2) & ->).
  destruct (IH d2 (fun x Hx => Hi x (or_intror Hx))) as ((e2, d3) & ->). eexists. reflexivity.
Qed.
Lemma combine_fst {A B C} (cs : list A) (ts : list B) (ks : list C) x : In x (combine (combine cs ts) ks) -> In (fst (fst x)) cs.
Proof. intro H. destruct x as ((c, t), k). apply in_combine_l in H. apply in_combine_l in H. exact H. Qed.
Lemma flush_ents_ok cs tot names l : (forall c, In c cs -> incl (onames c) names /\ match c with CAvg _ => False | _ => True end) -> forall d, exists out d', flush_ents cs tot l d = Some (out, d') /\ (phi names d' <= phi names d)%nat.
Proof.
  intro Hc. induction l as [|[e|] l IH]; intro d; cbn [flush_ents]; [exists [], d; split; [reflexivity|lia]| |apply IH].
  destruct (appends_some (combine (combine cs tot) (ae_ker e)) d (fun x Hx => proj2 (Hc _ (combine_fst _ _ _ _ Hx)))) as ((es, d1) & E). rewrite E.
  pose proof (appends_phi names _ d es d1 (fun x Hx => proj1 (Hc _ (combine_fst _ _ _ _ Hx))) E) as L1. destruct (IH d1) as (o & d2 & E2 & L2). rewrite E2. exists ((ae_key e ++ es) :: o), d2. split; [reflexivity|lia].
Qed.
Lemma flush_total q d g : no_avg q -> exists out d', flush q (d, g) = Some (out, d') /\ (length (d_nodes d') <= length (d_nodes d) + 2 * length (flat_map onames (q_ker q)))%nat.
Proof.
  intro Hn. destruct (flush_ents_ok (q_ker q) (g_tot g) (flat_map onames (q_ker q)) (g_ents g)) with (d := d) as (out & d' & E & L).
  { intros c Hc. split; [intros s Hs; apply in_flat_map; exists c; auto|exact (proj1 (Forall_forall _ _) Hn c Hc)]. }
  exists out, d'. split; [exact E|]. unfold phi in L. pose proof (filter_len (unreg d) (flat_map onames (q_ker q))). lia.
Qed.

(* ---------------- queries ---------------- *)
Lemma init_len : length (d_nodes db_init) = 15%nat. Proof. vm_compute. reflexivity. Qed.
Lemma agg_files dfmt dparse parse conds D q fs Ws : Forall (file_ok dfmt dparse) fs -> Forall (file_good D (q_keys q)) fs -> dict_init D -> fresh D q ->
  Forall2 (fun f ws => Forall2 (record_says (fl_src f)) (ctx_calls (fl_calls f)) ws) fs Ws -> 15 + N.of_nat (nlines fs + nsumf (node_cost q) (concat Ws)) < INV_ID ->
  exists d g recs, aggregate_files dparse parse conds q (map (text_of dfmt) fs) = Some (d, g, false) /\ wf d /\ arun q recs d g /\
    Forall2 (Forall2 (good D (q_keys q) d)) recs (passing parse D conds (concat Ws)) /\ (length (d_nodes d) <= 15 + nlines fs + nsumf (node_cost q) (concat Ws))%nat.
Proof.
  intros Hf Hg HD Hfr HWs Hlen. unfold aggregate_files.
  destruct (files_inv dfmt dparse parse conds agg (process q) D (q_keys q) (result_names q) (node_cost q) (arun q)) with (fs := fs) (Ws := Ws) (d := db_init) (x := agg_init (q_ker q)) (recs := @nil (list entry)) (W := @nil nrec) as (d & g & recs & E & Hw & HR & HG & L); auto.
  - intros recs d d' x H1 H2 H3. eapply ar_db; eauto.
  - intros recs d g rec w HR Hw HG Hc. assert (Hs : size_ok d) by (unfold size_ok; lia). pose proof (good_targets D q d Hw Hs rec w Hfr HG) as Hok.
    destruct (process q (d, g) rec) as (d', g') eqn:Ep. pose proof (process_adds q d g rec d' g' Ep) as Ha. pose proof (good_sel D q d Hw Hs rec w HG) as Hsel.
    assert (Ha' : adds (result_names q) (node_cost q w) d d') by (eapply adds_mono; [apply incl_refl| |exact Ha]; unfold node_cost; lia).
    assert (Hs' : size_ok d') by (destruct Ha' as (_ & L); unfold size_ok; lia).
    unfold process in Ep. cbn [fst snd] in Ep. destruct (mk_step d q rec) as (s, d1) eqn:Em. assert (d1 = d') by congruence. subst d1. destruct (mk_step_ok d q rec s d' Hw Hok Em Hs') as (Hgr & Hw' & _).
    exists d', g'. split; [reflexivity|]. split; [exact Hgr|]. split; [exact Hw'|]. split; [exact Ha'|]. eapply ar_add; [exact HR|exact Hok|]. unfold process. cbn [fst snd]. rewrite Em. exact Ep.
  - exact wf_init.
  - apply ar_new. exact wf_init.
  - rewrite init_len. lia.
  - rewrite init_len in L. exists d, g, recs. split; [exact E|]. split; [exact Hw|]. split; [exact HR|]. split; [exact HG|exact L].
Qed.
Lemma lst_files dfmt dparse parse conds D fs Ws : Forall (file_ok dfmt dparse) fs -> Forall (file_good D []) fs -> dict_init D ->
  Forall2 (fun f ws => Forall2 (record_says (fl_src f)) (ctx_calls (fl_calls f)) ws) fs Ws -> 15 + N.of_nat (nlines fs) < INV_ID ->
  exists d out, list_files dparse parse conds (map (text_of dfmt) fs) = Some (d, out, false) /\ wf d /\ Forall2 (Forall2 (good D [] d)) out (passing parse D conds (concat Ws)).
Proof.
  intros Hf Hg HD HWs Hlen. unfold list_files.
  assert (Z : nsumf (fun _ : nrec => 0%nat) (concat Ws) = 0%nat). { unfold nsumf. induction (concat Ws) as [|w l IH]; [reflexivity|exact IH]. }
  destruct (files_inv dfmt dparse parse conds (list (list entry)) list_record D [] [] (fun _ => 0%nat) (fun recs _ x => x = recs)) with (fs := fs) (Ws := Ws) (d := db_init) (x := @nil (list entry)) (recs := @nil (list entry)) (W := @nil nrec) as (d & x & recs & E & Hw & HR & HG & L); auto.
  - intros recs d x rec w -> Hw HG Hc. exists d, (recs ++ [rec]). split; [reflexivity|]. split; [apply grow_refl|]. split; [exact Hw|]. split; [apply adds_refl|reflexivity].
  - intros s [].
  - exact wf_init.
  - rewrite init_len, Z. lia.
  - exists d, x. subst x. split; [exact E|]. split; [exact Hw|exact HG].
Qed.
