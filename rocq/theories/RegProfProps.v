(* Property C50: region profiles attribute every metric value to the right regions. *)
From Verif Require Import Base VariantModel VariantSpec TreeModel CaliFileModel FloatModel ArithSpec AggModel RegProfModel RegProfSpec RegProfProofs.
Open Scope N_scope.

Lemma firstn_In {A} (x : A) : forall k l, In x (firstn k l) -> In x l.
Proof. intros k l H. rewrite <- (firstn_skipn k l). apply in_or_app. left. exact H. Qed.
Lemma NoDup_map_inj' {A B} (f : A -> B) l : (forall x y, In x l -> In y l -> f x = f y -> x = y) -> NoDup l -> NoDup (map f l).
Proof.
  induction l as [|a l IH]; intros H N; cbn [map]; [constructor|]. inversion N as [|? ? N1 N2]; subst. constructor.
  - intro X. apply in_map_iff in X. destruct X as (y & E & Y). apply H in E; [|right; exact Y|left; reflexivity]. subst. auto.
  - apply IH; auto. intros x y Hx Hy. apply H; right; assumption.
Qed.

Section T.
Variable vtext : value -> bytes.
Variable d : mdb.
Variable m : N.
Variable r : option N.
Notation names := (names vtext d r).
Notation values := (values d m).

Lemma target_iff a : is_target d r a = true <-> region_attr d r a.
Proof. unfold is_target, region_attr. destruct r as [x|]; [|tauto]. rewrite N.eqb_eq. split; congruence. Qed.

Definition gstep (c : list entry -> N -> list (bytes * N)) (g : list entry -> bool) (p : prof) (rec : list entry) : prof :=
  match metric_of d m rec with
  | None => p
  | Some v => mkprof (dadd (p_total p) v) (if g rec then dadd (p_reg p) v else p_reg p) (fold_left maddp (c rec v) (p_map p))
  end.
Definition contrs (c : list entry -> N -> list (bytes * N)) (recs : list (list entry)) : list (bytes * N) :=
  flat_map (fun rec => match metric_of d m rec with None => [] | Some v => c rec v end) recs.
Lemma gfold f c g recs : (forall rec p, In rec recs -> f p rec = gstep c g p rec) -> forall p,
  fold_left f recs p = mkprof (fold_left dadd (vals d m (fun _ => true) recs) (p_total p)) (fold_left dadd (vals d m g recs) (p_reg p)) (fold_left maddp (contrs c recs) (p_map p)).
Proof.
  induction recs as [|rec recs IH]; intros H p; [destruct p; reflexivity|]. cbn [fold_left]. rewrite H by (left; reflexivity).
  rewrite IH by (intros x q Hx; apply H; right; exact Hx). unfold gstep, vals, contrs. cbn [flat_map].
  destruct (metric_of d m rec) as [v|]; [|reflexivity]. cbn [p_total p_reg p_map app fold_left]. rewrite !fold_left_app. destruct (g rec); reflexivity.
Qed.
Lemma contrs_vals c (P : list entry -> bool) k recs :
  (forall rec v, In rec recs -> metric_of d m rec = Some v -> map snd (filter (fun x => beq (fst x) k) (c rec v)) = if P rec then [v] else []) ->
  map snd (filter (fun x => beq (fst x) k) (contrs c recs)) = vals d m P recs.
Proof.
  induction recs as [|rec recs IH]; intro H; [reflexivity|]. unfold contrs, vals. cbn [flat_map]. rewrite filter_app, map_app.
  f_equal; [|apply IH; intros x v Hx; apply H; right; exact Hx].
  destruct (metric_of d m rec) as [v|] eqn:M; [|reflexivity]. apply H; [left; reflexivity|exact M].
Qed.
Lemma vals_all recs l : values (fun _ => True) recs l -> vals d m (fun _ => true) recs = l.
Proof. intro V. symmetry. eapply vals_values; [|exact V]. intros; tauto. Qed.
Lemma contrs_in c recs k v : In (k, v) (contrs c recs) -> exists rec, In rec recs /\ metric_of d m rec <> None /\ exists w, In k (map fst (c rec w)).
Proof.
  intro H. apply in_flat_map in H. destruct H as (rec & A & B). destruct (metric_of d m rec) as [w|] eqn:M; [|destruct B].
  exists rec. split; [exact A|]. split; [congruence|]. exists w. apply in_map_iff. exists (k, v). auto.
Qed.

(* --- the four processors as folds of contributions --- *)
Fixpoint first_leaf (l : list N) : option N := match l with [] => None | i :: q => if is_target d r (e_attr d (ERef i)) then Some i else first_leaf q end.
Lemma find_leaf rec : find (fun e => match e with ERef i => is_target d r (e_attr d e) | EImm _ _ => false end) rec = option_map ERef (first_leaf (refs rec)).
Proof.
  induction rec as [|e rec IH]; [reflexivity|]. destruct e as [i|a x]; cbn [find refs flat_map app first_leaf]; [|exact IH].
  destruct (is_target d r (e_attr d (ERef i))); [reflexivity|exact IH].
Qed.
Lemma leaf_iff rec ps : leaf_in vtext d r rec ps <-> exists i, first_leaf (refs rec) = Some i /\ names i = ps.
Proof.
  unfold leaf_in. generalize (refs rec) as l. induction l as [|j l IH]; cbn [first_leaf].
  - split; [intros (l1 & i & l2 & E & _); destruct l1; discriminate|]. intros (i & H & _). discriminate.
  - destruct (is_target d r (e_attr d (ERef j))) eqn:T.
    + split.
      * intros (l1 & i & l2 & E & F & Ri & Ni). destruct l1 as [|x l1].
        -- injection E as -> ->. exists i. auto.
        -- injection E as -> ->. inversion F as [|? ? A _]; subst. exfalso. apply A. apply target_iff. exact T.
      * intros (i & E & Ni). injection E as ->. exists [], i, l. split; [reflexivity|]. split; [constructor|]. split; [apply target_iff; exact T|exact Ni].
    + rewrite <- IH. split.
      * intros (l1 & i & l2 & E & F & Ri & Ni). destruct l1 as [|x l1].
        -- injection E as -> ->. apply target_iff in Ri. congruence.
        -- injection E as -> ->. inversion F as [|? ? A F']; subst. exists l1, i, l2. auto.
      * intros (l1 & i & l2 & -> & F & Ri & Ni). exists (j :: l1), i, l2. split; [reflexivity|]. split; [|auto]. constructor; [|exact F].
        intro X. apply target_iff in X. congruence.
Qed.
Definition c_nex (rec : list entry) (v : N) : list (bytes * N) := match first_leaf (refs rec) with Some i => [(join (names i), v)] | None => [] end.
Definition g_nex (rec : list entry) : bool := match first_leaf (refs rec) with Some _ => true | None => false end.
Lemma first_leaf_in l i : first_leaf l = Some i -> In i l.
Proof. induction l as [|j l IH]; cbn [first_leaf]; [discriminate|]. destruct (is_target _ _ _); [intro E; injection E as ->; left; reflexivity|right; auto]. Qed.
Lemma nex_step recs : names_ok vtext d r recs -> forall rec p, In rec recs -> nested_excl vtext d m r p rec = gstep c_nex g_nex p rec.
Proof.
  intros OK rec p Hr. unfold nested_excl, gstep. destruct (metric_of d m rec) as [v|]; [|reflexivity]. rewrite find_leaf. unfold c_nex, g_nex.
  destruct (first_leaf (refs rec)) as [i|] eqn:E; cbn [option_map p_total p_reg p_map]; [|destruct p; reflexivity].
  cbn [fold_left maddp fst snd]. f_equal. unfold maddp. cbn [fst snd]. f_equal. apply (get_path_join vtext d r (node_path d i)).
  apply Forall_forall. intros n Hn. apply (OK rec i n Hr (first_leaf_in _ _ E) Hn).
Qed.
Lemma nin_step recs : names_ok vtext d r recs -> forall rec p, In rec recs ->
  nested_incl vtext d m r p rec = gstep (fun rec v => map (fun k => (k, v)) (prefixes (first_names vtext d r (refs rec)))) (fun rec => match first_names vtext d r (refs rec) with [] => false | _ => true end) p rec.
Proof.
  intros OK rec p Hr. unfold nested_incl, gstep. destruct (metric_of d m rec) as [v|]; [|reflexivity].
  rewrite incl_entries_spec by (intros i n Hi Hn; apply (OK rec i n Hr Hi Hn)).
  destruct (first_names vtext d r (refs rec)) as [|n ns] eqn:E; [reflexivity|].
  destruct (join (n :: ns)) eqn:J; [|reflexivity]. exfalso.
  assert (Hn : n <> []).
  { assert (X : exists i, In i (refs rec) /\ In n (names i)).
    { revert E. clear. generalize (refs rec) as l. induction l as [|i l IH]; cbn [first_names]; [discriminate|].
      destruct (names i) as [|n0 ns0] eqn:En; [intro E; destruct (IH E) as (j & A & B); exists j; split; [right; exact A|exact B]|].
      intro E. injection E as -> ->. exists i. split; [left; reflexivity|rewrite En; left; reflexivity]. }
    destruct X as (i & A & B). apply (OK rec i n Hr A B). }
  destruct ns; cbn [join] in J; destruct n; congruence || discriminate.
Qed.
Definition c_fex (rec : list entry) (v : N) : list (bytes * N) := match find (fun e => is_target d r (e_attr d e)) rec with Some e => [(vtext (e_val d e), v)] | None => [] end.
Definition g_fex (rec : list entry) : bool := match find (fun e => is_target d r (e_attr d e)) rec with Some e => true | None => false end.
Lemma fex_step rec p : flat_excl vtext d m r p rec = gstep c_fex g_fex p rec.
Proof.
  unfold flat_excl, gstep, c_fex, g_fex. destruct (metric_of d m rec) as [v|]; [|reflexivity].
  destruct (find _ rec); [reflexivity|]. destruct p; reflexivity.
Qed.
Definition fregs (rec : list entry) := flat_map (fun e => match e with ERef i => filter (fun x => is_target d r (fst x)) (node_path d i) | EImm _ _ => [] end) rec.
Lemma fin_step rec p : flat_incl vtext d m r p rec = gstep (fun rec v => map (fun x => (vtext (snd x), v)) (fregs rec)) (fun rec => match fregs rec with [] => false | _ => true end) p rec.
Proof.
  unfold flat_incl, gstep. destruct (metric_of d m rec) as [v|]; [|reflexivity]. fold (fregs rec). f_equal.
  - destruct (fregs rec); reflexivity.
  - generalize (p_map p). induction (fregs rec) as [|x l IH]; intro mp; cbn [map fold_left]; [reflexivity|]. rewrite IH. reflexivity.
Qed.

(* --- C50 --- *)
Definition run f (recs : list (list entry)) : prof := fold_left f recs prof0.

Lemma total_of f c g recs l : (forall rec p, In rec recs -> f p rec = gstep c g p rec) -> values (fun _ => True) recs l -> p_total (run f recs) = sum_of l.
Proof. intros H V. unfold run. rewrite (gfold f c g recs H). cbn [p_total prof0]. rewrite (vals_all _ _ V). reflexivity. Qed.

(* The total of every kind of profile is the sum of the metric over all records that have it. *)
Theorem C50_total recs l : names_ok vtext d r recs -> values (fun _ => True) recs l ->
  p_total (run (nested_excl vtext d m r) recs) = sum_of l /\ p_total (run (nested_incl vtext d m r) recs) = sum_of l /\
  p_total (run (flat_excl vtext d m r) recs) = sum_of l /\ p_total (run (flat_incl vtext d m r) recs) = sum_of l.
Proof.
  intros OK V. split; [|split; [|split]].
  - eapply total_of; [|exact V]. apply nex_step. exact OK.
  - eapply total_of; [|exact V]. apply nin_step. exact OK.
  - eapply total_of; [|exact V]. intros. apply fex_step.
  - eapply total_of; [|exact V]. intros. apply fin_step.
Qed.

Definition path_ok (ps : list bytes) : Prop := Forall (fun n => n <> [] /\ ~ In slash n) ps.
Lemma names_path_ok recs rec i : names_ok vtext d r recs -> In rec recs -> In i (refs rec) -> path_ok (names i).
Proof. intros OK A B. apply Forall_forall. intros n Hn. apply (OK rec i n A B Hn). Qed.

(* Nested exclusive profile: a region path gets exactly the values of the records whose innermost
   level is that path; no other paths appear; the region total is over all records inside a region. *)
Theorem C50_nested_exclusive recs : names_ok vtext d r recs ->
  (forall ps l, path_ok ps -> values (fun rec => leaf_in vtext d r rec ps) recs l -> mget (p_map (run (nested_excl vtext d m r) recs)) (join ps) = osum l) /\
  (forall k v, mget (p_map (run (nested_excl vtext d m r) recs)) k = Some v -> exists ps rec, k = join ps /\ path_ok ps /\ In rec recs /\ metric_of d m rec <> None /\ leaf_in vtext d r rec ps) /\
  (forall l, values (fun rec => exists ps, leaf_in vtext d r rec ps) recs l -> p_reg (run (nested_excl vtext d m r) recs) = sum_of l).
Proof.
  intro OK. unfold run. rewrite (gfold _ _ _ recs (nex_step recs OK)). cbn [p_map p_reg prof0]. split; [|split].
  - intros ps l Hp V. rewrite fold_osum. f_equal.
    set (P := fun rec => match first_leaf (refs rec) with Some i => beq (join (names i)) (join ps) | None => false end).
    transitivity (vals d m P recs).
    + apply contrs_vals. intros rec v Hr M. unfold c_nex, P. destruct (first_leaf (refs rec)) as [i|]; [|reflexivity].
      cbn [filter fst]. destruct (beq (join (names i)) (join ps)); reflexivity.
    + symmetry. eapply vals_values; [|exact V]. intros rec Hr. rewrite leaf_iff. unfold P. destruct (first_leaf (refs rec)) as [i|] eqn:E.
      * rewrite beq_spec. split.
        -- intro J. exists i. split; [reflexivity|]. apply join_inj; auto. apply (names_path_ok recs rec i OK Hr). apply first_leaf_in. exact E.
        -- intros (j & E2 & <-). injection E2 as ->. reflexivity.
      * split; [discriminate|]. intros (j & E2 & _). discriminate.
  - intros k v H. destruct (fold_keys _ _ _ _ H) as [X|X]; [|cbn in X; congruence]. apply in_map_iff in X. destruct X as ([k0 w] & E0 & X). cbn in E0. subst k0.
    destruct (contrs_in _ _ _ _ X) as (rec & A & M & w2 & B). unfold c_nex in B. destruct (first_leaf (refs rec)) as [i|] eqn:E; [|destruct B].
    destruct B as [B|[]]. cbn in B. exists (names i), rec. split; [auto|]. split; [apply (names_path_ok recs rec i OK A); apply first_leaf_in; exact E|].
    split; [exact A|]. split; [exact M|]. apply leaf_iff. exists i. auto.
  - intros l V. unfold sum_of. f_equal. symmetry. eapply vals_values; [|exact V]. intros rec Hr. unfold g_nex. destruct (first_leaf (refs rec)) as [i|] eqn:E.
    + split; [|reflexivity]. intros _. exists (names i). apply leaf_iff. exists i. auto.
    + split; [discriminate|]. intros (ps & H). apply leaf_iff in H. destruct H as (i & H & _). congruence.
Qed.

Lemma prefixes_nodup ps : path_ok ps -> NoDup (prefixes ps).
Proof.
  intro H. unfold prefixes. assert (A : forall k, path_ok (firstn k ps)) by (intro k; unfold path_ok in *; rewrite Forall_forall in *; intros x Hx; apply H; revert Hx; apply firstn_In).
  apply NoDup_map_inj'. 2: apply seq_NoDup. intros x y Hx Hy E. apply in_seq in Hx, Hy. apply join_inj in E; [|apply A|apply A].
  apply (f_equal (@length bytes)) in E. rewrite !firstn_length in E. lia.
Qed.
Lemma prefixes_in ps qs : path_ok ps -> path_ok qs -> qs <> [] -> (In (join qs) (prefixes ps) <-> exists t, ps = qs ++ t).
Proof.
  intros H Hq Ne. unfold prefixes. rewrite in_map_iff. split.
  - intros (k & E & Hk). apply join_inj in E; auto.
    + exists (skipn k ps). rewrite <- E. symmetry. apply firstn_skipn.
    + unfold path_ok in *. rewrite Forall_forall in *. intros x Hx. apply H. revert Hx. apply firstn_In.
  - intros (t & ->). exists (length qs). split.
    + f_equal. rewrite firstn_app, Nat.sub_diag, firstn_all. cbn. apply app_nil_r.
    + apply in_seq. rewrite app_length. destruct qs; [congruence|]. cbn. lia.
Qed.
Lemma first_names_in l : first_names vtext d r l <> [] -> exists i, In i l /\ first_names vtext d r l = names i.
Proof.
  induction l as [|j l IH]; cbn [first_names]; [congruence|]. destruct (names j) as [|n ns] eqn:E.
  - intro H. destruct (IH H) as (x & A & B). exists x. split; [right; exact A|exact B].
  - intros _. exists j. split; [left; reflexivity|congruence].
Qed.
Lemma first_names_ok recs rec : names_ok vtext d r recs -> In rec recs -> path_ok (first_names vtext d r (refs rec)).
Proof.
  intros OK Hr. destruct (first_names vtext d r (refs rec)) as [|n ns] eqn:E; [constructor|].
  destruct (first_names_in (refs rec)) as (i & A & B); [congruence|]. rewrite <- E, B. apply (names_path_ok recs rec i OK Hr A).
Qed.
Lemma memb_dec (k : bytes) l : {In k l} + {~ In k l}.
Proof. apply in_dec. apply list_eq_dec. apply N.eq_dec. Qed.
Lemma filter_nodup k (v : N) l : NoDup l -> map snd (filter (fun x => beq (fst x) k) (map (fun k => (k, v)) l)) = if memb_dec k l then [v] else [].
Proof.
  induction l as [|a l IH]; intro ND; [destruct (memb_dec k []) as [[]|]; reflexivity|]. inversion ND as [|? ? N1 N2]; subst. cbn [map filter fst]. destruct (beq a k) eqn:E.
  - apply beq_spec in E. subst a. cbn [map snd]. rewrite IH by exact N2. destruct (memb_dec k l); [contradiction|].
    destruct (memb_dec k (k :: l)) as [|X]; [reflexivity|]. exfalso. apply X. left. reflexivity.
  - rewrite IH by exact N2. assert (a <> k) by (intro X; subst; rewrite (proj2 (beq_spec k k) eq_refl) in E; discriminate).
    destruct (memb_dec k l) as [Y|Y], (memb_dec k (a :: l)) as [Z|Z]; try reflexivity; exfalso; [apply Z; right; exact Y|destruct Z; auto].
Qed.

(* Nested inclusive profile: a region path gets exactly the values of the records inside it or inside
   one of its subregions, each once; no other paths appear. *)
Theorem C50_nested_inclusive recs : names_ok vtext d r recs ->
  (forall ps l, path_ok ps -> ps <> [] -> values (fun rec => exists sub, inside vtext d r rec (ps ++ sub)) recs l ->
     mget (p_map (run (nested_incl vtext d m r) recs)) (join ps) = osum l) /\
  (forall k v, mget (p_map (run (nested_incl vtext d m r) recs)) k = Some v ->
     exists ps sub rec, k = join ps /\ ps <> [] /\ path_ok ps /\ In rec recs /\ metric_of d m rec <> None /\ inside vtext d r rec (ps ++ sub)) /\
  (forall l, values (fun rec => exists ps, inside vtext d r rec ps) recs l -> p_reg (run (nested_incl vtext d m r) recs) = sum_of l).
Proof.
  intro OK. unfold run. rewrite (gfold _ _ _ recs (nin_step recs OK)). cbn [p_map p_reg prof0]. split; [|split].
  - intros ps l Hp Ne V. rewrite fold_osum. f_equal.
    set (P := fun rec => if memb_dec (join ps) (prefixes (first_names vtext d r (refs rec))) then true else false).
    transitivity (vals d m P recs).
    + apply contrs_vals. intros rec v Hr M. rewrite filter_nodup by (apply prefixes_nodup; apply (first_names_ok recs); assumption).
      unfold P. destruct (memb_dec _ _); reflexivity.
    + symmetry. eapply vals_values; [|exact V]. intros rec Hr. unfold P.
      assert (X := prefixes_in _ ps (first_names_ok recs rec OK Hr) Hp Ne).
      destruct (memb_dec (join ps) _) as [Y|Y].
      * split; [|reflexivity]. intros _. apply X in Y. destruct Y as (t & E). exists t. apply inside_iff. split; [exact E|]. destruct ps; [congruence|discriminate].
      * split; [discriminate|]. intros (t & E). exfalso. apply Y. apply X. apply inside_iff in E. exists t. tauto.
  - intros k v H. destruct (fold_keys _ _ _ _ H) as [X|X]; [|cbn in X; congruence]. apply in_map_iff in X. destruct X as ([k0 w] & E0 & X). cbn in E0. subst k0.
    destruct (contrs_in _ _ _ _ X) as (rec & A & M & w2 & B). rewrite map_map in B. cbn [fst] in B. rewrite List.map_id in B.
    unfold prefixes in B. apply in_map_iff in B. destruct B as (j & E & Hj). apply in_seq in Hj.
    set (ns := first_names vtext d r (refs rec)) in *. assert (Hns : path_ok ns) by (apply (first_names_ok recs); assumption).
    exists (firstn j ns), (skipn j ns), rec. split; [auto|]. split.
    { intro Z. apply (f_equal (@length bytes)) in Z. rewrite firstn_length in Z. cbn in Z. lia. }
    split. { unfold path_ok in *. rewrite Forall_forall in *. intros x Hx. apply Hns. revert Hx. apply firstn_In. }
    split; [exact A|]. split; [exact M|]. apply inside_iff. rewrite firstn_skipn. split; [reflexivity|]. intro Z. rewrite Z in Hj. cbn in Hj. lia.
  - intros l V. unfold sum_of. f_equal. symmetry. eapply vals_values; [|exact V]. intros rec Hr.
    destruct (first_names vtext d r (refs rec)) as [|n ns] eqn:E.
    + split; [discriminate|]. intros (ps & H). apply inside_iff in H. destruct H. congruence.
    + split; [|reflexivity]. intros _. exists (n :: ns). apply inside_iff. split; [exact E|discriminate].
Qed.

(* Flat exclusive profile: a region name gets the values of the records whose first region entry has
   that name as its innermost level. *)
Definition top_in (rec : list entry) (n : bytes) : Prop :=
  exists l1 e l2, rec = l1 ++ e :: l2 /\ Forall (fun x => ~ region_attr d r (e_attr d x)) l1 /\ region_attr d r (e_attr d e) /\ vtext (e_val d e) = n.
Lemma top_iff rec n : top_in rec n <-> exists e, find (fun e => is_target d r (e_attr d e)) rec = Some e /\ vtext (e_val d e) = n.
Proof.
  unfold top_in. induction rec as [|x rec IH]; cbn [find].
  - split; [intros (l1 & e & l2 & E & _); destruct l1; discriminate|]. intros (e & H & _). discriminate.
  - destruct (is_target d r (e_attr d x)) eqn:T.
    + split.
      * intros (l1 & e & l2 & E & F & Ri & Ni). destruct l1 as [|y l1].
        -- injection E as -> ->. exists e. auto.
        -- injection E as -> ->. inversion F as [|? ? A _]; subst. exfalso. apply A. apply target_iff. exact T.
      * intros (e & E & Ni). injection E as ->. exists [], e, rec. split; [reflexivity|]. split; [constructor|]. split; [apply target_iff; exact T|exact Ni].
    + rewrite <- IH. split.
      * intros (l1 & e & l2 & E & F & Ri & Ni). destruct l1 as [|y l1].
        -- injection E as -> ->. apply target_iff in Ri. congruence.
        -- injection E as -> ->. inversion F as [|? ? A F']; subst. exists l1, e, l2. auto.
      * intros (l1 & e & l2 & -> & F & Ri & Ni). exists (x :: l1), e, l2. split; [reflexivity|]. split; [|auto]. constructor; [|exact F].
        intro X. apply target_iff in X. congruence.
Qed.
Theorem C50_flat_exclusive recs :
  (forall n l, values (fun rec => top_in rec n) recs l -> mget (p_map (run (flat_excl vtext d m r) recs)) n = osum l) /\
  (forall l, values (fun rec => exists n, top_in rec n) recs l -> p_reg (run (flat_excl vtext d m r) recs) = sum_of l).
Proof.
  unfold run. rewrite (gfold _ c_fex g_fex recs) by (intros; apply fex_step). cbn [p_map p_reg prof0]. split.
  - intros n l V. rewrite fold_osum. f_equal.
    set (P := fun rec => match find (fun e => is_target d r (e_attr d e)) rec with Some e => beq (vtext (e_val d e)) n | None => false end).
    transitivity (vals d m P recs).
    + apply contrs_vals. intros rec v Hr M. unfold c_fex, P. destruct (find _ rec) as [e|]; [|reflexivity]. cbn [filter fst]. destruct (beq _ n); reflexivity.
    + symmetry. eapply vals_values; [|exact V]. intros rec Hr. rewrite top_iff. unfold P. destruct (find _ rec) as [e|].
      * rewrite beq_spec. split; [intro E; exists e; auto|]. intros (e2 & E & <-). injection E as ->. reflexivity.
      * split; [discriminate|]. intros (e2 & E & _). discriminate.
  - intros l V. unfold sum_of. f_equal. symmetry. eapply vals_values; [|exact V]. intros rec Hr. unfold g_fex. destruct (find _ rec) as [e|] eqn:E.
    + split; [|reflexivity]. intros _. exists (vtext (e_val d e)). apply top_iff. exists e. auto.
    + split; [discriminate|]. intros (n & H). apply top_iff in H. destruct H as (i & H & _). congruence.
Qed.

(* Flat inclusive profile: if no record is inside two regions of the same name, every region name gets
   exactly the values of the records inside such a region. *)
Definition all_names (rec : list entry) : list bytes := flat_map names (refs rec).
Lemma fregs_names rec : forall k, (count_occ (list_eq_dec N.eq_dec) (map (fun x => vtext (snd x)) (fregs rec)) k = count_occ (list_eq_dec N.eq_dec) (all_names rec) k)%nat.
Proof.
  intro k. induction rec as [|e rec IH]; [reflexivity|]. unfold fregs, all_names, refs. cbn [flat_map]. fold (fregs rec). fold (refs rec).
  destruct e as [i|a x]; cbn [app flat_map]; [|exact IH]. rewrite map_app, !count_occ_app. f_equal; [|exact IH].
  unfold names. rewrite map_rev. symmetry. apply count_occ_rev.
Qed.
Theorem C50_flat_inclusive recs :
  (forall n l, (forall rec, In rec recs -> NoDup (all_names rec)) ->
     values (fun rec => In n (all_names rec)) recs l -> mget (p_map (run (flat_incl vtext d m r) recs)) n = osum l) /\
  (forall l, values (fun rec => all_names rec <> []) recs l -> p_reg (run (flat_incl vtext d m r) recs) = sum_of l).
Proof.
  unfold run. rewrite (gfold _ _ _ recs (fun rec p _ => fin_step rec p)). cbn [p_map p_reg prof0]. split.
  - intros n l ND V. rewrite fold_osum. f_equal.
    set (P := fun rec => if memb_dec n (map (fun x => vtext (snd x)) (fregs rec)) then true else false).
    transitivity (vals d m P recs).
    + apply contrs_vals. intros rec v Hr M. unfold P. rewrite <- (map_map (fun x => vtext (snd x)) (fun k => (k, v))). rewrite filter_nodup.
      * destruct (memb_dec _ _); reflexivity.
      * apply (NoDup_count_occ (list_eq_dec N.eq_dec)). intro k. rewrite fregs_names. apply NoDup_count_occ. apply ND. exact Hr.
    + symmetry. eapply vals_values; [|exact V]. intros rec Hr. unfold P. assert (X := fregs_names rec n).
      destruct (memb_dec n _) as [Y|Y].
      * split; [|reflexivity]. intros _. apply (count_occ_In (list_eq_dec N.eq_dec)) in Y. apply (count_occ_In (list_eq_dec N.eq_dec)). lia.
      * split; [discriminate|]. intro Z. exfalso. apply Y. apply (count_occ_In (list_eq_dec N.eq_dec)) in Z. apply (count_occ_In (list_eq_dec N.eq_dec)). lia.
  - intros l V. unfold sum_of. f_equal. symmetry. eapply vals_values; [|exact V]. intros rec Hr.
    destruct (fregs rec) as [|x q] eqn:E.
    + split; [discriminate|]. intro H. exfalso. apply H. assert (X := fregs_names rec). rewrite E in X. cbn [map] in X.
      destruct (all_names rec) as [|n ns]; [reflexivity|]. specialize (X n). rewrite count_occ_cons_eq in X by reflexivity. discriminate X.
    + split; [|reflexivity]. intros _ H. assert (X := fregs_names rec (vtext (snd x))). rewrite E, H in X. cbn [map] in X.
      rewrite count_occ_cons_eq in X by reflexivity. discriminate X.
Qed.
End T.
