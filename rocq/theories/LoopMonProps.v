(* C67: the loop monitor accounts for every iteration *)
From Coq Require Import String.
From Verif Require Import Base LoopMonModel LoopMonSpec RConfigModel.
Import ListNotations.
Open Scope list_scope. Open Scope Z_scope.

Lemma l_app c s a b : l_run c s (a ++ b) = l_run c (l_run c s a) b.
Proof. apply fold_left_app. Qed.
Lemma bal_above c l : bal l -> forall s, 0 <= l_target s -> l_target s < l_level s -> l_run c s l = s.
Proof.
  induction 1 as [|n l r Hl IHl Hr IHr|v b l r Hl IHl Hr IHr]; intros s Ht Hv; [reflexivity| |].
  - change (l_run c (l_step c s (LB n)) (l ++ LE :: r) = s). rewrite l_app. destruct s as [L T st nu sn]. cbn [l_level l_target] in *. cbn [l_step l_target l_level].
    destruct (Z.ltb_spec T 0); [lia|]. cbn [andb]. unfold with_level at 1. cbn [l_level l_target l_start l_num l_snaps].
    rewrite IHl by (cbn [l_level l_target]; lia). change (l_run c (l_step c (mklst (L + 1) T st nu sn) LE) r = mklst L T st nu sn). cbn [l_step l_level l_target]. destruct (Z.eqb_spec (L + 1) T); [lia|].
    unfold with_level. cbn [l_level l_target l_start l_num l_snaps]. replace (L + 1 - 1) with L by lia. apply IHr; cbn [l_level l_target]; lia.
  - change (l_run c (l_step c s (IB v)) (l ++ IE b :: r) = s). rewrite l_app. cbn [l_step]. destruct (Z.eqb_spec (l_level s) (l_target s)); [lia|]. rewrite IHl by auto.
    change (l_run c (l_step c s (IE b)) r = s). cbn [l_step]. destruct (Z.eqb_spec (l_level s) (l_target s)); [lia|]. auto.
Qed.
Definition startof (g : list iter) : Z := match g with [] => -1 | (v, _) :: _ => v end.
Definition at_loop (T : Z) (g : list iter) (sn : list lsnap) : lst := mklst T T (startof g) (Z.of_nat (List.length g)) sn.
(* an inner loop executed at the level of the target loop *)
Lemma inner_loop c n l r T g sn : bal l -> 0 <= T -> l_run c (at_loop T g sn) (LB n :: l ++ LE :: r) = l_run c (at_loop T g sn) r.
Proof.
  intros Hl HT. change (l_run c (l_step c (at_loop T g sn) (LB n)) (l ++ LE :: r) = l_run c (at_loop T g sn) r). rewrite l_app. unfold at_loop at 1. cbn [l_step l_target l_level].
  destruct (Z.ltb_spec T 0); [lia|]. cbn [andb]. unfold with_level. cbn [l_level l_target l_start l_num l_snaps]. rewrite (bal_above c l Hl) by (cbn [l_level l_target]; lia).
  change (l_run c (l_step c (mklst (T + 1) T (startof g) (Z.of_nat (List.length g)) sn) LE) r = l_run c (at_loop T g sn) r). cbn [l_step l_level l_target]. destruct (Z.eqb_spec (T + 1) T); [lia|].
  unfold with_level. cbn [l_level l_target l_start l_num l_snaps]. replace (T + 1 - 1) with T by lia. reflexivity.
Qed.
Lemma body_none c l vs : body l vs -> vs = [] -> forall T g sn, 0 <= T -> l_run c (at_loop T g sn) l = at_loop T g sn.
Proof.
  induction 1 as [|n l r vs Hl Hr IH|v b l r vs Hv Hl IHl Hr IHr]; intros Hvs T g sn HT; [reflexivity| |discriminate]. rewrite inner_loop by auto. auto.
Qed.
Definition fresh (c : lcfg) (g : list iter) : Prop := forall p q, g = p ++ q -> ~ complete c p.
Definition first_complete (c : lcfg) (g : list iter) : Prop := complete c g /\ forall p q, g = p ++ q -> q <> [] -> ~ complete c p.
Lemma fresh_nil c : fresh c [].
Proof. intros p q E (g' & v & b & E1 & _). destruct p; [destruct g'; discriminate|discriminate]. Qed.
Lemma fresh_len c g : fresh c g -> 0 < lc_iter c -> Z.of_nat (List.length g) < lc_iter c.
Proof.
  intros F K. destruct (Z.lt_ge_cases (Z.of_nat (List.length g)) (lc_iter c)) as [H|H]; auto. exfalso.
  set (k := Z.to_nat (lc_iter c)). assert (Hk : (k <= List.length g)%nat) by (unfold k; lia). assert (Lk : List.length (firstn k g) = k) by (apply firstn_length_le; auto).
  apply (F (firstn k g) (skipn k g)); [symmetry; apply firstn_skipn|]. destruct (@exists_last _ (firstn k g)) as (g' & (v & b) & E).
  - intro E. rewrite E in Lk. cbn in Lk. unfold k in Lk. lia.
  - exists g', v, b. split; auto. left. split; auto. rewrite Lk. unfold k. lia.
Qed.
Lemma prefix_snoc {X} (g p q : list X) x : g ++ [x] = p ++ q -> q <> [] -> exists q', g = p ++ q'.
Proof.
  intros E Hq. destruct (exists_last Hq) as (q' & y & ->). rewrite app_assoc in E. apply app_inj_tail in E. destruct E as (E & _). eauto.
Qed.
Lemma cut_complete c g v b : fresh c g ->
  ((0 <? lc_iter c) && (Z.rem (Z.of_nat (List.length (g ++ [(v, b)]))) (lc_iter c) =? 0) || (lc_time c && b)) = true <-> complete c (g ++ [(v, b)]).
Proof.
  intro F. pose proof (fresh_len c g F) as HL. set (n := List.length (g ++ [(v, b)])) in *. assert (Hn : Z.of_nat n = Z.of_nat (List.length g) + 1) by (unfold n; rewrite app_length; cbn [List.length]; lia). rewrite orb_true_iff, !andb_true_iff. split.
  - intro H. exists g, v, b. split; auto. fold n. destruct H as [(K & R)|(T & B)]; [left|right; split; auto]. apply Z.ltb_lt in K. specialize (HL K). split; auto. destruct (Z.eq_dec (Z.of_nat n) (lc_iter c)) as [E|E]; auto.
    rewrite Z.rem_small in R by lia. apply Z.eqb_eq in R. lia.
  - intros (g' & v' & b' & E & H). fold n in H. apply app_inj_tail in E. destruct E as (_ & E). injection E as <- <-. destruct H as [(K & R)|H]; [left|right; auto]. split; [apply Z.ltb_lt; auto|]. rewrite R, Z.rem_same by lia. reflexivity.
Qed.
Lemma snap_group T g sn : Forall (fun x : iter => 0 <= fst x) g -> l_snap (at_loop T g sn) = at_loop T [] (sn ++ [describes g]).
Proof.
  intro Hg. unfold l_snap, at_loop, describes. cbn [l_level l_target l_start l_num l_snaps startof List.length]. f_equal. f_equal. f_equal. f_equal. destruct g as [|[x y] g1]; [reflexivity|]. cbn. apply Forall_inv in Hg. cbn in Hg. destruct (Z.leb_spec 0 x); [reflexivity|lia].
Qed.
Lemma body_run c l vs : body l vs -> forall T g sn, 0 <= T -> Forall (fun x : iter => 0 <= fst x) g -> fresh c g ->
  exists full last, l_run c (at_loop T g sn) l = at_loop T last (sn ++ map describes full) /\ concat full ++ last = g ++ vs /\ Forall (first_complete c) full /\ fresh c last /\ Forall (fun x : iter => 0 <= fst x) last.
Proof.
  induction 1 as [|n l r vs Hl Hr IH|v b l r vs Hv Hl IHl Hr IHr]; intros T g sn HT Hg Hf.
  - exists [], g. cbn. rewrite !app_nil_r. auto.
  - rewrite inner_loop by auto. apply IH; auto.
  - change (l_run c (at_loop T g sn) (IB v :: l ++ IE b :: r)) with (l_run c (l_step c (at_loop T g sn) (IB v)) (l ++ IE b :: r)).
    assert (Ev : l_step c (at_loop T g sn) (IB v) = at_loop T (g ++ [(v, b)]) sn).
    { unfold at_loop at 1. cbn [l_step l_level l_target l_start l_num l_snaps]. rewrite Z.eqb_refl. unfold at_loop. rewrite app_length. cbn [List.length]. f_equal; [|lia]. destruct g as [|[x y] g]; cbn; auto.
      apply Forall_inv in Hg. cbn in Hg. destruct (Z.ltb_spec x 0); [lia|reflexivity]. }
    rewrite Ev, l_app, (body_none c l [] Hl eq_refl) by auto.
    assert (Hg' : Forall (fun x : iter => 0 <= fst x) (g ++ [(v, b)])) by (apply Forall_app; auto).
    pose proof (cut_complete c g v b Hf) as HC. set (g' := g ++ [(v, b)]) in *.
    change (l_run c (at_loop T g' sn) (IE b :: r)) with (l_run c (l_step c (at_loop T g' sn) (IE b)) r).
    assert (Es : l_step c (at_loop T g' sn) (IE b) = if (0 <? lc_iter c) && (Z.rem (Z.of_nat (List.length g')) (lc_iter c) =? 0) || (lc_time c && b) then l_snap (at_loop T g' sn) else at_loop T g' sn).
    { unfold at_loop, l_step. cbn [l_level l_target l_num]. rewrite Z.eqb_refl. reflexivity. }
    rewrite Es. clear Es. destruct ((0 <? lc_iter c) && (Z.rem (Z.of_nat (List.length g')) (lc_iter c) =? 0) || (lc_time c && b)).
    + rewrite (snap_group T g' sn Hg'). destruct (IHr T [] (sn ++ [describes g']) HT (Forall_nil _) (fresh_nil c)) as (full & last & E1 & E2 & C1 & C2 & F).
      exists (g' :: full), last. split; [rewrite E1; cbn [map]; rewrite <- app_assoc; reflexivity|]. split; [cbn [concat]; rewrite <- app_assoc, E2; cbn; unfold g'; rewrite <- app_assoc; reflexivity|]. split; [|auto]. constructor; auto. split; [apply HC; auto|].
      intros p q E Hq. destruct (prefix_snoc _ _ _ _ E Hq) as (q' & E'). eapply Hf; eauto.
    + destruct (IHr T g' sn HT Hg') as (full & last & E1 & E2 & C1 & C2 & F).
      { intros p q E Hp. destruct q as [|y q]; [rewrite app_nil_r in E; rewrite <- E in Hp; apply HC in Hp; discriminate|]. destruct (prefix_snoc _ _ _ _ E ltac:(discriminate)) as (q' & E'). eapply Hf; eauto. }
      exists full, last. split; auto. split; [rewrite E2; unfold g'; rewrite <- app_assoc; reflexivity|auto].
Qed.
Lemma prefix_iff s v : is_prefix s v = true <-> exists r, v = s ++ r.
Proof.
  revert v. induction s as [|a s IH]; intro v; cbn; [split; eauto|]. destruct v as [|b v]; [split; [discriminate|intros (r & E); discriminate]|].
  rewrite andb_true_iff, IH, N.eqb_eq. split; [intros (-> & r & ->); eauto|intros (r & E); injection E as -> ->; eauto].
Qed.
Lemma target_iff c n : is_target c n = true <-> selected (lc_targets c) n.
Proof.
  unfold is_target, selected. destruct (lc_targets c) as [|t ts]; [split; auto|]. rewrite existsb_exists. split.
  - intros (x & Hx & P). right. apply prefix_iff in P. destruct P as (r & ->). eauto.
  - intros [H|(x & r & Hx & ->)]; [discriminate|]. exists x. split; auto. apply prefix_iff. eauto.
Qed.
Definition outside (L : Z) (sn : list lsnap) : lst := mklst L (-1) (-1) 0 sn.
Lemma program_run c l loops : program (selected (lc_targets c)) l loops -> forall L sn, 0 <= L ->
  exists gss, l_run c (outside L sn) l = outside L (sn ++ flat_map (fun gs => (0, None) :: map describes gs) gss) /\ Forall2 (groups c) loops gss.
Proof.
  induction 1 as [|n l vs r rest Ht Hb Hr IH|n l r a b Ht Hl IHl Hr IHr|v t l r a b Hl IHl Hr IHr]; intros L sn HL.
  - exists []. cbn. rewrite app_nil_r. split; auto.
  - apply target_iff in Ht. change (l_run c (outside L sn) (LB n :: l ++ LE :: r)) with (l_run c (l_step c (outside L sn) (LB n)) (l ++ LE :: r)). rewrite l_app.
    assert (E0 : l_step c (outside L sn) (LB n) = at_loop (L + 1) [] (sn ++ [(0, None)])) by (cbn [l_step outside l_target]; rewrite Ht; reflexivity). rewrite E0.
    destruct (body_run c l vs Hb (L + 1) [] (sn ++ [(0, None)]) ltac:(lia) (Forall_nil _) (fresh_nil c)) as (full & last & E1 & E2 & C1 & C2 & F). rewrite E1. cbn [app] in E2.
    change (l_run c (at_loop (L + 1) last ((sn ++ [(0, None)]) ++ map describes full)) (LE :: r)) with (l_run c (l_step c (at_loop (L + 1) last ((sn ++ [(0, None)]) ++ map describes full)) LE) r).
    assert (E3 : l_step c (at_loop (L + 1) last ((sn ++ [(0, None)]) ++ map describes full)) LE = outside L (sn ++ (0, None) :: map describes (full ++ [last]))).
    { change (l_step c (at_loop (L + 1) last ((sn ++ [(0, None)]) ++ map describes full)) LE) with
        (let s1 := if (L + 1 =? L + 1) then with_target (l_snap (at_loop (L + 1) last ((sn ++ [(0, None)]) ++ map describes full))) (-1) else at_loop (L + 1) last ((sn ++ [(0, None)]) ++ map describes full) in with_level s1 (l_level s1 - 1)).
      rewrite Z.eqb_refl, snap_group by auto. unfold at_loop, with_target, with_level, outside. cbn [l_level l_target l_start l_num l_snaps startof List.length]. replace (L + 1 - 1) with L by lia. f_equal.
      rewrite map_app. cbn [map]. rewrite <- !app_assoc. reflexivity. }
    rewrite E3. destruct (IH L (sn ++ (0, None) :: map describes (full ++ [last])) HL) as (gss & E4 & F2). exists ((full ++ [last]) :: gss). split.
    + rewrite E4. cbn [flat_map]. rewrite <- !app_assoc. reflexivity.
    + constructor; auto. split; [rewrite concat_app; cbn; rewrite app_nil_r; auto|]. exists full, last. auto.
  - assert (Ht' : is_target c n = false) by (destruct (is_target c n) eqn:E; auto; apply target_iff in E; tauto).
    change (l_run c (outside L sn) (LB n :: l ++ LE :: r)) with (l_run c (l_step c (outside L sn) (LB n)) (l ++ LE :: r)). rewrite l_app.
    assert (E0 : l_step c (outside L sn) (LB n) = outside (L + 1) sn) by (cbn [l_step outside l_target]; rewrite Ht'; reflexivity). rewrite E0.
    destruct (IHl (L + 1) sn ltac:(lia)) as (g1 & E1 & F1). rewrite E1. set (sn1 := sn ++ flat_map (fun gs => (0, None) :: map describes gs) g1) in *.
    change (l_run c (outside (L + 1) sn1) (LE :: r)) with (l_run c (l_step c (outside (L + 1) sn1) LE) r).
    assert (E3 : l_step c (outside (L + 1) sn1) LE = outside L sn1). { cbn [l_step outside l_level l_target]. destruct (Z.eqb_spec (L + 1) (-1)); [lia|]. unfold with_level, outside. cbn [l_level l_target l_start l_num l_snaps]. f_equal. lia. }
    rewrite E3. destruct (IHr L sn1 HL) as (g2 & E4 & F2). exists (g1 ++ g2). split; [rewrite E4; unfold sn1; rewrite flat_map_app, <- app_assoc; reflexivity|apply Forall2_app; auto].
  - change (l_run c (outside L sn) (IB v :: l ++ IE t :: r)) with (l_run c (l_step c (outside L sn) (IB v)) (l ++ IE t :: r)). rewrite l_app.
    assert (E0 : l_step c (outside L sn) (IB v) = outside L sn) by (cbn [l_step outside l_level l_target]; destruct (Z.eqb_spec L (-1)); [lia|reflexivity]). rewrite E0.
    destruct (IHl L sn HL) as (g1 & E1 & F1). rewrite E1. set (sn1 := sn ++ flat_map (fun gs => (0, None) :: map describes gs) g1) in *.
    change (l_run c (outside L sn1) (IE t :: r)) with (l_run c (l_step c (outside L sn1) (IE t)) r).
    assert (E3 : l_step c (outside L sn1) (IE t) = outside L sn1) by (cbn [l_step outside l_level l_target]; destruct (Z.eqb_spec L (-1)); [lia|reflexivity]).
    rewrite E3. destruct (IHr L sn1 HL) as (g2 & E4 & F2). exists (g1 ++ g2). split; [rewrite E4; unfold sn1; rewrite flat_map_app, <- app_assoc; reflexivity|apply Forall2_app; auto].
Qed.
(* Every target loop execution: an entry snapshot, then one snapshot for each group of its
   iterations; the groups are cut at the iteration interval and at late iterations *)
Theorem C67_loops : forall c evs loops, program (selected (lc_targets c)) evs loops ->
  exists gss, l_snaps (l_run c lst_init evs) = flat_map (fun gs => (0, None) :: map describes gs) gss /\ Forall2 (groups c) loops gss.
Proof.
  intros c evs loops H. destruct (program_run c evs loops H 0 [] ltac:(lia)) as (gss & E & F). exists gss. split; auto. change lst_init with (outside 0 []). rewrite E. reflexivity.
Qed.
(* in total, every iteration is counted once *)
Theorem C67_total : forall c evs loops, program (selected (lc_targets c)) evs loops ->
  fold_right Z.add 0 (map fst (l_snaps (l_run c lst_init evs))) = Z.of_nat (List.length (concat loops)).
Proof.
  intros c evs loops H. destruct (C67_loops c evs loops H) as (gss & -> & F). clear H. induction F as [|vs gs loops gss (E & _) F IH]; [reflexivity|].
  cbn [flat_map concat]. rewrite map_app, app_length, Nat2Z.inj_add. 
  assert (A : forall l1 l2, fold_right Z.add 0 (l1 ++ l2) = fold_right Z.add 0 l1 + fold_right Z.add 0 l2) by (induction l1 as [|x l1 I1]; intro l2; cbn; [reflexivity|rewrite I1; lia]).
  rewrite A. rewrite IH. f_equal. cbn [map fst fold_right]. rewrite Z.add_0_l. rewrite <- E. clear. induction gs as [|g gs IH]; [reflexivity|]. cbn [map fst describes fold_right concat]. rewrite IH, app_length. lia.
Qed.
Print Assumptions C67_loops. Print Assumptions C67_total.

(* ---- example: two iterations with an inner loop, interval 2, three iterations ---- *)
Definition ex_l : list lev :=
  [IB 9; LB (bs "outer"); IB 0; LB (bs "inner"); IB 5; IE false; LE; IE false; IB 1; IE true; IB 2; IE false; LE; IE false].
Definition ex_lc : lcfg := mklcfg 2 false [bs "outer"].
Example C67_ex : program (selected (lc_targets ex_lc)) ex_l [[(0, false); (1, true); (2, false)]] /\ l_snaps (l_run ex_lc lst_init ex_l) = [(0, None); (2, Some 0); (1, Some 2)] /\
  l_snaps (l_run (mklcfg 0 true [bs "outer"]) lst_init ex_l) = [(0, None); (2, Some 0); (1, Some 2)] /\ l_snaps (l_run (mklcfg 3 false []) lst_init ex_l) = [(0, None); (3, Some 0); (0, None)].
Proof.
  split; [|vm_compute; auto]. change ex_l with (IB 9 :: [LB (bs "outer"); IB 0; LB (bs "inner"); IB 5; IE false; LE; IE false; IB 1; IE true; IB 2; IE false; LE] ++ IE false :: []).
  apply (p_iter _ 9 false _ [] [[(0, false); (1, true); (2, false)]] []); [|constructor].
  change [LB (bs "outer"); IB 0; LB (bs "inner"); IB 5; IE false; LE; IE false; IB 1; IE true; IB 2; IE false; LE] with
    (LB (bs "outer") :: [IB 0; LB (bs "inner"); IB 5; IE false; LE; IE false; IB 1; IE true; IB 2; IE false] ++ LE :: []).
  apply p_target; [right; exists (bs "outer"), []; split; [left|]; reflexivity| |constructor].
  change [IB 0; LB (bs "inner"); IB 5; IE false; LE; IE false; IB 1; IE true; IB 2; IE false] with (IB 0 :: [LB (bs "inner"); IB 5; IE false; LE] ++ IE false :: IB 1 :: [] ++ IE true :: IB 2 :: [] ++ IE false :: []).
  apply body_iter; [lia| |apply body_iter; [lia|constructor|apply body_iter; [lia|constructor|constructor]]].
  apply (body_loop (bs "inner") [IB 5; IE false] [] []); [|constructor]. apply (bal_iter 5 false [] []); constructor.
Qed.
(* Limits: a target name selects every loop whose name begins with it *)
Theorem C67_prefix_refuted : is_target (mklcfg 2 false [bs "main"]) (bs "mainloop2") = true.
Proof. reflexivity. Qed.
(* iterations outside of loops are counted once the end of a loop entered before the channel was
   started has been seen (level and target are then both -1) *)
Theorem C67_restart_refuted : l_snaps (l_run ex_lc lst_init [LE; IB 5; IE false; LB (bs "outer"); LE]) = [(1, Some 5); (0, None)].
Proof. reflexivity. Qed.
(* the first iteration number is lost if it is negative *)
Theorem C67_negative_refuted : l_snaps (l_run ex_lc lst_init [LB (bs "outer"); IB (-3); IE false; LE]) = [(0, None); (1, None)].
Proof. reflexivity. Qed.
