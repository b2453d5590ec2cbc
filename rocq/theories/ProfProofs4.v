(* C69: what the aggregated snapshots of a thread say *)
From Verif Require Import Base VariantModel VariantSpec TreeModel TreeSpec TreeProofs TreeProofs2 RuntimeModel RuntimeSpec RuntimeProofs.
From Verif Require Import ArithModel RtAggModel RtAggSpec RtAggProofs RtAggProofs2 RtAggProofs3 RtAggProofs4 RtAggProps ProfModel ProfSpec ProfProofs2 ProfProofs3.
Open Scope N_scope.

Lemma nsum_app l l' : ProfSpec.nsum (l ++ l') = ProfSpec.nsum l + ProfSpec.nsum l'.
Proof. induction l as [|x l IH]; cbn; [reflexivity|]. unfold ProfSpec.nsum in *. cbn. rewrite IH. lia. Qed.
(* ---- statistics of unsigned values ---- *)
Lemma mms_uint l : forall a b s, a <= b -> s + ProfSpec.nsum l < W64 ->
  minmaxsum (map make_uint l) (make_uint a, make_uint b, make_uint s) =
  Some (make_uint (fold_left N.min l a), make_uint (fold_left N.max l b), make_uint (s + ProfSpec.nsum l)).
Proof.
  induction l as [|d l IH]; intros a b s Hab Hs.
  - cbn [map minmaxsum fold_left ProfSpec.nsum fold_right]. rewrite N.add_0_r. reflexivity.
  - cbn [map minmaxsum fst snd]. cbn [ProfSpec.nsum fold_right] in *. fold (ProfSpec.nsum l) in *.
    assert (E : cv_minmaxsum (make_uint d) (make_uint a) (make_uint b) (make_uint s) = Some (make_uint (N.min a d), make_uint (N.max b d), make_uint (s + d))).
    { unfold cv_minmaxsum. change (is_empty (make_uint a)) with false. cbv iota. change (extract_type (ts (make_uint d))) with T_UINT. cbn [N.eqb T_UINT T_DOUBLE T_INT Pos.eqb].
      cbn [word make_uint]. rewrite wrap64_id by (unfold u64_ok; lia).
      destruct (N.ltb_spec d a).
      - rewrite N.min_r, N.max_l by lia. reflexivity.
      - destruct (N.ltb_spec b d).
        + rewrite N.min_l, N.max_r by lia. reflexivity.
        + rewrite N.min_l, N.max_l by lia. reflexivity. }
    rewrite E. cbn [fold_left]. rewrite IH by lia. rewrite N.add_assoc. reflexivity.
Qed.
Lemma stat_uint d l amin amax asum aavg : ProfSpec.nsum (d :: l) < W64 -> N.of_nat (length (d :: l)) < 4294967296 ->
  stat (map make_uint (d :: l)) (amin, amax, asum, aavg) =
  Some [RImm amin (make_uint (least (d :: l))); RImm amax (make_uint (greatest (d :: l))); RImm asum (make_uint (ProfSpec.nsum (d :: l)));
        RImm aavg (make_uint (ProfSpec.nsum (d :: l) / N.of_nat (length (d :: l))))].
Proof.
  intros H1 H2. unfold stat. cbn [map]. cbn [minmaxsum fst snd]. 
  assert (E0 : cv_minmaxsum (make_uint d) empty_var empty_var empty_var = Some (make_uint d, make_uint d, make_uint d)) by reflexivity.
  rewrite E0. rewrite mms_uint by (try apply N.le_refl; exact H1).
  assert (Ed : cv_div (make_uint (d + ProfSpec.nsum l)) (N.of_nat (length (make_uint d :: map make_uint l))) = Some (make_uint (ProfSpec.nsum (d :: l) / N.of_nat (length (d :: l))))).
  { cbn [length] in *. rewrite map_length. unfold cv_div. rewrite N.mod_small by lia. change (vtype (make_uint (d + ProfSpec.nsum l))) with T_UINT. cbn [N.eqb T_UINT T_DOUBLE T_INT Pos.eqb].
    destruct (N.eqb_spec (N.of_nat (S (length l))) 0); [lia|]. reflexivity. }
  rewrite Ed. reflexivity.
Qed.

(* ---- reading records ---- *)
Lemma rec_val_app l l' a : rec_val (l ++ l') a = rec_val l a ++ rec_val l' a.
Proof. unfold rec_val. apply flat_map_app. Qed.
Lemma rec_path_app tr l l' : rec_path tr (l ++ l') = rec_path tr l ++ rec_path tr l'.
Proof. unfold rec_path. apply flat_map_app. Qed.
Definition imm_in (ids : list N) (e : rent) : Prop := match e with RImm a _ => In a ids | RRef _ => False end.
Lemma rec_val_notin l ids a : Forall (imm_in ids) l -> ~ In a ids -> rec_val l a = [].
Proof.
  intros H Ha. induction H as [|e l He Hl IH]; [reflexivity|]. cbn. destruct e as [i|b v]; [contradiction|]. cbn in He.
  destruct (N.eqb_spec b a); [subst; contradiction|]. exact IH.
Qed.
Lemma rec_path_imm tr l ids : Forall (imm_in ids) l -> rec_path tr l = [].
Proof. induction 1 as [|e l He Hl IH]; [reflexivity|]. cbn. destruct e as [i|b v]; [contradiction|]. exact IH. Qed.
Lemma rec_val_refs l a : Forall (fun e => is_ref e = true) l -> rec_val l a = [].
Proof. induction 1 as [|e l He Hl IH]; [reflexivity|]. cbn. destruct e as [i|b v]; [|discriminate]. exact IH. Qed.
Definition ids4 (x : N * N * N * N) : list N := let '(a, b, c, d) := x in [a; b; c; d].
Lemma stat_ids vals x l : stat vals x = Some l -> Forall (imm_in (ids4 x)) l.
Proof.
  unfold stat. destruct vals as [|v vals]; [intro H; injection H as <-; constructor|]. destruct (minmaxsum _ _) as [[[mn mx] sm]|]; [|discriminate].
  destruct x as [[[amin amax] asum] aavg]. destruct (cv_div _ _); [|discriminate]. intro H; injection H as <-. do 4 (constructor; [cbn; auto 10|]). constructor.
Qed.
Lemma stats_ids mem attrs : forall res l, stats mem attrs res = Some l -> Forall (imm_in (flat_map ids4 res)) l.
Proof.
  induction attrs as [|a attrs IH]; intros res l; cbn [stats]; [intro H; injection H as <-; constructor|]. destruct res as [|x res]; [discriminate|].
  destruct (stat _ _) as [l1|] eqn:E1; [|discriminate]. destruct (stats _ _ _) as [l2|] eqn:E2; [|discriminate]. intro H; injection H as <-.
  apply Forall_app. split.
  - eapply Forall_impl; [|eapply stat_ids; eauto]. intros e He. destruct e; [auto|]. cbn in *. apply in_or_app; auto.
  - eapply Forall_impl; [|eapply IH; eauto]. intros e He. destruct e; [auto|]. cbn in *. apply in_or_app; auto.
Qed.
Lemma nodup_app_disj {A} (l l' : list A) x : NoDup (l ++ l') -> In x l -> In x l' -> False.
Proof. induction l as [|y l IH]; cbn; [contradiction|]. intros H [->|Hx] Hx'; inversion H; subst; [apply H2; apply in_or_app; auto|eauto]. Qed.
Lemma nodup_app_r {A} (l l' : list A) : NoDup (l ++ l') -> NoDup l'.
Proof. induction l; cbn; auto. intro H; inversion H; auto. Qed.
Lemma stats_val mem attrs : forall res l k a x l0 b, stats mem attrs res = Some l -> NoDup (flat_map ids4 res) -> nth_error attrs k = Some a -> nth_error res k = Some x ->
  stat (values_of a mem) x = Some l0 -> In b (ids4 x) -> rec_val l b = rec_val l0 b.
Proof.
  induction attrs as [|a0 attrs IH]; intros res l k a x l0 b; cbn [stats]; [intros _ _ H; destruct k; discriminate|]. destruct res as [|x0 res]; [discriminate|].
  destruct (stat (values_of a0 mem) x0) as [l1|] eqn:E1; [|discriminate]. destruct (stats mem attrs res) as [l2|] eqn:E2; [|discriminate]. intros H Nd Hk Hx Hs Hb; injection H as <-.
  rewrite rec_val_app. cbn [flat_map] in Nd. destruct k as [|k]; cbn in Hk, Hx.
  - injection Hk as ->. injection Hx as ->. rewrite Hs in E1. injection E1 as ->. rewrite (rec_val_notin l2 _ b (stats_ids _ _ _ _ E2)); [apply app_nil_r|].
    intro Z. eapply nodup_app_disj; eauto.
  - rewrite (rec_val_notin l1 _ b (stat_ids _ _ _ E1)); [apply (IH res l2 k a x l0 b); auto; eapply nodup_app_r; eauto|].
    intro Z. eapply nodup_app_disj; [exact Nd|exact Z|]. apply in_flat_map. exists x. split; auto. eapply nth_error_In; eauto.
Qed.

(* ---- time and sums ---- *)
Lemma stretch_total l : forall since q, ordered since l -> since < W64 ->
  since + ProfSpec.nsum (map (fun x => snd (fst x)) (stretches since q l)) = last (map fst l) since /\ last (map fst l) since < W64.
Proof.
  induction l as [|[n o] l IH]; intros since q H Hs; cbn [stretches map ProfSpec.nsum fold_right last fst snd]; [lia|].
  cbn [ordered] in H. destruct H as (H1 & H2 & H3). change 18446744073709551616 with W64 in H2. destruct (IH n (after q o) H3 H2) as (I1 & I2).
  assert (E : last (n :: map fst l) since = last (map fst l) n). { clear. revert n since. induction (map fst l) as [|y r IH]; intros; [reflexivity|]. cbn. destruct r; auto. apply IH. }
  fold (ProfSpec.nsum (map (fun x => snd (fst x)) (stretches n (after q o) l))).
  change (match map fst l with [] => n | _ :: _ => last (map fst l) since end) with (last (n :: map fst l) since). rewrite E. lia.
Qed.
Lemma at_path_le p l : ProfSpec.nsum (durations p l) <= ProfSpec.nsum (map (fun x => snd (fst x)) l).
Proof.
  unfold durations, at_path. induction l as [|x l IH]; cbn; [lia|]. unfold ProfSpec.nsum in *. destruct (path_eqb _ _); cbn; lia.
Qed.
Lemma path_eqb_eq p q : path_eqb p q = true <-> p = q.
Proof. unfold path_eqb. destruct (list_eq_dec region_eq_dec p q); split; auto; congruence. Qed.
(* summing over the paths *)
Lemma spent_partition l ps : NoDup ps -> (forall x, In x l -> In (fst (fst x)) ps) -> ProfSpec.nsum (map (fun q => spent q l) ps) = ProfSpec.nsum (map (fun x => snd (fst x)) l).
Proof.
  intros Nd H. induction l as [|x l IH].
  - cbn. clear. induction ps; cbn; auto.
  - assert (E : ProfSpec.nsum (map (fun q => spent q (x :: l)) ps) = ProfSpec.nsum (map (fun q => if path_eqb (fst (fst x)) q then snd (fst x) else 0) ps) + ProfSpec.nsum (map (fun q => spent q l) ps)).
    { clear. unfold ProfSpec.nsum. induction ps as [|q ps IH]; [reflexivity|]. cbn [map fold_right]. rewrite IH.
      assert (Es : spent q (x :: l) = (if path_eqb (fst (fst x)) q then snd (fst x) else 0) + spent q l).
      { unfold spent, at_path. cbn [filter]. destruct (path_eqb (fst (fst x)) q); [reflexivity|lia]. }
      rewrite Es. lia. }
    rewrite E, IH by (intros; apply H; right; auto). cbn [map]. cbn [ProfSpec.nsum fold_right]. f_equal.
    pose proof (H x (or_introl eq_refl)) as Hx. clear -Nd Hx. induction ps as [|q ps IH]; [contradiction|]. inversion Nd; subst. cbn [map ProfSpec.nsum fold_right].
    destruct (path_eqb (fst (fst x)) q) eqn:Eq.
    + apply path_eqb_eq in Eq. assert (Z : ProfSpec.nsum (map (fun q0 => if path_eqb (fst (fst x)) q0 then snd (fst x) else 0) ps) = 0).
      { assert (Hn : ~ In (fst (fst x)) ps) by (rewrite Eq; auto). clear -Hn. induction ps as [|y ps IH]; [reflexivity|]. cbn [map ProfSpec.nsum fold_right]. destruct (path_eqb (fst (fst x)) y) eqn:E; [apply path_eqb_eq in E; exfalso; apply Hn; left; auto|].
        unfold ProfSpec.nsum in IH. rewrite IH; auto. intro; apply Hn; right; auto. }
      unfold ProfSpec.nsum in Z. rewrite Z. lia.
    + destruct Hx as [Hx|Hx]; [rewrite (proj2 (path_eqb_eq (fst (fst x)) q)) in Eq by auto; discriminate|]. unfold ProfSpec.nsum in IH. rewrite IH; auto.
Qed.
