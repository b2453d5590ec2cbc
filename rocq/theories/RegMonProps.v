From Verif Require Import Base RegMonModel RegMonSpec.
From Coq Require Import Lia.

Definition get0 (tab : list (N * rinfo)) (id : N) : rinfo := match rtab_find tab id with Some i => i | None => (0%Z, 0%Z) end.
Lemma put_same : forall tab id i, get0 (rtab_put tab id i) id = i.
Proof.
  unfold get0, rtab_find. induction tab as [|e r IH]; intros id i; cbn.
  - rewrite N.eqb_refl. reflexivity.
  - destruct (N.eqb (fst e) id) eqn:E; cbn; [rewrite N.eqb_refl; reflexivity|]. rewrite E. apply IH.
Qed.
Lemma put_other : forall tab id i id', id <> id' -> get0 (rtab_put tab id i) id' = get0 tab id'.
Proof.
  unfold get0, rtab_find. induction tab as [|e r IH]; intros id i id' Hn; cbn.
  - destruct (N.eqb_spec id id'); [contradiction|reflexivity].
  - destruct (N.eqb_spec (fst e) id) as [->|E]; cbn.
    + destruct (N.eqb_spec id id'); [contradiction|]. reflexivity.
    + destruct (N.eqb (fst e) id'); [reflexivity|]. apply IH; assumption.
Qed.

Section RM.
Variables (idof : rpath -> N) (min : Z).
Hypothesis inj : forall a b, idof a = idof b -> a = b.

Definition tab_ok (tab : list (N * rinfo)) (h : rhist) : Prop :=
  forall q, q <> [] -> get0 tab (idof q) = (last_long min h q 0, child_sum min h q).

Lemma last_long_app : forall h q acc q' d, last_long min (h ++ [(q', d)]) q acc =
  if list_eq_dec N.eq_dec q' q then (if (min <? d)%Z then d else last_long min h q acc) else last_long min h q acc.
Proof. induction h as [|[a b] h IH]; intros; cbn; [reflexivity|]. apply IH. Qed.
Lemma child_sum_app : forall h q q' d, child_sum min (h ++ [(q', d)]) q =
  (child_sum min h q + (if list_eq_dec N.eq_dec (tl q') q then (if (min <? d)%Z then d else 0) else 0))%Z.
Proof. clear inj. induction h as [|[a b] h IH]; intros; cbn [last_long child_sum app]; [lia|]. rewrite IH. lia. Qed.

Lemma tail_ok : forall tab h x p t' t st m k n o,
  tab_ok tab h ->
  exists tab', pre_end_tail min (mkrm tab (t :: st) m k n o) (node_of idof (x :: p)) t' = Some (mkrm tab' st m k n o)
    /\ tab_ok tab' (h ++ [(x :: p, (t' - t)%Z)]).
Proof.
  intros tab h x p t' t st m k n o H. unfold pre_end_tail, node_of. cbn [r_stack r_tab r_meas r_skip r_num r_outs tl].
  set (d := (t' - t)%Z). eexists. split; [reflexivity|].
  intros q Hq. rewrite last_long_app, child_sum_app. cbn [tl].
  destruct (min <? d)%Z eqn:Ed.
  2:{ rewrite H by exact Hq. destruct (list_eq_dec N.eq_dec (x :: p) q), (list_eq_dec N.eq_dec p q); f_equal; lia. }
  set (tab1 := match rtab_find tab (idof (x :: p)) with Some (_, c) => rtab_put tab (idof (x :: p)) (d, c) | None => rtab_put tab (idof (x :: p)) (d, 0%Z) end).
  assert (H1 : forall q, q <> [] -> get0 tab1 (idof q) = ((if list_eq_dec N.eq_dec (x :: p) q then d else last_long min h q 0), child_sum min h q)).
  { intros q1 Hq1.
    assert (E : tab1 = rtab_put tab (idof (x :: p)) (d, snd (get0 tab (idof (x :: p))))).
    { unfold tab1, get0. destruct (rtab_find tab (idof (x :: p))) as [[a b]|]; reflexivity. }
    rewrite E, (H (x :: p)) by discriminate. cbn [snd].
    destruct (list_eq_dec N.eq_dec (x :: p) q1) as [<-|Hn]; [apply put_same|].
    rewrite put_other by (intro E1; apply Hn, inj, E1). apply H; exact Hq1. }
  destruct p as [|y p'].
  { rewrite H1 by exact Hq. destruct (list_eq_dec N.eq_dec [] q) as [<-|_]; [congruence|]. f_equal. lia. }
  set (pp := y :: p') in *.
  match goal with |- get0 ?T _ = _ => assert (E : T = rtab_put tab1 (idof pp) (fst (get0 tab1 (idof pp)), (snd (get0 tab1 (idof pp)) + d)%Z)) end.
  { unfold get0. destruct (rtab_find tab1 (idof pp)) as [[a b]|]; reflexivity. }
  rewrite E, (H1 pp) by discriminate. cbn [fst snd].
  destruct (list_eq_dec N.eq_dec pp q) as [<-|Hn].
  - rewrite put_same. reflexivity.
  - rewrite put_other by (intro E1; apply Hn, inj, E1). rewrite H1 by exact Hq. f_equal. lia.
Qed.

Lemma rm_run_app : forall l r s, rm_run min s (l ++ r) = match rm_run min s l with Some s' => rm_run min s' r | None => None end.
Proof. induction l as [|e l IH]; intros r s; cbn; [reflexivity|]. destruct (rm_step min s e); [apply IH|reflexivity]. Qed.

(* inside a measured region nothing happens *)
Lemma skip_ok : forall p l, prog idof p l -> forall tab st k n o, (1 <= k)%Z ->
  rm_run min (mkrm tab st true k n o) l = Some (mkrm tab st true k n o).
Proof.
  induction 1 as [p|p e r He _ IH|p t t' l r _ IHl _ IHr|p x t t' l r _ IHl _ IHr]; intros tab st k n o Hk.
  - reflexivity.
  - cbn [rm_run]. destruct e as [b nd t|b nd t]; cbn in He; subst b; cbn [rm_step]; unfold post_begin, pre_end; cbn [negb]; apply IH, Hk.
  - cbn [rm_run rm_step]. unfold post_begin. cbn [negb r_meas r_tab r_stack r_skip r_num r_outs].
    rewrite rm_run_app, IHl by lia. cbn [rm_run rm_step]. unfold pre_end. cbn [negb r_meas r_tab r_stack r_skip r_num r_outs].
    replace (k + 1 - 1)%Z with k by lia. destruct (Z.ltb_spec 0 k); [|lia]. apply IHr, Hk.
  - cbn [rm_run rm_step]. unfold post_begin. cbn [negb r_meas r_tab r_stack r_skip r_num r_outs].
    rewrite rm_run_app, IHl by lia. cbn [rm_run rm_step]. unfold pre_end. cbn [negb r_meas r_tab r_stack r_skip r_num r_outs].
    replace (k + 1 - 1)%Z with k by lia. destruct (Z.ltb_spec 0 k); [|lia]. apply IHr, Hk.
Qed.

Lemma begin_ok : forall tab h x p t st k n o, tab_ok tab h ->
  (heavy min h (x :: p) /\ post_begin (mkrm tab st false k n o) true (node_of idof (x :: p)) t = mkrm tab (t :: st) true 1 n (o ++ [Pull (idof (x :: p))])) \/
  (~ heavy min h (x :: p) /\ post_begin (mkrm tab st false k n o) true (node_of idof (x :: p)) t = mkrm tab (t :: st) false k n o).
Proof.
  intros tab h x p t st k n o H. unfold post_begin, node_of, heavy. cbn [negb r_meas r_tab r_stack r_skip r_num r_outs].
  specialize (H (x :: p) ltac:(discriminate)). unfold get0 in H.
  destruct (rtab_find tab (idof (x :: p))) as [[a b]|].
  - injection H as -> ->. destruct (Z.ltb_spec (2 * child_sum min h (x :: p)) (last_long min h (x :: p) 0)); [left|right]; split; try reflexivity; lia.
  - injection H as H1 H2. right. split; [|reflexivity]. lia.
Qed.

Lemma run_ok : forall p h l h' o, monitored idof min p h l h' o -> forall tab st k n os, tab_ok tab h ->
  exists tab' k', rm_run min (mkrm tab st false k n os) l
      = Some (mkrm tab' st false k' (n + N.of_nat (length o)) (os ++ measurements idof o)) /\ tab_ok tab' h'.
Proof.
  induction 1 as [p h|p h e r h' o He _ IH|p h t t' l r h1 h2 o1 o2 _ IHl _ IHr|p h x t t' l r h1 h2 o1 o2 Hh _ IHl _ IHr|p h x t t' l r h2 o2 Hh Hl _ IHr];
    intros tab st k n os Ht.
  - exists tab, k. cbn. rewrite N.add_0_r, app_nil_r. split; [reflexivity|exact Ht].
  - cbn [rm_run]. destruct e as [b nd t|b nd t]; cbn in He; subst b; cbn [rm_step]; unfold post_begin, pre_end; cbn [negb]; apply IH, Ht.
  - cbn [rm_run rm_step]. unfold post_begin at 1. cbn [negb r_meas r_tab r_stack r_skip r_num r_outs].
    destruct (IHl tab st k n os Ht) as (tab1 & k1 & E1 & T1).
    rewrite rm_run_app, E1. cbn [rm_run rm_step]. unfold pre_end, pre_end_tail. cbn [negb r_meas].
    destruct (IHr tab1 st k1 (n + N.of_nat (length o1))%N (os ++ measurements idof o1) T1) as (tab2 & k2 & E2 & T2).
    exists tab2, k2. rewrite E2. unfold measurements. rewrite flat_map_app, app_assoc, app_length.
    split; [f_equal; f_equal; lia|exact T2].
  - cbn [rm_run rm_step]. destruct (begin_ok tab h x p t st k n os Ht) as [[Hc _]|[_ E]]; [contradiction|]. rewrite E.
    destruct (IHl tab (t :: st) k n os Ht) as (tab1 & k1 & E1 & T1).
    rewrite rm_run_app, E1. cbn [rm_run rm_step]. unfold pre_end. cbn [negb r_meas].
    destruct (tail_ok tab1 h1 x p t' t st false k1 (n + N.of_nat (length o1))%N (os ++ measurements idof o1) T1) as (tab2 & E2 & T2).
    rewrite E2.
    destruct (IHr tab2 st k1 (n + N.of_nat (length o1))%N (os ++ measurements idof o1) T2) as (tab3 & k3 & E3 & T3).
    exists tab3, k3. rewrite E3. unfold measurements. rewrite flat_map_app, app_assoc, app_length.
    split; [f_equal; f_equal; lia|exact T3].
  - cbn [rm_run rm_step]. destruct (begin_ok tab h x p t st k n os Ht) as [[_ E]|[Hc _]]; [|contradiction]. rewrite E.
    rewrite rm_run_app, (skip_ok _ _ Hl) by lia. cbn [rm_run rm_step]. unfold pre_end. cbn [negb r_meas r_skip r_tab r_stack r_num r_outs].
    change (0 <? 1 - 1)%Z with false. cbv iota.
    match goal with |- context [pre_end_tail min (mkrm _ _ _ ?kk ?nn ?oo) _ _] =>
      destruct (tail_ok tab h x p t' t st false kk nn oo Ht) as (tab2 & E2 & T2); rewrite E2;
      destruct (IHr tab2 st kk nn oo T2) as (tab3 & k3 & E3 & T3) end.
    exists tab3, k3. rewrite E3. cbn [measurements flat_map length]. rewrite <- !app_assoc. cbn [app].
    split; [f_equal; f_equal; lia|exact T3].
Qed.

Lemma exists_mon : forall p l, prog idof p l -> forall h, exists h' o, monitored idof min p h l h' o.
Proof. clear inj.
  induction 1 as [p|p e r He _ IH|p t t' l r _ IHl _ IHr|p x t t' l r Hl IHl _ IHr]; intro h.
  - exists h, []. constructor.
  - destruct (IH h) as (h' & o & Hm). exists h', o. constructor; assumption.
  - destruct (IHl h) as (h1 & o1 & H1). destruct (IHr h1) as (h2 & o2 & H2). exists h2, (o1 ++ o2). econstructor; eassumption.
  - destruct (Z.ltb_spec (2 * child_sum min h (x :: p)) (last_long min h (x :: p) 0)) as [Hc|Hc].
    + destruct (IHr (h ++ [(x :: p, (t' - t)%Z)])) as (h2 & o2 & H2). exists h2, ((x :: p) :: o2).
      apply mo_measured; [unfold heavy; lia|exact Hl|exact H2].
    + destruct (IHl h) as (h1 & o1 & H1). destruct (IHr (h1 ++ [(x :: p, (t' - t)%Z)])) as (h2 & o2 & H2).
      exists h2, (o1 ++ o2). eapply mo_light; [unfold heavy; lia|exact H1|exact H2].
Qed.

Lemma last_long_in : forall h q acc, last_long min h q acc = acc \/ exists d, In (q, d) h /\ (min < d)%Z.
Proof. clear inj.
  induction h as [|[q' d] h IH]; intros q acc; cbn [last_long]; [left; reflexivity|].
  destruct (IH q (if list_eq_dec N.eq_dec q' q then if (min <? d)%Z then d else acc else acc)) as [E|(d' & Hi & Hd)].
  - destruct (list_eq_dec N.eq_dec q' q) as [->|_].
    + destruct (Z.ltb_spec min d); [right; exists d; split; [left; reflexivity|assumption]|left; exact E].
    + left; exact E.
  - right. exists d'. split; [right; exact Hi|exact Hd].
Qed.
Lemma child_sum_nonneg : forall h q, (0 <= min)%Z -> (0 <= child_sum min h q)%Z.
Proof. clear inj.
  induction h as [|[q' d] h IH]; intros q Hm; cbn [child_sum]; [lia|]. specialize (IH q Hm).
  destruct (list_eq_dec N.eq_dec (tl q') q); [|lia]. destruct (Z.ltb_spec min d); lia.
Qed.
Lemma mon_incl : forall p h l h' o, monitored idof min p h l h' o -> incl h h'.
Proof. clear inj.
  induction 1; try (apply incl_refl); try assumption.
  - eapply incl_tran; eassumption.
  - eapply incl_tran; [eassumption|]. eapply incl_tran; [|eassumption]. apply incl_appl, incl_refl.
  - eapply incl_tran; [|eassumption]. apply incl_appl, incl_refl.
Qed.
Lemma mon_long : (0 <= min)%Z -> forall p h l h' o, monitored idof min p h l h' o -> forall q, In q o -> exists d, In (q, d) h' /\ (min < d)%Z.
Proof. clear inj.
  intros Hm p h l h' o. induction 1 as [p h|p h e r h' o He _ IH|p h t t' l r h1 h2 o1 o2 H1 IHl H2 IHr|p h x t t' l r h1 h2 o1 o2 Hh H1 IHl H2 IHr|p h x t t' l r h2 o2 Hh Hl H2 IHr]; intros q Hq.
  - destruct Hq.
  - apply IH, Hq.
  - apply in_app_or in Hq as [Hq|Hq]; [|apply IHr, Hq]. destruct (IHl q Hq) as (d & Hi & Hd). exists d. split; [|exact Hd].
    exact (mon_incl _ _ _ _ _ H2 _ Hi).
  - apply in_app_or in Hq as [Hq|Hq]; [|apply IHr, Hq]. destruct (IHl q Hq) as (d & Hi & Hd). exists d. split; [|exact Hd].
    apply (mon_incl _ _ _ _ _ H2), in_or_app. left. exact Hi.
  - destruct Hq as [<-|Hq]; [|apply IHr, Hq].
    unfold heavy in Hh. destruct (last_long_in h (x :: p) 0) as [E|(d & Hi & Hd)].
    + pose proof (child_sum_nonneg h (x :: p) Hm). lia.
    + exists d. split; [|exact Hd]. apply (mon_incl _ _ _ _ _ H2), in_or_app. left. exact Hi.
Qed.
End RM.

(* C73: in every properly nested program, exactly the region instances that are heavy when they begin and
   not inside another measured instance are measured, in order: timers reset at the begin, one snapshot at the
   end of the same instance, nothing in between.  The run never reads an empty time stack. *)
Theorem C73_measured : forall idof min evs, (forall a b : rpath, idof a = idof b -> a = b) -> prog idof [] evs ->
  exists h o s, monitored idof min [] [] evs h o /\ rm_run min rm_init evs = Some s /\
    r_outs s = measurements idof o /\ r_num s = N.of_nat (length o) /\ r_stack s = [] /\ r_meas s = false.
Proof.
  intros idof min evs Hi Hp. destruct (exists_mon idof min [] evs Hp []) as (h & o & Hm).
  destruct (run_ok idof min Hi [] [] evs h o Hm [] [] 0%Z 0%N []) as (tab & k & E & _); [intros q _; reflexivity|].
  exists h, o. eexists. split; [exact Hm|]. split; [exact E|]. cbn. repeat split.
Qed.
(* the measured instances are determined by the program *)
Theorem C73_measured_all : forall idof min evs h o, (forall a b : rpath, idof a = idof b -> a = b) ->
  monitored idof min [] [] evs h o -> option_map r_outs (rm_run min rm_init evs) = Some (measurements idof o).
Proof.
  intros idof min evs h o Hi Hm.
  destruct (run_ok idof min Hi [] [] evs h o Hm [] [] 0%Z 0%N []) as (tab & k & E & _); [intros q _; reflexivity|].
  change (mkrm [] [] false 0 0 []) with rm_init in E. rewrite E. reflexivity.
Qed.
(* only regions with an observed instance longer than the minimum are ever measured *)
Theorem C73_long_only : forall idof min evs h o q, (0 <= min)%Z -> monitored idof min [] [] evs h o -> In q o ->
  exists d, In (q, d) h /\ (min < d)%Z.
Proof. intros idof min evs h o q Hm H Hq. exact (mon_long idof min Hm _ _ _ _ _ H q Hq). Qed.

(* example: idof by binary coding of paths *)
Fixpoint code (q : rpath) : N := match q with [] => 0 | x :: r => (2 ^ x * (2 * code r + 1))%N end.
Lemma pow2_odd : forall x y a b, (2 ^ x * (2 * a + 1) = 2 ^ y * (2 * b + 1))%N -> (x <= y)%N -> x = y /\ a = b.
Proof.
  intros x y a b E Hl. destruct (N.eq_dec x y) as [->|Hn].
  - split; [reflexivity|]. apply N.mul_cancel_l in E; [lia|apply N.pow_nonzero; discriminate].
  - exfalso. replace y with (x + N.succ (y - x - 1))%N in E by lia. rewrite N.pow_add_r, N.pow_succ_r' in E.
    rewrite <- !N.mul_assoc in E. apply N.mul_cancel_l in E; [lia|apply N.pow_nonzero; discriminate].
Qed.
Lemma code_inj : forall a b, code a = code b -> a = b.
Proof.
  assert (Hp : forall x c, (0 < 2 ^ x * (2 * c + 1))%N).
  { intros x c. apply N.mul_pos_pos; [|lia]. apply N.neq_0_lt_0, N.pow_nonzero. discriminate. }
  induction a as [|x a IH]; intros [|y b] E; cbn [code] in E; [reflexivity|specialize (Hp y (code b)); lia|specialize (Hp x (code a)); lia|].
  destruct (N.le_ge_cases x y) as [Hl|Hl].
  - destruct (pow2_odd _ _ _ _ E Hl) as [-> E1]. rewrite (IH b E1). reflexivity.
  - destruct (pow2_odd _ _ _ _ (eq_sym E) Hl) as [-> E1]. rewrite (IH b (eq_sym E1)). reflexivity.
Qed.
Definition rn := node_of code.
Definition ex_rm : list rev_ :=
  [RB true (rn [1]%N) 0; RB true (rn [2; 1]%N) 1; RE true (rn [2; 1]%N) 40; RE true (rn [1]%N) 100;
   RB true (rn [1]%N) 100; RB true (rn [2; 1]%N) 101; RB false None 0; RE true (rn [2; 1]%N) 140; RE true (rn [1]%N) 200]%Z.
Lemma ex_rm_prog : prog code [] ex_rm.
Proof.
  refine (pg_region code [] 1%N 0 100 [RB true (rn [2; 1]%N) 1; RE true (rn [2; 1]%N) 40]%Z _ _ _).
  - refine (pg_region code [1%N] 2%N 1 40 [] [] _ _); constructor.
  - refine (pg_region code [] 1%N 100 200 [RB true (rn [2; 1]%N) 101; RB false None 0; RE true (rn [2; 1]%N) 140]%Z [] _ (pg_nil _ _)).
    refine (pg_region code [1%N] 2%N 101 140 [RB false None 0%Z] [] _ (pg_nil _ _)).
    apply pg_other; [reflexivity|constructor].
Qed.
(* the outer region (100 > 2 * 39) is measured when it runs again; its child then is not observed *)
Example C73_example : prog code [] ex_rm /\ option_map r_outs (rm_run 10 rm_init ex_rm) = Some [Pull (code [1%N]); Push]
  /\ (forall a b, code a = code b -> a = b).
Proof. split; [exact ex_rm_prog|]. split; [vm_compute; reflexivity|exact code_inj]. Qed.

(* child times add up over all instances, the inclusive time is only that of the last one: a region
   whose last instance (90) spent nothing in child regions is not measured *)
Definition ex_rm2 : list rev_ :=
  [RB true (rn [1]%N) 0; RB true (rn [2; 1]%N) 1; RE true (rn [2; 1]%N) 60; RE true (rn [1]%N) 100;
   RB true (rn [1]%N) 100; RE true (rn [1]%N) 190; RB true (rn [1]%N) 190; RE true (rn [1]%N) 280]%Z.
Theorem C73_last_instance_refuted : prog code [] ex_rm2 /\ option_map r_outs (rm_run 10 rm_init ex_rm2) = Some [].
Proof.
  split; [|vm_compute; reflexivity].
  refine (pg_region code [] 1%N 0 100 [RB true (rn [2; 1]%N) 1; RE true (rn [2; 1]%N) 60]%Z _ _ _).
  - refine (pg_region code [1%N] 2%N 1 60 [] [] _ _); constructor.
  - refine (pg_region code [] 1%N 100 190 [] _ (pg_nil _ _) _).
    refine (pg_region code [] 1%N 190 280 [] _ (pg_nil _ _) _). constructor.
Qed.
(* a channel that becomes active inside a region reads an empty time stack at the region's end *)
Theorem C73_inside_refuted : rm_run 10 rm_init [RE true (rn [1%N]) 5%Z] = None.
Proof. reflexivity. Qed.
