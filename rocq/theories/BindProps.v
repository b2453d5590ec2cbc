(* C77: annotation bindings.  The tool's begin and end calls mirror the program's regions. *)
From Verif Require Import Base VariantModel VariantSpec TreeModel TreeSpec TreeProofs TreeProofs2 RuntimeModel RuntimeSpec RuntimeProofs RuntimeProofs2 RuntimeProps RuntimeProps2 RuntimeProps3 RuntimeProps4.
From Verif Require Import ParseSpec RFilterModel RFilterSpec RFilterProps EventModel ProfSpec ProfProofs ChnSpec ChnProofs BindModel BindSpec BindProofs.
Open Scope N_scope.

Lemma check_sel c s a k : In k (b_marks (bcheck c s a)) <-> In k (b_marks s) \/ (k = ea_id a /\ selects (bc_triggers c) a).
Proof.
  assert (M : forall k, In k (b_marks (mark s a)) <-> In k (b_marks s) \/ k = ea_id a).
  { clear. intro k. cbn. destruct (existsb (N.eqb (ea_id a)) (b_marks s)) eqn:E; cbn; [|intuition].
    apply existsb_exists in E as (y & Hy & Ey). apply N.eqb_eq in Ey. subst y. split; auto. intros [H|H]; subst; auto. }
  unfold bcheck, selects. destruct (has_flag (ea_prop a) P_SKIP_EVENTS) eqn:Es.
  - split; auto. intros [H|(_ & H & _)]; [auto|discriminate].
  - destruct (bc_triggers c) as [|x l] eqn:Et.
    + destruct (has_flag (ea_prop a) P_NESTED) eqn:En; [rewrite M; intuition|]. split; auto. intros [H|(_ & _ & [(_ & H)|[]])]; [auto|discriminate].
    + destruct (existsb (eqb_bytes (ea_name a)) (x :: l)) eqn:Ex.
      * rewrite M. split; intros [H|H]; auto; [|right; apply H]. right. split; auto. split; auto. right. apply existsb_exists in Ex as (y & Hy & Ey). unfold eqb_bytes in Ey.
        destruct (list_eq_dec N.eq_dec (ea_name a) y); [subst; auto|discriminate].
      * split; auto. intros [H|(_ & _ & [(H & _)|H])]; [auto|discriminate|]. assert (existsb (eqb_bytes (ea_name a)) (x :: l) = true); [|congruence].
        apply existsb_exists. exists (ea_name a). split; auto. unfold eqb_bytes. destruct (list_eq_dec N.eq_dec (ea_name a) (ea_name a)); congruence.
Qed.
Lemma on_ev_marks rx dat c l : forall s, b_marks (fold_left (on_ev rx dat c) l s) = b_marks s.
Proof.
  induction l as [|e l IH]; intro s; cbn; auto. rewrite IH. unfold on_ev. destruct (negb (ev_chn e =? bc_chn c)); auto. destruct (negb (existsb _ _)); auto.
  destruct (negb (passes _ _ _ _)); auto. destruct (ev_kind e); auto.
Qed.

(* exactly the attributes the configuration selects are bound: by default the nested ones, otherwise those whose
   names are listed, and never those without events; subscription attributes only when a service subscribes *)
Theorem C77_bound : forall rx dat c s attrs l s' b', brun rx dat c (s, binit c attrs) l = Some (s', b') -> forall k,
  In k (b_marks b') <-> exists a, ea_id a = k /\ selects (bc_triggers c) a /\
    ((In a attrs /\ ea_sub a = false) \/ (In (XCreate a) l /\ ea_sub a = false) \/ In (XSubscribe a) l).
Proof.
  intros rx dat c s attrs l s' b' E k.
  assert (I0 : forall b, In k (b_marks (fold_left (fun s a => if negb (has_flag (ea_prop a) P_SKIP_EVENTS) && negb (ea_sub a) then bcheck c s a else s) attrs b)) <->
     In k (b_marks b) \/ exists a, ea_id a = k /\ selects (bc_triggers c) a /\ In a attrs /\ ea_sub a = false).
  { clear. induction attrs as [|a attrs IH]; intro b; cbn; [split; auto; intros [H|(a & _ & _ & [] & _)]; auto|]. rewrite IH.
    assert (Z : In k (b_marks (if negb (has_flag (ea_prop a) P_SKIP_EVENTS) && negb (ea_sub a) then bcheck c b a else b)) <-> In k (b_marks b) \/ (ea_id a = k /\ selects (bc_triggers c) a /\ ea_sub a = false)).
    { destruct (ea_sub a); cbn; [rewrite andb_false_r; split; auto; intros [H|(_ & _ & H)]; [auto|discriminate]|]. rewrite andb_true_r.
      destruct (has_flag (ea_prop a) P_SKIP_EVENTS) eqn:Es; cbn; [|rewrite check_sel; intuition]. split; auto. intros [H|(_ & (H & _) & _)]; [auto|congruence]. }
    rewrite Z. split.
    - intros [[H|(H1 & H2 & H3)]|(x & H1 & H2 & H3 & H4)]; [auto|right; exists a; auto|right; exists x; auto].
    - intros [H|(x & H1 & H2 & [->|H3] & H4)]; [auto|auto|right; exists x; auto]. }
  assert (G : forall p, brun rx dat c p l = Some (s', b') -> In k (b_marks b') <-> In k (b_marks (snd p)) \/ exists a, ea_id a = k /\ selects (bc_triggers c) a /\ ((In (XCreate a) l /\ ea_sub a = false) \/ In (XSubscribe a) l)).
  { clear E I0. induction l as [|x l IH]; intros p E; cbn in E.
    - injection E as ->. cbn. split; auto. intros [H|(a & _ & _ & [([] & _)|[]])]; auto.
    - destruct (bstep rx dat c p x) as [q|] eqn:E1; [|discriminate]. rewrite (IH q E). destruct x as [u o|a|a]; cbn in E1.
      + destruct (rt_step (fst p) u o) as [s1 y| |]; [|discriminate|discriminate]. injection E1 as <-. cbn [snd]. rewrite on_ev_marks. split.
        * intros [H|(a & H1 & H2 & H3)]; [auto|right; exists a; split; auto; split; auto]. destruct H3 as [(H3 & H4)|H3]; [left; split; [right|]|right; right]; auto.
        * intros [H|(a & H1 & H2 & [([H3|H3] & H4)|[H3|H3]])]; try discriminate; [auto|right; exists a; auto|right; exists a; auto].
      + injection E1 as <-. cbn [snd].
        assert (Z : In k (b_marks (if ea_sub a then snd p else bcheck c (snd p) a)) <-> In k (b_marks (snd p)) \/ (ea_id a = k /\ selects (bc_triggers c) a /\ ea_sub a = false)).
        { destruct (ea_sub a); [split; auto; intros [H|(_ & _ & H)]; [auto|discriminate]|]. rewrite check_sel. intuition. }
        rewrite Z. split.
        * intros [[H|(H1 & H2 & H3)]|(x & H1 & H2 & H3)]; [auto|right; exists a; split; auto; split; auto; left; split; [left|]; auto|].
          right; exists x; split; auto; split; auto. destruct H3 as [(H3 & H4)|H3]; [left; split; [right|]|right; right]; auto.
        * intros [H|(x & H1 & H2 & [([H3|H3] & H4)|[H3|H3]])]; try discriminate; [auto|injection H3 as <-; auto|right; exists x; auto|right; exists x; auto].
      + injection E1 as <-. cbn [snd]. rewrite check_sel. split.
        * intros [[H|(H1 & H2)]|(x & H1 & H2 & H3)]; [auto|right; exists a; split; auto; split; auto; right; left; auto|].
          right; exists x; split; auto; split; auto. destruct H3 as [(H3 & H4)|H3]; [left; split; [right|]|right; right]; auto.
        * intros [H|(x & H1 & H2 & [([H3|H3] & H4)|[H3|H3]])]; try discriminate; [auto|right; exists x; auto|injection H3 as <-; auto|right; exists x; auto]. }
  rewrite (G _ E). cbn [snd]. unfold binit. rewrite I0. cbn. split.
  - intros [[[]|(a & H1 & H2 & H3)]|(a & H1 & H2 & H3)]; exists a; intuition.
  - intros (a & H1 & H2 & [H3|H3]); [left; right; exists a; auto|right; exists a; auto].
Qed.
Print Assumptions C77_bound.

Lemma init_calls c attrs t : calls_of t (b_calls (binit c attrs)) = [].
Proof.
  unfold binit. assert (G : forall b, calls_of t (b_calls b) = [] -> calls_of t (b_calls (fold_left (fun s a => if negb (has_flag (ea_prop a) P_SKIP_EVENTS) && negb (ea_sub a) then bcheck c s a else s) attrs b)) = []); [|apply G; reflexivity].
  induction attrs as [|a attrs IH]; intros b H; cbn; auto. apply IH. destruct (negb _ && negb _); auto. destruct (check_cases c b a) as [->| ->]; auto.
  cbn. unfold calls_of in *. rewrite filter_app, H. reflexivity.
Qed.
(* at every moment, the ranges the tool has open for a thread are the thread's open regions of bound
   attributes that pass the filter, in the same order: every on_end closes the innermost range, with
   the attribute and value of its on_begin.  For any program and interleaving of threads that starts
   before thread t opens a region, including stack errors. *)
Theorem C77_mirror : forall rx dat c attrs s t l s' b', rt_reach s -> In (bc_chn c) (r_act s) -> open_regions s t = [] ->
  run_fine rx dat c t (s, binit c attrs) l -> brun rx dat c (s, binit c attrs) l = Some (s', b') -> not_full (r_tree s') ->
  tool_stack (calls_of t (b_calls b')) = Some (known (b_marks b') (passes rx dat c) (open_regions s' t)).
Proof.
  intros rx dat c attrs s t l s' b' Hr Hc Ho F E Hnf. pose proof Hr as (ops0 & xs0 & Hh). destruct (history_rel _ _ _ Hh) as (Hrel & _). set (a := fst (a_run ast_init ops0)) in *.
  assert (Hn : NoDup (a_act a)) by (apply run_act; constructor).
  assert (J0 : J rx dat c t (s, binit c attrs) a).
  { constructor; cbn [fst snd]; auto; [rewrite <- (rl_act _ _ Hrel); auto|]. rewrite init_calls. rewrite <- (regions_eq _ _ t Hrel), Ho. reflexivity. }
  destruct (run_J rx dat c t l _ a (s', b') J0 F E Hnf) as (a' & [R _ _ T]). cbn [fst snd] in *. rewrite T. rewrite (regions_eq _ _ t R). reflexivity.
Qed.
Print Assumptions C77_mirror.

(* ---- nested programs of any attributes ---- *)
Lemma step_log s u o s' x : rt_step s u o = SOk s' x -> exists l, r_log s' = r_log s ++ l.
Proof.
  intro E. assert (D : no_act o \/ (exists k, o = OActivate k) \/ (exists k, o = ODeactivate k)) by (destruct o; cbn; auto; right; eauto).
  destruct D as [D|[(k & ->)|(k & ->)]].
  - destruct (ChnProofs.api_step _ _ _ _ _ D E) as (_ & l & -> & _). eauto.
  - cbn in E. injection E as <- _. exists []. cbn. rewrite app_nil_r. auto.
  - cbn in E. injection E as <- _. exists []. cbn. rewrite app_nil_r. auto.
Qed.
Definition apis (ops : list (N * rop)) : list bop := map (fun x => XApi (fst x) (snd x)) ops.
Lemma brun_apis rx dat c ops : forall s b s' b', brun rx dat c (s, b) (apis ops) = Some (s', b') ->
  exists evs xs, rt_run s ops = Some (s', xs) /\ r_log s' = r_log s ++ evs /\ b' = fold_left (on_ev rx dat c) evs b.
Proof.
  induction ops as [|[u o] ops IH]; cbn; intros s b s' b' E.
  - injection E as <- <-. exists [], []. rewrite app_nil_r. auto.
  - destruct (rt_step s u o) as [s1 y| |] eqn:E1; [|discriminate|discriminate]. cbn in E. destruct (step_log _ _ _ _ _ E1) as (l & El).
    destruct (IH _ _ _ _ E) as (evs & xs & R1 & R2 & R3). rewrite R1. exists (l ++ evs), (y :: xs). split; auto. split; [rewrite R2, El, app_assoc; auto|].
    rewrite R3, El. replace (skipn (length (r_log s)) (r_log s ++ l)) with l by (clear; induction (r_log s); cbn; auto). rewrite fold_left_app. reflexivity.
Qed.
(* the call a callback leads to *)
Definition call_for (bd : N -> value -> bool) (t : N) (x : evk * N * value) : list bcall :=
  let '(k, a, v) := x in if bd a v then match k with PreBegin => [CBegin t a v] | PreEnd => [CEnd t a v] | _ => [] end else [].
Lemma fold_calls rx dat c t evs : forall b, calls_of t (b_calls (fold_left (on_ev rx dat c) evs b)) =
  calls_of t (b_calls b) ++ flat_map (call_for (fun a v => existsb (N.eqb a) (b_marks b) && passes rx dat c v) t) (received (bc_chn c) t evs).
Proof.
  induction evs as [|e evs IH]; intro b; cbn [fold_left]; [cbn; rewrite app_nil_r; auto|]. rewrite IH.
  assert (M : b_marks (on_ev rx dat c b e) = b_marks b) by (apply (on_ev_marks rx dat c [e])). rewrite M.
  assert (Z : calls_of t (b_calls (on_ev rx dat c b e)) = calls_of t (b_calls b) ++ flat_map (call_for (fun a v => existsb (N.eqb a) (b_marks b) && passes rx dat c v) t) (received (bc_chn c) t [e])).
  { unfold received, on_ev. cbn [filter]. destruct (N.eqb_spec (ev_chn e) (bc_chn c)) as [Ec|Ec]; cbn [negb andb].
    - rewrite andb_true_r. destruct (existsb (N.eqb (ev_attr e)) (b_marks b)) eqn:Em; cbn [negb]; [destruct (passes rx dat c (ev_val e)) eqn:Ep; cbn [negb]|].
      + destruct (ev_kind e) eqn:Ek; cbn [b_calls]; unfold calls_of; rewrite ?filter_app; cbn [filter thread_call];
          destruct (ev_thr e =? t) eqn:Et; cbn; rewrite ?Ek, ?Em, ?Ep; cbn; rewrite ?app_nil_r; auto; apply N.eqb_eq in Et; rewrite Et; auto.
      + destruct (ev_thr e =? t); cbn; rewrite ?Em, ?Ep; cbn; rewrite app_nil_r; auto.
      + destruct (ev_thr e =? t); cbn; rewrite ?Em; cbn; rewrite app_nil_r; auto.
    - rewrite andb_false_r. cbn. rewrite app_nil_r. auto. }
  rewrite Z, <- app_assoc, <- flat_map_app. f_equal. f_equal. unfold received. rewrite <- map_app. f_equal. rewrite <- filter_app. reflexivity.
Qed.
Lemma nested_call_trace bd t ops cs : nested_calls bd t ops cs -> exists tr, nested_trace ops tr /\ flat_map (call_for bd t) tr = cs.
Proof.
  induction 1 as [|a v e body rest cb cr H1 H2 H3 _ (t1 & T1 & E1) _ (t2 & T2 & E2)|a rest cr _ (t1 & T1 & E1)|a rest cr _ (t1 & T1 & E1)|a rest cr _ (t1 & T1 & E1)|a rest cr _ (t1 & T1 & E1)].
  - exists []. split; constructor.
  - eexists. split; [eapply nt_region; eauto|]. rewrite !flat_map_app, E1, E2. destruct (run_events a); cbn; [|reflexivity]. destruct (bd (at_id a) v); cbn; rewrite ?app_nil_r; reflexivity.
  - exists t1. split; auto. constructor; auto.
  - exists t1. split; auto. constructor; auto.
  - exists t1. split; auto. constructor; auto.
  - exists t1. split; auto. constructor; auto.
Qed.
(* a thread's properly nested annotations, whatever other threads do: for each bound region that passes the
   filter one on_begin and one on_end with its value, properly nested, and no other calls *)
Theorem C77_nested : forall rx dat c s b t ops s' b' cs, rt_reach s -> r_err s t = false -> In (bc_chn c) (r_act s) ->
  ops_ok s ops -> (forall u o, In (u, o) ops -> leaves_channel (bc_chn c) o) ->
  nested_calls (fun a v => existsb (N.eqb a) (b_marks b) && passes rx dat c v) t (ops_of t ops) cs -> Forall no_process (ops_of t ops) ->
  (forall a v, In (OBegin a v) (ops_of t ops) -> asvalue a = true -> rt_get s t a = None) ->
  brun rx dat c (s, b) (apis ops) = Some (s', b') -> not_full (r_tree s') ->
  calls_of t (b_calls b') = calls_of t (b_calls b) ++ cs.
Proof.
  intros rx dat c s b t ops s' b' cs Hr He Hc Ho Hl Hn Hnp Hf E Hnf. destruct (brun_apis _ _ _ _ _ _ _ _ E) as (evs & xs & R1 & R2 & ->).
  destruct (nested_call_trace _ _ _ _ Hn) as (tr & Ht & <-).
  pose proof (C24_nested_callbacks s t ops s' xs (bc_chn c) tr Hr He Ho R1 Hnf Hc ltac:(intros u o Hi; destruct (Hl u o Hi); split; auto) Ht Hnp Hf) as HR.
  rewrite R2 in HR. unfold received in HR. rewrite filter_app, map_app in HR. apply app_inv_head in HR. rewrite fold_calls. unfold received at 1. rewrite HR. reflexivity.
Qed.
Print Assumptions C77_nested.

(* ---- cases ---- *)
Definition rfun : attr := mkattr 12 276.        (* thread scope, nested *)
Definition efun : eattr := mkea 12 [102] T_STRING 276 false.
Definition enote : eattr := mkea 13 [110] T_STRING 1044 false.
Definition sdat (v : value) : bytes := match v with VStr s => s | _ => [] end.
Definition no_rx (_ _ : bytes) : bool := false.
Definition excl_x : region_filter := mkRF None (Some (mkF [] [[120]] [])).   (* exclude region x *)
Definition kcfg : bcfg := mkbc 7 [] (Some excl_x).
Definition pre_ops : list (N * rop) := mk_attr_ops ++ [(0, OActivate 7)].
(* two threads; m and y are reported, x is excluded, thread 1 makes a stack error; meanwhile an attribute
   that is not selected and one that is are created *)
Definition case_ops : list bop :=
  [XApi 0 (OBegin rfun (VStr [109])); XApi 1 (OBegin rfun (VStr [121])); XApi 0 (OBegin rfun (VStr [120]));
   XCreate enote; XCreate (mkea 14 [105] T_STRING 276 false); XApi 0 (OBegin rfun (VStr [122])); XApi 0 (OEnd rfun); XApi 0 (OEnd rfun);
   XApi 1 (OEndCheck rfun (VStr [109]))].
Definition case_res : rt * bst := match brun no_rx sdat kcfg (st pre_ops, binit kcfg [efun]) case_ops with Some p => p | None => (rt_init tr0, mkbst [] []) end.
Lemma plain_fun o : op_attr o = Some rfun -> plain_op o.
Proof. destruct o; cbn; intro H; try discriminate; injection H as ->; left; reflexivity. Qed.
Ltac fine_step :=
  match goal with
  | |- step_fine _ _ _ (XApi _ _) => split; [apply attr_okb_ok; vm_compute; reflexivity
        |split; [apply plain_fun; reflexivity|split; [split; discriminate|intros ? ? H; discriminate H]]]
  | |- step_fine _ _ _ (XCreate _) => intros v H; vm_compute in H; repeat (destruct H as [H|H]; [discriminate H|]); exact H
  end.
Theorem C77_case : rt_reach (st pre_ops) /\ In 7 (r_act (st pre_ops)) /\ open_regions (st pre_ops) 0 = [] /\
  run_fine no_rx sdat kcfg 0 (st pre_ops, binit kcfg [efun]) case_ops /\
  brun no_rx sdat kcfg (st pre_ops, binit kcfg [efun]) case_ops = Some case_res /\ not_full (r_tree (fst case_res)) /\
  b_marks (snd case_res) = [14; 12] /\
  b_calls (snd case_res) = [CMark 12; CBegin 0 12 (VStr [109]); CBegin 1 12 (VStr [121]); CMark 14; CBegin 0 12 (VStr [122]); CEnd 0 12 (VStr [122])].
Proof.
  split; [exists pre_ops; eexists; apply mk_history; vm_compute; reflexivity|]. split; [vm_compute; auto|]. split; [vm_compute; reflexivity|].
  split; [|split; [vm_compute; reflexivity|split; [apply N.ltb_lt; vm_compute; reflexivity|split; vm_compute; reflexivity]]].
  unfold case_ops.
  repeat match goal with
  | |- run_fine _ _ _ _ _ [] => exact Logic.I
  | |- run_fine _ _ _ _ _ (_ :: _) => split; [fine_step|]
  | |- match bstep ?a ?b ?c ?d ?e with Some _ => _ | None => _ end => let r := eval vm_compute in (bstep a b c d e) in replace (bstep a b c d e) with r by (vm_compute; reflexivity); cbv beta iota
  end.
Qed.
Print Assumptions C77_case.

(* a case of C77_nested: a bound region, an excluded one inside it, and a value attribute *)
Definition nest_ops : list (N * rop) :=
  [(0, OBegin rfun (VStr [109])); (1, OBegin rfun (VStr [121])); (0, OBegin rfun (VStr [120])); (0, OBegin a_iter (VInt 3)); (0, OEnd a_iter);
   (0, OEndCheck rfun (VStr [120])); (0, OEnd rfun)].
Theorem C77_nested_case : exists s' b', brun no_rx sdat kcfg (st pre_ops, binit kcfg [efun]) (apis nest_ops) = Some (s', b') /\
  ops_ok (st pre_ops) nest_ops /\
  nested_calls (fun a v => existsb (N.eqb a) (b_marks (binit kcfg [efun])) && passes no_rx sdat kcfg v) 0 (ops_of 0 nest_ops) [CBegin 0 12 (VStr [109]); CEnd 0 12 (VStr [109])] /\
  Forall no_process (ops_of 0 nest_ops) /\
  b_calls b' = [CMark 12; CBegin 0 12 (VStr [109]); CBegin 1 12 (VStr [121]); CEnd 0 12 (VStr [109])].
Proof.
  eexists _, _. split; [vm_compute; reflexivity|]. split; [apply ops_okb_ok; vm_compute; reflexivity|]. split; [|split; [|vm_compute; reflexivity]].
  - match goal with |- nested_calls ?b _ _ _ => set (bd := b) end.
    refine (nc_region bd 0 rfun (VStr [109]) (OEnd rfun) [OBegin rfun (VStr [120]); OBegin a_iter (VInt 3); OEnd a_iter; OEndCheck rfun (VStr [120])] [] [] [] _ _ _ _ _); [discriminate|auto|discriminate| |constructor].
    refine (nc_region bd 0 rfun (VStr [120]) (OEndCheck rfun (VStr [120])) [OBegin a_iter (VInt 3); OEnd a_iter] [] [] [] _ _ _ _ _); [discriminate|auto|discriminate| |constructor].
    refine (nc_region bd 0 a_iter (VInt 3) (OEnd a_iter) [] [] [] [] _ _ _ _ _); [discriminate|auto|intros _ b w []|constructor|constructor].
  - repeat (apply Forall_cons; [intros a H; injection H as <-; discriminate|]). constructor.
Qed.
Print Assumptions C77_nested_case.

(* ---- where the calls do not match ---- *)
Definition unmatched (l : list bop) (t : N) : Prop := exists s' b', brun no_rx sdat kcfg (st pre_ops, binit kcfg [efun]) l = Some (s', b') /\ tool_stack (calls_of t (b_calls b')) = None.
(* set changes the value of an open region without a call: the tool is then told to end a range it never began,
   or with a value it does not know *)
Theorem C77_set_refuted :
  unmatched [XApi 0 (OBegin rfun (VStr [120])); XApi 0 (OSet rfun (VStr [121])); XApi 0 (OEnd rfun)] 0 /\
  (exists s' b', brun no_rx sdat kcfg (st pre_ops, binit kcfg [efun]) [XApi 0 (OBegin rfun (VStr [121])); XApi 0 (OSet rfun (VStr [120])); XApi 0 (OEnd rfun)] = Some (s', b') /\
     open_regions s' 0 = [] /\ tool_stack (calls_of 0 (b_calls b')) = Some [(12, VStr [121])]).
Proof. split; [|eexists _, _; split; [vm_compute; reflexivity|split; vm_compute; reflexivity]]. eexists _, _. split; [vm_compute; reflexivity|]. vm_compute. reflexivity. Qed.
Print Assumptions C77_set_refuted.
(* an attribute that is bound while a region of it is open: on_end without on_begin.  Attributes can be used as soon
   as they are in the attribute map, before the callbacks for the new attribute run (Caliper.cpp:736-746) *)
Theorem C77_late_refuted : exists s' b', brun no_rx sdat kcfg (st pre_ops, binit kcfg []) [XApi 1 (OBegin rfun (VStr [121])); XCreate efun; XApi 1 (OEnd rfun)] = Some (s', b') /\
  tool_stack (calls_of 1 (b_calls b')) = None.
Proof. eexists _, _. split; [vm_compute; reflexivity|]. vm_compute. reflexivity. Qed.
Print Assumptions C77_late_refuted.
(* on_mark_attribute is called again for an attribute that is already bound *)
Theorem C77_mark_once_refuted : exists s' b', brun no_rx sdat kcfg (st pre_ops, binit kcfg [efun]) [XSubscribe efun] = Some (s', b') /\ b_calls b' = [CMark 12; CMark 12].
Proof. eexists _, _. split; [vm_compute; reflexivity|]. vm_compute. reflexivity. Qed.
Print Assumptions C77_mark_once_refuted.
(* an error in one of the two filters switches off both: excluded regions are reported *)
Theorem C77_filter_error_refuted : exists e, snd (from_config (fun _ => true) (k_match ++ [c_lpar]) [120]) = Some e /\
  bind_filter (fun _ => true) (k_match ++ [c_lpar]) [120] = None /\
  bind_filter (fun _ => true) [] [120] = Some excl_x /\ (forall v, passes no_rx sdat (mkbc 7 [] None) v = true) /\ passes no_rx sdat kcfg (VStr [120]) = false.
Proof. eexists. split; [vm_compute; reflexivity|]. split; [vm_compute; reflexivity|]. split; [vm_compute; reflexivity|]. split; [reflexivity|vm_compute; reflexivity]. Qed.
Print Assumptions C77_filter_error_refuted.

(* ---- which values pass, in terms of the configuration texts ---- *)
(* the filter of a binding is read from two texts, each a list of items - names, match(...), startswith(...),
   regex(...), with any quoting and white space.  A value is reported exactly if no exclude item selects it and,
   if there are include patterns, some include item selects it *)
Theorem C77_filter rx rx_ok dat ch trig ti ii te ie v : ti <> [] -> te <> [] -> Forall2 item_text ti ii -> Forall2 item_text te ie ->
  Forall (fun it => Forall (fun r => rx_ok r = true) (regexes it)) (ii ++ ie) ->
  (passes rx dat (mkbc ch trig (bind_filter rx_ok (joinc [TextModel.c_comma] ti) (joinc [TextModel.c_comma] te))) v = true <->
   ~ (exists it, In it ie /\ RFilterSpec.selects rx it (dat v)) /\
   ((exists it, In it ii /\ has_pattern it) -> exists it, In it ii /\ RFilterSpec.selects rx it (dat v))).
Proof.
  intros N1 N2 H1 H2 K. destruct (C39_pass rx_ok rx ti ii te ie N1 N2 H1 H2 K) as (rf & E & P & F).
  unfold passes, bind_filter. cbn [bc_filter]. rewrite E. destruct (has_filters rf) eqn:Ef; [apply P|].
  split; [intros _|reflexivity]. assert (Nf : ~ exists it, In it (ii ++ ie) /\ has_pattern it) by (intro X; apply F in X; discriminate X).
  split.
  - intros (it & Hi & Hs). apply Nf. exists it. split; [apply in_or_app; auto|].
    destruct it as [w|l|l|l]; cbn [RFilterSpec.selects has_pattern] in *; [tauto|destruct Hs as (w & ? & ? & ?); eauto|destruct Hs as (w & r & ? & ? & ?); eauto|destruct Hs as (w & ? & ? & ?); eauto].
  - intros (it & Hi & Hp). exfalso. apply Nf. exists it. split; [apply in_or_app; auto|exact Hp].
Qed.
Print Assumptions C77_filter.
