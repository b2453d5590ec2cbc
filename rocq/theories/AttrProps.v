(* C25: attribute creation *)
From Verif Require Import Base VariantModel VariantSpec TreeModel TreeSpec TreeProofs TreeProofs2 AttrModel.

(* ---------- specification ---------- *)
(* the documented property rules: presets replace the given properties; global attributes get
   process scope and are unaligned; an attribute without scope gets the default scope; metadata
   class.aggregatable=true sets the aggregatable flag; all other flags stay as they are *)
Definition doc_prop (cf : acfg) (name : bytes) (prop : N) (metas : list (N * value)) : N :=
  let given := match blookup name (ac_presets cf) with Some p => p | None => prop end in
  let glob := negb (N.land given P_GLOBAL =? 0) in
  let scope := if glob then P_SCOPE_PROCESS else if N.land given P_SCOPE_MASK =? 0 then ac_scope cf else N.land given P_SCOPE_MASK in
  let agg := existsb (fun m => (fst m =? ac_agg cf) && veqb (snd m) (VBool true)) metas in
  N.lor (N.lor (N.lor (N.ldiff given P_SCOPE_MASK) scope) (if glob then P_UNALIGNED else 0)) (if agg then P_AGGREGATABLE else 0).

(* create_attribute calls: name, type, properties, metadata *)
Definition acall := (bytes * N * N * list (N * value))%type.
Definition op_call (o : aop) : list acall := match o with OCreate t n ty p m => [(n, ty, p, m)] | _ => [] end.
Definition aop_ok (s : ast) (o : aop) : Prop :=
  match o with
  | OCreate t n ty p m => 1 <= ty <= 9 /\ Forall (fun x => ~ In (fst x) [NAME_ATTR_ID; TYPE_ATTR_ID; PROP_ATTR_ID; INV_ID]) m
  | OOther t o => op_ok (a_tree s) o /\ op_small (a_tree s) o
  | _ => True
  end.
(* every interleaving of any number of threads *)
Inductive arun (cf : acfg) : ast -> list acall -> Prop :=
| ar_init npb nblk t0 tr : cfg_ok npb nblk -> tree_init npb nblk t0 = Some tr -> arun cf (ainit tr) []
| ar_step s G o s' : arun cf s G -> aop_ok s o -> astep cf s o = Some s' -> arun cf s' (op_call o ++ G).

(* ---------- proofs ---------- *)
Lemma blookup_app {A} k (m1 m2 : list (bytes * A)) : blookup k (m1 ++ m2) = match blookup k m1 with Some x => Some x | None => blookup k m2 end.
Proof. induction m1 as [|(k', x) m IH]; cbn; auto. destruct (list_eq_dec N.eq_dec k k'); auto. Qed.
Lemma blookup_in {A} k (m : list (bytes * A)) x : blookup k m = Some x -> In (k, x) m.
Proof. induction m as [|(k', y) m IH]; cbn; [discriminate|]. destruct (list_eq_dec N.eq_dec k k'); intro H; [left; congruence|right; auto]. Qed.
Lemma blookup_none {A} k (m : list (bytes * A)) : blookup k m = None -> ~ In k (map fst m).
Proof. induction m as [|(k', y) m IH]; cbn; [tauto|]. destruct (list_eq_dec N.eq_dec k k'); intros H [Hi|Hi]; try discriminate; try congruence. exact (IH H Hi). Qed.
Lemma in_blookup {A} k (m : list (bytes * A)) x : NoDup (map fst m) -> In (k, x) m -> blookup k m = Some x.
Proof.
  induction m as [|(k', y) m IH]; cbn; [tauto|]. intros ND [H|H]; inversion ND; subst.
  - injection H as -> ->. destruct (list_eq_dec N.eq_dec k k); congruence.
  - destruct (list_eq_dec N.eq_dec k k'); [subst|auto]. exfalso. apply H2. change k' with (fst (k', x)). apply in_map; auto.
Qed.

Lemma final_is_doc cf name prop metas :
  final_prop cf name prop (existsb (fun m => (fst m =? ac_agg cf) && veqb (snd m) (VBool true)) metas) = doc_prop cf name prop metas.
Proof.
  unfold final_prop, doc_prop. set (p := match blookup name (ac_presets cf) with Some p => p | None => prop end).
  set (ag := existsb _ metas). clearbody p ag.
  assert (E : N.lor (N.ldiff p P_SCOPE_MASK) (N.land p P_SCOPE_MASK) = p).
  { apply N.bits_inj. intro i. rewrite N.lor_spec, N.ldiff_spec, N.land_spec. destruct (N.testbit p i), (N.testbit P_SCOPE_MASK i); reflexivity. }
  destruct (N.land p P_GLOBAL =? 0) eqn:Eg; cbn [negb].
  - destruct (N.eqb_spec (N.land p P_SCOPE_MASK) 0) as [E0|E0].
    + rewrite E0, N.lor_0_r in E. rewrite E, N.lor_0_r. destruct ag; [reflexivity|rewrite N.lor_0_r; reflexivity].
    + rewrite E, N.lor_0_r. destruct ag; [reflexivity|rewrite N.lor_0_r; reflexivity].
  - assert (E1 : N.land (N.lor (N.lor (N.ldiff p P_SCOPE_MASK) P_SCOPE_PROCESS) P_UNALIGNED) P_SCOPE_MASK = P_SCOPE_PROCESS).
    { rewrite !N.land_lor_distr_l. replace (N.land (N.ldiff p P_SCOPE_MASK) P_SCOPE_MASK) with 0; [reflexivity|].
      apply N.bits_inj. intro i. rewrite N.land_spec, N.ldiff_spec, N.bits_0. destruct (N.testbit p i), (N.testbit P_SCOPE_MASK i); reflexivity. }
    rewrite E1. change (P_SCOPE_PROCESS =? 0) with false. cbv iota. destruct ag; [reflexivity|rewrite N.lor_0_r; reflexivity].
Qed.

(* accessors along a path *)
Lemma find_map_content a ns : find (fun x => fst x =? a) (map content ns) = option_map content (find (fun n => n_attr n =? a) ns).
Proof. induction ns as [|n ns IH]; cbn; auto. destruct (n_attr n =? a); auto. Qed.
Lemma find_snoc {A} (f : A -> bool) l x : find f (l ++ [x]) = match find f l with Some y => Some y | None => if f x then Some x else None end.
Proof. induction l as [|y l IH]; cbn; auto. destruct (f y); auto. Qed.
Lemma chain_content s i l : wf (t_nodes s) -> has_path s i l -> exists pre, chain (t_nodes s) (Some i) = pre ++ [root_node] /\ map content pre = rev l.
Proof.
  intros Hw Hp. destruct (chain_ends _ Hw i (has_path_in _ _ _ Hw Hp)) as (pre & E1 & _ & E3). exists pre. split; auto.
  rewrite (has_path_cpath _ _ _ Hw Hp). unfold cpath. rewrite E1, E3, map_rev, rev_involutive. reflexivity.
Qed.
Lemma at_find_path s i a l : wf (t_nodes s) -> a <> INV_ID -> has_path s i l -> at_find s i a = option_map snd (find (fun x => fst x =? a) (rev l)).
Proof.
  intros Hw Ha Hp. destruct (chain_content _ _ _ Hw Hp) as (pre & E & <-). unfold at_find. rewrite E, find_snoc, find_map_content.
  cbn [root_node n_attr]. destruct (N.eqb_spec INV_ID a); [congruence|]. destruct (find (fun n => n_attr n =? a) pre) as [m|]; reflexivity.
Qed.
Lemma agg_meta_path cf s cur l : wf (t_nodes s) -> has_path s (or_root cur) l -> cur <> None ->
  agg_meta cf s cur = existsb (fun m => (fst m =? ac_agg cf) && veqb (snd m) (VBool true)) l.
Proof.
  intros Hw Hp Hn. destruct cur as [i|]; [|congruence]. cbn in Hp. destruct (chain_content _ _ _ Hw Hp) as (pre & E & El).
  unfold agg_meta. rewrite E, existsb_app. cbn [existsb root_node n_attr n_val].
  assert (R : veqb VInv (VBool true) = false) by reflexivity. rewrite R, andb_false_r, orb_false_l, orb_false_r.
  assert (G : existsb (fun n => (n_attr n =? ac_agg cf) && veqb (n_val n) (VBool true)) pre = existsb (fun m => (fst m =? ac_agg cf) && veqb (snd m) (VBool true)) (map content pre)).
  { clear. induction pre as [|n pre IH]; cbn; auto. rewrite IH. reflexivity. }
  rewrite G, El. clear. apply eq_true_iff_eq. rewrite !existsb_exists. split; intros (x & Hx & H); exists x; split; auto; [rewrite in_rev; auto|apply in_rev in Hx; auto].
Qed.

Definition id_ok (tr : tree) (x : option N) : Prop := forall i, x = Some i -> In i (ids (t_nodes tr)).
Definition apath (tr : tree) (x : option N) (l : list (N * value)) : Prop :=
  id_ok tr x /\ (not_full tr -> exists i, x = Some i /\ has_path tr i l).
Lemma apath_ext tr tr' x l : ext tr tr' -> apath tr x l -> apath tr' x l.
Proof.
  intros He (H1 & H2). split; [intros i Ei; eapply ext_ids; eauto|]. intro Hn.
  destruct (H2 (not_full_ext _ _ He Hn)) as (i & E & Hp). exists i. split; auto. eapply ext_path; eauto.
Qed.
Definition full_path cf (c : acall) : list (N * value) :=
  let '(n, ty, p, m) := c in ((TYPE_ATTR_ID, VType ty) :: m) ++ [(PROP_ATTR_ID, VInt (Z.of_N (doc_prop cf n p m)))] ++ [(NAME_ATTR_ID, VStr n)].
Definition metas_ok (m : list (N * value)) : Prop := Forall (fun x : N * value => ~ In (fst x) [NAME_ATTR_ID; TYPE_ATTR_ID; PROP_ATTR_ID; INV_ID]) m.
Definition call_ok (c : acall) : Prop := let '(n, ty, p, m) := c in 1 <= ty <= 9 /\ metas_ok m.
Definition ph_ok cf (tr : tree) (G : list acall) (p : aphase) : Prop :=
  match p with
  | AIdle => True
  | AMeta name prop todo cur => exists ty don, In (name, ty, prop, don ++ todo) G /\ apath tr cur ((TYPE_ATTR_ID, VType ty) :: don)
  | AName name cur => exists ty prop m, In (name, ty, prop, m) G /\
      apath tr cur (((TYPE_ATTR_ID, VType ty) :: m) ++ [(PROP_ATTR_ID, VInt (Z.of_N (doc_prop cf name prop m)))])
  | ACheck name cur => exists ty prop m, In (name, ty, prop, m) G /\ apath tr cur (full_path cf (name, ty, prop, m))
  end.
Definition boot_map : list (bytes * option N) := a_map (ainit (mktree 0 0 0 (fun _ => None) (fun _ => None) [])).
Record ainv cf (s : ast) (G : list acall) : Prop := {
  ai_tree : inv (a_tree s);
  ai_boot : forall n, In n boot_nodes -> In n (t_nodes (a_tree s));
  ai_calls : Forall call_ok G;
  ai_ph : forall t, ph_ok cf (a_tree s) G (a_ph s t);
  ai_map : a_map s = a_evts s ++ boot_map;
  ai_nodup : NoDup (map fst (a_map s));
  ai_rets : forall t n x, In (t, n, x) (a_rets s) -> blookup n (a_map s) = Some x;
  ai_evts : forall n x, In (n, x) (a_evts s) -> exists ty p m, In (n, ty, p, m) G /\ apath (a_tree s) x (full_path cf (n, ty, p, m));
}.
Lemma ph_ext cf tr tr' G G' p : ext tr tr' -> (forall c, In c G -> In c G') -> ph_ok cf tr G p -> ph_ok cf tr' G' p.
Proof.
  intros He Hg. destruct p; cbn; auto.
  - intros (ty & don & H1 & H2). exists ty, don. split; auto. eapply apath_ext; eauto.
  - intros (ty & pr & m & H1 & H2). exists ty, pr, m. split; auto. eapply apath_ext; eauto.
  - intros (ty & pr & m & H1 & H2). exists ty, pr, m. split; auto. eapply apath_ext; eauto.
Qed.
Lemma child_req_spec s t a v cur raced l : inv (a_tree s) -> a <> INV_ID -> apath (a_tree s) cur l ->
  exists r tr, child_req s t a v cur raced = Some (r, tr) /\ inv tr /\ ext (a_tree s) tr /\ apath tr r (l ++ [(a, v)]).
Proof.
  intros Hi Ha (Hc & Hp). unfold child_req. destruct raced.
  - assert (Hin : In (or_root cur) (ids (t_nodes (a_tree s)))) by (destruct cur; cbn; [auto|apply root_in; auto]).
    destruct (create_child_spec (a_tree s) t a v (or_root cur) Hi Hin Ha) as (r & tr & E & Hi1 & He & Hr). exists r, tr. split; auto. split; auto. split; auto.
    destruct r as [i|]; split.
    + intros j Ej. injection Ej as <-. eapply child_in. apply Hr.
    + intro Hn. exists i. split; auto. destruct (Hp (not_full_ext _ _ He Hn)) as (j & -> & Hj). cbn in Hr. eapply child_path; [apply Hi1|apply Hr|eapply ext_path; eauto].
    + discriminate.
    + intro Hn. unfold not_full in Hn. lia.
  - destruct (get_child_yields (a_tree s) t a v cur l Hi Hc Ha) as (r & tr & E & Y1 & Y2 & _ & Y4 & Y5).
    { intro Hn. destruct (Hp Hn) as (i & -> & H). exact H. }
    exists r, tr. split; auto. split; auto. split; auto. split; auto.
Qed.
Lemma upd_ph cf tr G (f : N -> aphase) t p : (forall j, ph_ok cf tr G (f j)) -> ph_ok cf tr G p -> forall j, ph_ok cf tr G (upd f t p j).
Proof. intros H1 H2 j. unfold upd. destruct (j =? t); auto. Qed.

Lemma type_node_boot ty : 1 <= ty <= 9 -> exists i, type_node ty = Some i /\ In (mkn i TYPE_ATTR_ID (VType ty) (Some ROOT)) boot_nodes.
Proof.
  intros H. assert (ty = 1 \/ ty = 2 \/ ty = 3 \/ ty = 4 \/ ty = 5 \/ ty = 6 \/ ty = 7 \/ ty = 8 \/ ty = 9) as C by lia.
  destruct C as [->|[->|[->|[->|[->|[->|[->|[->| ->]]]]]]]]; eexists; (split; [reflexivity|]); cbn; tauto.
Qed.
Lemma astep_inv cf s G o s' : ainv cf s G -> aop_ok s o -> astep cf s o = Some s' -> ainv cf s' (op_call o ++ G).
Proof.
  intros I Ho H. destruct I as [I1 I2 I3 I4 I5 I6 I7 I8].
  destruct o as [t name ty prop metas|t raced|t|t name|t o]; cbn [astep op_call app] in *.
  - (* call *)
    destruct Ho as (Hty & Hm).
    assert (Mono : forall c, In c G -> In c ((name, ty, prop, metas) :: G)) by (intros; right; auto).
    destruct (a_ph s t) eqn:Eph; try discriminate. destruct (blookup name (a_map s)) as [x|] eqn:El; injection H as <-.
    + constructor; cbn [a_tree a_map a_ph a_evts a_rets]; auto.
      * constructor; auto. split; auto.
      * intro j. eapply ph_ext; [apply ext_refl|exact Mono|apply I4].
      * intros t' n' x' [E|E]; [injection E as -> -> ->; auto|eauto].
      * intros n x' Hi. destruct (I8 n x' Hi) as (ty' & p & m & Hc & Hp). exists ty', p, m. split; [right; exact Hc|exact Hp].
    + constructor; cbn [aset_ph a_tree a_map a_ph a_evts a_rets]; auto.
      * constructor; auto. split; auto.
      * apply upd_ph; [intro j; eapply ph_ext; [apply ext_refl|exact Mono|apply I4]|].
        cbn [ph_ok]. exists ty, []. split; [left; auto|]. destruct (type_node_boot ty Hty) as (i & -> & Hb). apply I2 in Hb.
        assert (Hp : has_path (a_tree s) i ([] ++ [(TYPE_ATTR_ID, VType ty)])) by (apply (hp_node (a_tree s) (mkn i TYPE_ATTR_ID (VType ty) (Some ROOT)) ROOT []); auto; constructor).
        split; [intros j Ej; injection Ej as <-; eapply has_path_in; eauto; apply I1|]. intros _. exists i. auto.
      * intros n x' Hi. destruct (I8 n x' Hi) as (ty' & p & m & Hc & Hp). exists ty', p, m. split; [right; exact Hc|exact Hp].
  - (* tree request *)
    assert (Step : forall a v cur l p, a <> INV_ID -> apath (a_tree s) cur l ->
       (forall tr r, inv tr -> ext (a_tree s) tr -> apath tr r (l ++ [(a, v)]) -> ph_ok cf tr G (p r)) ->
       match child_req s t a v cur raced with Some (r, tr) => Some (aset_ph s tr t (p r)) | None => None end = Some s' -> ainv cf s' G).
    { intros a v cur l p Ha Hp Hph E. destruct (child_req_spec s t a v cur raced l I1 Ha Hp) as (r & tr & Ec & Hi & He & Hr).
      rewrite Ec in E. injection E as <-. constructor; cbn [aset_ph a_tree a_map a_ph a_evts a_rets]; auto.
      - intros n Hn. eapply ext_in; eauto.
      - apply upd_ph; [intro j; apply (ph_ext cf (a_tree s) tr G G); [exact He|auto|apply I4]|]. apply Hph; auto.
      - intros n x Hi'. destruct (I8 n x Hi') as (ty' & p' & m & Hc & Hp'). exists ty', p', m. split; auto. eapply apath_ext; eauto. }
    pose proof (I4 t) as Pt. destruct (a_ph s t) as [|name prop todo cur|name cur|name cur] eqn:Eph; try discriminate; cbn [ph_ok] in Pt.
    + destruct Pt as (ty & don & Hc & Hp). pose proof (proj1 (Forall_forall _ _) I3 _ Hc) as (Hty & Hm). destruct todo as [|(a, v) todo].
      * refine (Step _ _ _ _ (fun r => AName name r) _ Hp _ H); [discriminate|].
        intros tr r Hi He Hr. exists ty, prop, don. rewrite app_nil_r in Hc. split; auto.
        destruct Hr as (R1 & R2). split; auto. intro Hn. destruct (R2 Hn) as (i & -> & Hi'). exists i. split; auto.
        destruct Hp as (_ & Hp). destruct (Hp (not_full_ext _ _ He Hn)) as (j & -> & Hj).
        rewrite (agg_meta_path cf (a_tree s) (Some j) ((TYPE_ATTR_ID, VType ty) :: don)) in Hi' by (auto; try apply I1; discriminate).
        cbn [existsb fst snd] in Hi'. assert (R : veqb (VType ty) (VBool true) = false) by (unfold veqb; destruct (value_eq_dec (VType ty) (VBool true)); [discriminate|reflexivity]).
        rewrite R, andb_false_r, orb_false_l, final_is_doc in Hi'. exact Hi'.
      * assert (Ha : a <> INV_ID). { unfold metas_ok in Hm; rewrite Forall_forall in Hm. intros ->. apply (Hm (INV_ID, v)); [apply in_or_app; right; left; auto|]. cbn. auto. }
        eapply (Step _ _ _ _ (fun r => AMeta name prop todo r)); [exact Ha|exact Hp| |exact H].
        intros tr r Hi He Hr. exists ty, (don ++ [(a, v)]). rewrite <- app_assoc. split; auto.
    + destruct Pt as (ty & prop & m & Hc & Hp).
      refine (Step _ _ _ _ (fun r => ACheck name r) _ Hp _ H); [discriminate|].
      intros tr r Hi He Hr. exists ty, prop, m. split; auto. unfold full_path. rewrite app_assoc. exact Hr.
  - (* commit *)
    pose proof (I4 t) as Pt. destruct (a_ph s t) as [|name prop todo cur|name cur|name cur] eqn:Eph; try discriminate; cbn [ph_ok] in Pt.
    destruct (blookup name (a_map s)) as [x|] eqn:El; injection H as <-; constructor; cbn [a_tree a_map a_ph a_evts a_rets]; auto.
    + apply upd_ph; [auto|exact I].
    + intros t' n' x' [E|E]; [injection E as -> -> ->; auto|eauto].
    + apply upd_ph; [auto|exact I].
    + rewrite I5. reflexivity.
    + cbn. constructor; auto. apply blookup_none; auto.
    + intros t' n' x' [E|E]; cbn [blookup].
      * injection E as -> -> ->. destruct (list_eq_dec N.eq_dec n' n'); congruence.
      * apply I7 in E. destruct (list_eq_dec N.eq_dec n' name); [congruence|auto].
    + intros n' x' [E|E]; [injection E as -> ->; exact Pt|eauto].
  - destruct (a_ph s t) eqn:Eph; try discriminate. destruct (blookup name (a_map s)) as [x|] eqn:El; injection H as <-; [|constructor; auto].
    constructor; cbn [a_tree a_map a_ph a_evts a_rets]; auto.
    intros t' n' x' [E|E]; [injection E as -> -> ->; auto|eauto].
  - destruct Ho as (Ho & Hs). destruct (tstep_inv (a_tree s) t o I1 Ho Hs) as (r & tr & E & Hi & He & _). rewrite E in H. injection H as <-.
    constructor; cbn [a_tree a_map a_ph a_evts a_rets]; auto.
    + intros n Hn. eapply ext_in; eauto.
    + intro j. apply (ph_ext cf (a_tree s) tr G G); [exact He|auto|apply I4].
    + intros n x Hi'. destruct (I8 n x Hi') as (ty' & p' & m & Hc & Hp'). exists ty', p', m. split; auto. eapply apath_ext; eauto.
Qed.
Lemma arun_inv cf s G : arun cf s G -> ainv cf s G.
Proof.
  induction 1 as [npb nblk t0 tr Hc Hi|s G o s' H IH Ho Hs]; [|eapply astep_inv; eauto].
  destruct (init_inv _ _ _ _ Hc Hi) as (Hv & _). constructor; cbn [ainit a_tree a_map a_ph a_evts a_rets]; auto.
  - unfold tree_init in Hi. destruct ((N.min npb 256 <? 12) || (nblk =? 0)); [discriminate|]. injection Hi as <-. auto.
  - intro t. exact I.
  - vm_compute. repeat constructor; cbn; intuition discriminate.
  - intros t n x [].
  - intros n x [].
Qed.

(* C25, part 1: for every interleaving, all create_attribute and get_attribute calls for a name
   return the same attribute *)
Theorem C25_one_attribute_per_name : forall cf s G t t' name x y, arun cf s G ->
  In (t, name, x) (a_rets s) -> In (t', name, y) (a_rets s) -> x = y.
Proof. intros cf s G t t' name x y H H1 H2. apply arun_inv in H. pose proof (ai_rets _ _ _ H _ _ _ H1). pose proof (ai_rets _ _ _ H _ _ _ H2). congruence. Qed.
Print Assumptions C25_one_attribute_per_name.

(* C25, part 2: the create callbacks run at most once per name, for the attribute that is returned to
   all callers, and a name that some call returned is a bootstrap name or had the callbacks run *)
Theorem C25_created_once : forall cf s G, arun cf s G -> NoDup (map fst (a_evts s)) /\
  (forall name x t y, In (name, x) (a_evts s) -> In (t, name, y) (a_rets s) -> x = y) /\
  (forall t name y, In (t, name, y) (a_rets s) -> In (name, y) (a_evts s) \/ In name [lit_attr_name; lit_attr_type; lit_attr_prop]).
Proof.
  intros cf s G H. apply arun_inv in H. destruct H as [_ _ _ _ I5 I6 I7 _]. split; [|split].
  - rewrite I5, map_app in I6. revert I6. generalize (map fst (a_evts s)) as l1, (map fst boot_map) as l2. clear. induction l1 as [|x l IH]; intros l2 H; [constructor|].
    cbn in H. inversion H; subst. constructor; eauto. intro Hi. apply H2. apply in_or_app; auto.
  - intros name x t y H1 H2. apply I7 in H2. assert (In (name, x) (a_map s)) by (rewrite I5; apply in_or_app; auto).
    rewrite (in_blookup _ _ _ I6 H) in H2. congruence.
  - intros t name y H. apply I7 in H. rewrite I5, blookup_app in H. destruct (blookup name (a_evts s)) eqn:E.
    + left. apply blookup_in. congruence.
    + right. apply blookup_in in H. cbn in H. destruct H as [H|[H|[H|[]]]]; injection H as <- _; cbn; auto.
Qed.
Print Assumptions C25_created_once.

(* C25, part 3: a created attribute has the name it was created under, and the type, metadata and
   the documented properties of one of the calls with this name; unless the context tree is
   full (C17) *)
Theorem C25_new_attribute_contents : forall cf s G name x, arun cf s G -> In (name, x) (a_evts s) -> not_full (a_tree s) ->
  exists i ty prop metas, x = Some i /\ In (name, ty, prop, metas) G /\
    attr_name (a_tree s) i = name /\ attr_type (a_tree s) i = ty /\ attr_prop (a_tree s) i = doc_prop cf name prop metas /\
    has_path (a_tree s) i (((TYPE_ATTR_ID, VType ty) :: metas) ++ [(PROP_ATTR_ID, VInt (Z.of_N (doc_prop cf name prop metas))); (NAME_ATTR_ID, VStr name)]).
Proof.
  intros cf s G name x H He Hn. apply arun_inv in H. destruct H as [I1 _ I3 _ _ _ _ I8].
  destruct (I8 _ _ He) as (ty & p & m & Hc & (_ & Hp)). destruct (Hp Hn) as (i & -> & Hi). exists i, ty, p, m. split; auto. split; auto.
  pose proof (proj1 (Forall_forall _ _) I3 _ Hc) as (Hty & Hm).
  assert (F : forall a, a <> INV_ID -> at_find (a_tree s) i a = option_map snd (find (fun x => fst x =? a) (rev (full_path cf (name, ty, p, m))))) by (intros a Ha; apply at_find_path; auto; apply I1).
  unfold full_path in F. rewrite !rev_app_distr in F. cbn [rev app] in F.
  assert (NF : forall a, In a [NAME_ATTR_ID; TYPE_ATTR_ID; PROP_ATTR_ID; INV_ID] -> find (fun x => fst x =? a) (rev m) = None).
  { intros a Ha. destruct (find (fun x => fst x =? a) (rev m)) as [y|] eqn:E; auto. apply find_some in E. destruct E as (Hy & Ey). apply N.eqb_eq in Ey. subst a.
    apply in_rev in Hy. unfold metas_ok in Hm; rewrite Forall_forall in Hm. destruct (Hm _ Hy Ha). }
  split; [|split; [|split]].
  - unfold attr_name. rewrite F by discriminate. reflexivity.
  - unfold attr_type. rewrite F by discriminate. cbn [find fst]. change (NAME_ATTR_ID =? TYPE_ATTR_ID) with false. change (PROP_ATTR_ID =? TYPE_ATTR_ID) with false. cbv iota.
    rewrite find_snoc, NF by (cbn; auto). reflexivity.
  - unfold attr_prop. rewrite F by discriminate. cbn [find fst]. change (NAME_ATTR_ID =? PROP_ATTR_ID) with false. rewrite N.eqb_refl. cbn. apply N2Z.id.
  - exact Hi.
Qed.
Print Assumptions C25_new_attribute_contents.

(* C25, part 4: different names have different attributes (unless the tree is full) *)
Theorem C25_different_names_different_attributes : forall cf s G n1 n2 x, arun cf s G -> not_full (a_tree s) ->
  In (n1, x) (a_evts s) -> In (n2, x) (a_evts s) -> n1 = n2.
Proof.
  intros cf s G n1 n2 x H Hn H1 H2.
  destruct (C25_new_attribute_contents _ _ _ _ _ H H1 Hn) as (i & _ & _ & _ & -> & _ & <- & _).
  destruct (C25_new_attribute_contents _ _ _ _ _ H H2 Hn) as (j & _ & _ & _ & E & _ & <- & _). congruence.
Qed.
Print Assumptions C25_different_names_different_attributes.

(* Finding: when the context tree is full, get_child returns null, and the invalid attribute is
   stored under the name: every later call for this name returns the invalid attribute *)
Definition arun_exec (cf : acfg) := fix go (s : ast) (ops : list aop) : option ast :=
  match ops with [] => Some s | o :: r => match astep cf s o with Some s' => go s' r | None => None end end.
Definition aex_tree (nb : N) : tree := match tree_init 16 nb 0 with Some t => t | None => mktree 0 0 0 (fun _ => None) (fun _ => None) [] end.
Definition acreate (t : N) (n : bytes) (p : N) : list aop := [OCreate t n 2 p []; ONode t false; ONode t false; OCommit t].
Theorem C25_full_tree_refuted : exists s, arun_exec (mkacfg [] 20 99) (ainit (aex_tree 1)) (acreate 0 [97] 0 ++ acreate 0 [99] 1 ++ acreate 0 [98] 0) = Some s /\
  In ([98], None) (a_evts s).
Proof. eexists. split; [vm_compute; reflexivity|]. vm_compute. auto. Qed.
Print Assumptions C25_full_tree_refuted.

(* non-vacuity: threads 0 and 1 race to create the attribute "a" with different properties; thread 1
   finishes first; thread 0 gets thread 1's attribute and no event *)
Lemma exec_arun cf ops : forall s G s', arun cf s G -> (forall o, In o ops -> match o with OOther _ _ => False | OCreate t n ty p m => 1 <= ty <= 9 /\ m = [] | _ => True end) ->
  arun_exec cf s ops = Some s' -> exists G', arun cf s' G'.
Proof.
  induction ops as [|o r IH]; intros s G s' H Ho E; cbn [arun_exec] in E; [injection E as <-; eauto|].
  destruct (astep cf s o) as [s1|] eqn:E1; [|discriminate]. eapply (IH s1 (op_call o ++ G)); [|intros; apply Ho; right; auto|exact E].
  econstructor; [exact H| |exact E1]. specialize (Ho o (or_introl eq_refl)). destruct o; cbn; auto; [|destruct Ho]. destruct Ho as (Hty & ->). split; auto.
Qed.
Example C25_ex : exists s G, arun (mkacfg [] 20 99) s G /\ not_full (a_tree s) /\
  exists i, a_evts s = [([97], Some i)] /\ In (0, [97], Some i) (a_rets s) /\ In (1, [97], Some i) (a_rets s) /\ attr_prop (a_tree s) i = 512 + 12 + 1024.
Proof.
  assert (E : exists s, arun_exec (mkacfg [] 20 99) (ainit (aex_tree 10)) [OCreate 0 [97] 2 0 []; OCreate 1 [97] 3 512 []; ONode 0 false; ONode 1 true; ONode 1 false; OCommit 1; ONode 0 false; OCommit 0] = Some s /\ not_full (a_tree s) /\
    exists i, a_evts s = [([97], Some i)] /\ In (0, [97], Some i) (a_rets s) /\ In (1, [97], Some i) (a_rets s) /\ attr_prop (a_tree s) i = 512 + 12 + 1024).
  { eexists. split; [vm_compute; reflexivity|]. split; [vm_compute; reflexivity|]. eexists. split; [vm_compute; reflexivity|]. split; [vm_compute; auto|]. split; [vm_compute; auto|vm_compute; reflexivity]. }
  destruct E as (s & E & Hn & Hr).
  assert (I0 : arun (mkacfg [] 20 99) (ainit (aex_tree 10)) []) by (apply (ar_init _ 16 10 0 (aex_tree 10)); [unfold cfg_ok; lia|reflexivity]).
  assert (O0 : forall o, In o [OCreate 0 [97] 2 0 []; OCreate 1 [97] 3 512 []; ONode 0 false; ONode 1 true; ONode 1 false; OCommit 1; ONode 0 false; OCommit 0] ->
     match o with OOther _ _ => False | OCreate t n ty p m => 1 <= ty <= 9 /\ m = [] | _ => True end).
  { apply Forall_forall. constructor; [split; [lia|reflexivity]|]. constructor; [split; [lia|reflexivity]|]. repeat constructor. }
  destruct (exec_arun _ _ _ _ s I0 O0 E) as (G & HG).
  exists s, G. auto.
Qed.
