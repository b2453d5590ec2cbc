(* C65, part 3: the theorems on get_globals *)
From Verif Require Import Base VariantModel VariantSpec TreeModel TreeSpec TreeProofs TreeProofs2
  RuntimeModel RuntimeSpec RuntimeProofs RuntimeProofs2 RuntimeProps2 RuntimeProps3 RuntimeProps4 ChnModel ChnSpec ChnProofs ChnProofs2 ChnProofs3 ChnProofs4 ChnProofs5 ChnProofs6 ChnProps ChnProps2 GlobModel GlobProps GlobProps2.

Lemma view_ext tr tr' e : inv tr -> inv tr' -> ext tr tr' -> (exists n, node_at tr (fst e) = Some n) -> ent_view tr' (Some e) = ent_view tr (Some e).
Proof.
  intros Hi Hi' Hx (n & En). destruct e as [i v]. cbn [fst] in En. 
  assert (Hin : In n (t_nodes tr) /\ n_id n = i). { unfold node_at in En. apply List.find_some in En. destruct En as (A1 & A2). apply N.eqb_eq in A2. auto. }
  destruct Hin as (Hin & Eid). assert (Hin' : In n (t_nodes tr')) by (eapply ext_in; eauto). pose proof (in_node_at _ n (wf_nodup _ (proj1 Hi')) Hin') as En'. rewrite Eid in En'.
  unfold ent_view. rewrite En, En'. destruct (n_attr n =? NAME_ATTR_ID); auto.
  assert (Hp : has_path tr i (cpath (t_nodes tr) i)) by (apply cpath_has_path; [apply Hi|rewrite <- Eid; apply in_map; auto]).
  apply (ext_path _ tr') in Hp; auto. apply has_path_cpath in Hp; [|apply Hi']. symmetry. exact Hp.
Qed.
Lemma full_mono tr tr' : ext tr tr' -> not_full tr' -> not_full tr.
Proof. intros Hx Hf. eapply not_full_ext; eauto. Qed.

(* the attribute's node id and its properties: attributes have ids from 12 on (C25) *)
Definition glob_ok (glob : N -> bool) : Prop := forall a, glob a = true -> 12 <= a /\ a <> INV_ID.
(* the values stored in a list of entries *)
Definition values_of (tr : tree) (es : list (N * value)) : list (N * value) := flat_map (fun e => ent_view tr (Some e)) es.

Theorem C65_process_globals : forall t0 h s t glob es tr', k_hist t0 h s -> Forall call_visible h -> glob_ok glob ->
  (length (bb_visible (r_pbb (k_rt s))) <= 120)%nat -> get_globals s t glob = Some (es, tr') -> not_full tr' ->
  forall a v, In (a, v) (values_of tr' es) <-> glob a = true /\ in_ctx (a_proc (ann_of h)) a v.
Proof.
  intros t0 h s t glob es tr' H V Hg Hl E Hnf. pose proof (vis_hist _ _ _ H V) as ((V1 & V2) & V3). apply KJ_hist in H. pose proof (kj_k _ _ _ H) as [R1 _ R3]. destruct (rl_proc _ _ R1) as (N2 & B2).
  eapply globals_in; [apply (rl_inv _ _ R1)|exact N2|exact B2|exact V2|exact Hg|exact Hl|exact E|exact Hnf].
Qed.
Theorem C65_channel_globals : forall t0 h s t c b glob es tr', k_hist t0 h s -> Forall call_visible h -> glob_ok glob ->
  (length (bb_visible (r_pbb (k_rt s))) <= 120)%nat -> k_body s c = Some b -> (length (bb_visible (b_bb b)) <= 120)%nat -> get_globals_chn s t c glob = Some (es, tr') -> not_full tr' ->
  forall a v, In (a, v) (values_of tr' es) <-> glob a = true /\ (in_ctx (a_proc (ann_of h)) a v \/ in_ctx (ctx_of c h) a v).
Proof.
  intros t0 h s t c b glob es tr' H V Hg Hl Eb Hl2 E Hnf. pose proof (vis_hist _ _ _ H V) as ((V1 & V2) & V3). apply KJ_hist in H. pose proof (kj_k _ _ _ H) as [R1 _ R3]. destruct (rl_proc _ _ R1) as (N2 & B2). destruct (R3 c b Eb) as (N3 & B3).
  pose proof (rl_inv _ _ R1) as Hi. unfold get_globals_chn in E. rewrite Eb in E.
  destruct (globals_bb (r_tree (k_rt s)) t glob (r_pbb (k_rt s))) as [[l1 tr1]|] eqn:E1; [|discriminate]. destruct (globals_bb tr1 t glob (b_bb b)) as [[l2 tr2]|] eqn:E2; [|discriminate]. injection E as <- <-.
  destruct (globals_shape _ tr1 t glob _ _ l1 Hi N2 B2 V2 Hg Hl E1) as (Hi1 & Hx1 & Sh1).
  assert (B3' : bbrel tr1 (b_bb b) (ctx_of c h)) by (eapply bbrel_ext; eauto).
  destruct (globals_shape _ tr2 t glob _ _ l2 Hi1 N3 B3' (V3 _ _ Eb) Hg Hl2 E2) as (Hi2 & Hx2 & _).
  pose proof (full_mono _ _ Hx2 Hnf) as Hnf1.
  pose proof (globals_in _ _ _ _ _ _ _ Hi N2 B2 V2 Hg Hl E1 Hnf1) as G1. pose proof (globals_in _ _ _ _ _ _ _ Hi1 N3 B3' (V3 _ _ Eb) Hg Hl2 E2 Hnf) as G2.
  assert (Ev : flat_map (fun e => ent_view tr2 (Some e)) l1 = flat_map (fun e => ent_view tr1 (Some e)) l1).
  { rewrite !flat_map_concat_map. f_equal. apply map_ext_in. intros e He. apply view_ext; auto.
    destruct (Sh1 Hnf1) as (refs & -> & S1 & S2). apply in_app_or in He. destruct He as [He|He].
    - apply filter_In in He. destruct He as (He & _). destruct (entry_node _ _ _ Hi N2 B2 V2 _ He) as (n & En). exists n. 
      unfold node_at in En. apply List.find_some in En. destruct En as (A1 & A2). apply N.eqb_eq in A2. rewrite <- A2. apply in_node_at; [apply (wf_nodup _ (proj1 Hi1))|eapply ext_in; eauto].
    - destruct (path (r_tree (k_rt s)) glob (r_pbb (k_rt s))) as [|p0 l0] eqn:Ep; [rewrite (S1 eq_refl) in He; destruct He|]. destruct (S2 ltac:(discriminate)) as (e' & -> & Ev). destruct He as [->|[]].
      destruct e as [i v]. unfold ent_view in Ev. cbn [fst]. destruct (node_at tr1 i); eauto. discriminate. }
  intros a v. unfold values_of. rewrite flat_map_app, in_app_iff, Ev, G1, G2. tauto.
Qed.
(* order: region globals appear in the order in which the regions were opened *)
Theorem C65_order : forall t0 h s t glob es tr', k_hist t0 h s -> Forall call_visible h -> glob_ok glob ->
  (length (bb_visible (r_pbb (k_rt s))) <= 120)%nat -> get_globals s t glob = Some (es, tr') -> not_full tr' ->
  exists imm refs, es = imm ++ refs /\
    (forall e, In e imm -> ent_view tr' (Some e) = [e] /\ c_imm (a_proc (ann_of h)) (fst e) = Some (snd e)) /\ (length refs <= 1)%nat /\
    let g := filter (fun p => glob (fst p)) in let c := a_proc (ann_of h) in
    (values_of tr' refs = g (c_reg c) ++ g (c_una c) \/ values_of tr' refs = g (c_una c) ++ g (c_reg c)).
Proof.
  intros t0 h s t glob es tr' H V Hg Hl E Hnf. pose proof (vis_hist _ _ _ H V) as ((V1 & V2) & V3). apply KJ_hist in H. pose proof (kj_k _ _ _ H) as [R1 _ R3]. destruct (rl_proc _ _ R1) as (N2 & B2).
  pose proof (rl_inv _ _ R1) as Hi. unfold get_globals in E. destruct (globals_shape _ tr' t glob _ _ es Hi N2 B2 V2 Hg Hl E) as (Hi' & Hx & Sh). destruct (Sh Hnf) as (refs & -> & S1 & S2).
  eexists _, refs. split; [reflexivity|]. split.
  - intros e He. apply filter_In in He. destruct He as (He & Hf). apply andb_true_iff in Hf. destruct Hf as (Hf & Hga). apply negb_true_iff in Hf.
    destruct (imm_view _ tr' _ _ Hi N2 B2 V2 e He Hf Hx Hi') as (W1 & W2). split; auto.
    exact (imm_entry _ glob _ _ Hi N2 B2 V2 Hg Hl e He Hf).
  - split.
    + destruct (path (r_tree (k_rt s)) glob (r_pbb (k_rt s))); [rewrite (S1 eq_refl); cbn; lia|]. destruct (S2 ltac:(discriminate)) as (e & -> & _). cbn; lia.
    + cbn zeta. pose proof (path_order (r_tree (k_rt s)) glob _ _ Hi N2 B2 V2 Hg Hl) as P. unfold gp in P.
      assert (Ev : values_of tr' refs = path (r_tree (k_rt s)) glob (r_pbb (k_rt s))).
      { destruct (path (r_tree (k_rt s)) glob (r_pbb (k_rt s))); [rewrite (S1 eq_refl); reflexivity|]. destruct (S2 ltac:(discriminate)) as (e & -> & E2). unfold values_of. cbn [flat_map]. rewrite app_nil_r. exact E2. }
      rewrite Ev. exact P.
Qed.
Print Assumptions C65_process_globals. Print Assumptions C65_channel_globals. Print Assumptions C65_order.

(* ---- example: two open process regions and a channel value are reported ---- *)
Definition ex_g : list (N * kop) :=
  [(0, mkch true 97); (0, KApi (OBegin a_proc_fun (VInt 1))); (1, KApi (OBegin a_proc_fun (VInt 2))); (0, KApi (OBegin a_fun (VInt 3))); (0, KSet 0 a_iter (VInt 5))].
Definition ex_glob (a : N) : bool := (a =? at_id a_proc_fun) || (a =? at_id a_iter) || (a =? at_id a_fun).
Definition vis_op (p : N * kop) : bool :=
  match snd p with KApi o => match op_attr o with Some a => visible_flag a | None => true end | o => forallb visible_flag (attrs_of o) end.
Lemma visible_ops h : forallb vis_op (map fst h) = true -> Forall call_visible h.
Proof.
  intro H. apply Forall_forall. intros [[t o] x] Hin. rewrite forallb_forall in H. assert (Z : vis_op (t, o) = true) by (apply H, (in_map fst _ _ Hin)). unfold vis_op in Z. cbn [snd] in Z.
  destruct o; cbn [call_visible]; [intros a Ea; rewrite Ea in Z; exact Z|..]; apply Forall_forall; intros a9 Ha; exact (proj1 (forallb_forall _ _) Z a9 Ha).
Qed.
Example C65_ex : exists h s es tr', k_hist 0 h s /\ map fst h = setup ++ ex_g /\ Forall call_visible h /\ glob_ok ex_glob /\
  get_globals_chn s 0 0 ex_glob = Some (es, tr') /\ (length (bb_visible (r_pbb (k_rt s))) <= 120)%nat /\ not_full tr' /\
  values_of tr' es = [(at_id a_proc_fun, VInt 1); (at_id a_proc_fun, VInt 2); (at_id a_iter, VInt 5)].
Proof.
  destruct (k_exec [] (k_init tr0 0) (setup ++ ex_g)) as [[h s]|] eqn:E; [|vm_compute in E; discriminate].
  destruct (get_globals_chn s 0 0 ex_glob) as [[es tr']|] eqn:G.
  - exists h, s, es, tr'. split; [apply (k_start _ _ _ E)|].
    assert (Z : option_map (fun p => (map fst (fst p), match get_globals_chn (snd p) 0 0 ex_glob with Some (es, tr') => Some (values_of tr' es, t_next tr' <? t_nblk tr') | None => None end, Nat.leb (length (bb_visible (r_pbb (k_rt (snd p))))) 120))
       (k_exec [] (k_init tr0 0) (setup ++ ex_g)) = Some (setup ++ ex_g, Some ([(at_id a_proc_fun, VInt 1); (at_id a_proc_fun, VInt 2); (at_id a_iter, VInt 5)], true), true)) by (vm_compute; reflexivity).
    rewrite E in Z. cbn [option_map fst snd] in Z. rewrite G in Z. injection Z as Z1 Z2 Z3 Z4. split; auto. split.
    { apply visible_ops. rewrite Z1. vm_compute. reflexivity. }
    split.
    { intros a Ha. unfold ex_glob in Ha. rewrite !orb_true_iff, !N.eqb_eq in Ha. destruct Ha as [[->| ->]| ->]; vm_compute; split; discriminate. }
    split; auto. split; [apply Nat.leb_le; auto|]. split; auto. apply N.ltb_lt. auto.
  - exfalso. assert (Z : option_map (fun p => match get_globals_chn (snd p) 0 0 ex_glob with Some _ => true | None => false end) (k_exec [] (k_init tr0 0) (setup ++ ex_g)) = Some true) by (vm_compute; reflexivity).
    rewrite E in Z. cbn [option_map fst snd] in Z. rewrite G in Z. discriminate.
Qed.
