(* C65, part 2: get_globals *)
From Verif Require Import Base VariantModel VariantSpec TreeModel TreeSpec TreeProofs TreeProofs2
  RuntimeModel RuntimeSpec RuntimeProofs RuntimeProofs2 RuntimeProps2 RuntimeProps3 RuntimeProps4 ChnModel ChnSpec ChnProofs ChnProofs2 ChnProofs3 ChnProofs4 ChnProofs5 ChnProofs6 ChnProps ChnProps2 GlobModel GlobProps.

Lemma vis_all (m : bb) : vis_inv m -> filter (fun x => snd (snd x)) m = m.
Proof. unfold vis_inv. induction m as [|y l IH]; intro F; [reflexivity|]. inversion F as [|? ? (F1 & _) F3]; subst. cbn [filter]. rewrite F1, (IH F3). reflexivity. Qed.
Section G.
Variables (tr tr' : tree) (t : N) (glob : N -> bool) (m : bb) (c : actx) (es : list (N * value)).
Hypothesis Hi : inv tr. Hypothesis Hn : NoDup (keys m). Hypothesis Hb : bbrel tr m c. Hypothesis Hvis : vis_inv m.
Hypothesis Hg : forall a, glob a = true -> 12 <= a /\ a <> INV_ID.
Hypothesis Hlen : (length (bb_visible m) <= 120)%nat.
Hypothesis E : globals_bb tr t glob m = Some (es, tr').
Definition gp (p : N * value) : bool := glob (fst p).

Lemma entry_node e : In e (bb_visible m) -> exists n, node_at tr (fst e) = Some n.
Proof.
  intro He. assert (Hx : In (ent_view tr (Some e)) (views tr m)) by (apply in_map_iff; eauto). apply (view_items tr m c _ Hi Hn Hb Hvis) in Hx. destruct Hx as (Hne & _).
  destruct e as [i v]. cbn in Hne |- *. destruct (node_at tr i); eauto. congruence.
Qed.
Definition npart (e : N * value) : list tnode := if is_ref tr e then filter (fun n => glob (n_attr n)) (chain (t_nodes tr) (Some (fst e))) else [].
Lemma filter_rev' {A} (f : A -> bool) l : filter f (rev l) = rev (filter f l).
Proof. induction l as [|x l IH]; cbn; auto. rewrite filter_app, IH. cbn. destruct (f x); cbn; auto. rewrite app_nil_r. reflexivity. Qed.
Lemma npart_view e : In e (bb_visible m) -> map content (rev (npart e)) = if is_ref tr e then filter gp (ent_view tr (Some e)) else [].
Proof.
  intro He. unfold npart, is_ref. destruct (entry_node e He) as (n & En). rewrite En. destruct e as [i v]. cbn [fst] in *. unfold ent_view. rewrite En. destruct (n_attr n =? NAME_ATTR_ID); [reflexivity|]. cbn [negb].
  assert (W : wf (t_nodes tr)) by apply Hi.
  assert (Hc : forall x, In x (chain (t_nodes tr) (Some i)) -> In x (t_nodes tr)) by (intros; eapply chain_in; eauto).
  rewrite <- filter_rev', <- (filter_rev' _ (chain _ _)).
  assert (G : forall l, (forall x, In x l -> In x (t_nodes tr)) -> map content (filter (fun n0 => glob (n_attr n0)) l) = filter gp (map (fun x => (n_attr x, n_val x)) (filter (fun x => negb (n_id x =? ROOT)) l))).
  { induction l as [|x l IH]; intro Hl; [reflexivity|]. cbn [filter]. specialize (IH (fun y Hy => Hl y (or_intror Hy))). destruct (N.eqb_spec (n_id x) ROOT) as [Er|Er]; cbn [negb].
    - assert (x = root_node) by (eapply wf_root_id; eauto; apply Hl; left; auto). subst x. destruct (glob (n_attr root_node)) eqn:Ez; [destruct (Hg _ Ez); contradiction|]. exact IH.
    - cbn [map filter]. change (gp (n_attr x, n_val x)) with (glob (n_attr x)). destruct (glob (n_attr x)); cbn [map]; rewrite IH; reflexivity. }
  apply G. intros x Hx. apply Hc, in_rev, Hx.
Qed.
Lemma rev_flat_map {A B} (f : A -> list B) l : rev (flat_map f l) = flat_map (fun x => rev (f x)) (rev l).
Proof. induction l as [|x l IH]; cbn; auto. rewrite rev_app_distr, IH, flat_map_app. cbn. rewrite app_nil_r. reflexivity. Qed.
Lemma nodes_path l : (forall e, In e l -> In e (bb_visible m)) -> map content (rev (flat_map npart l)) = flat_map (fun e => if is_ref tr e then filter gp (ent_view tr (Some e)) else []) (rev l).
Proof.
  intro Hl. rewrite rev_flat_map. assert (Hl' : forall e, In e (rev l) -> In e (bb_visible m)) by (intros e He; apply Hl, in_rev, He). clear Hl. revert Hl'. induction (rev l) as [|e r IH]; intro Hl; [reflexivity|].
  cbn [flat_map]. rewrite map_app, IH by (intros; apply Hl; right; auto). rewrite npart_view by (apply Hl; left; auto). reflexivity.
Qed.
(* the immediate entries and the path *)
Definition path : list (N * value) := flat_map (fun e => if is_ref tr e then filter gp (ent_view tr (Some e)) else []) (rev (bb_visible m)).
Lemma globals_shape : inv tr' /\ ext tr tr' /\ (not_full tr' -> exists refs,
  es = filter (fun e => negb (is_ref tr e) && glob (fst e)) (bb_visible m) ++ refs /\
  (path = [] -> refs = []) /\ (path <> [] -> exists e, refs = [e] /\ ent_view tr' (Some e) = path)).
Proof.
  unfold globals_bb in E. rewrite firstn_all2 in E by exact Hlen. cbn zeta in E. fold npart in E. pose proof (nodes_path (bb_visible m) (fun e He => He)) as P. fold path in P.
  change (flat_map (fun e => if is_ref tr e then filter (fun n => glob (n_attr n)) (chain (t_nodes tr) (Some (fst e))) else []) (bb_visible m)) with (flat_map npart (bb_visible m)) in E.
  destruct (rev (flat_map npart (bb_visible m))) as [|n0 l0] eqn:En.
  - injection E as <- <-. split; auto. split; [apply ext_refl|]. intros _. exists []. rewrite app_nil_r. split; auto. split; auto. rewrite <- P. cbn. congruence.
  - assert (Hall : Forall (fun x => forall n, x = Some n -> n_attr n <> INV_ID) (map Some (n0 :: l0))).
    { apply Forall_map. apply Forall_forall. intros n Hin n1 En1. injection En1 as <-. rewrite <- En in Hin. apply in_rev in Hin. apply in_flat_map in Hin. destruct Hin as (e & _ & Hin).
      unfold npart in Hin. destruct (is_ref tr e); [|destruct Hin]. apply filter_In in Hin. destruct Hin as (_ & Hin). apply Hg in Hin. apply Hin. }
    destruct (get_path_nodes_yields (map Some (n0 :: l0)) tr t None [] Hi) as (r & s1 & Eg & Hi1 & He1 & _ & Hr & Hp); auto; [discriminate|intros _; split; auto; constructor|].
    rewrite Eg in E. destruct r as [i|]; [|discriminate]. destruct (mk_ref s1 i) as [e|] eqn:Em; [|discriminate]. injection E as <- <-. split; auto. split; auto. intro Hnf. specialize (Hp Hnf).
    exists [e]. split; auto. assert (Ef : flat_map (fun x => match x with Some n => [content n] | None => [] end) (map Some (n0 :: l0)) = path).
    { rewrite <- P. generalize (n0 :: l0). induction l as [|y l IH]; [reflexivity|]. cbn [map flat_map app]. rewrite IH. reflexivity. }
    cbn [app or_root] in Hp. rewrite Ef in Hp. assert (Hne : path <> []) by (rewrite <- P; cbn; discriminate). split; [contradiction|]. intros _. exists e. split; auto.
    unfold mk_ref in Em. destruct (node_at s1 i) as [n|] eqn:Ei; [|discriminate]. injection Em as <-. unfold ent_view. rewrite Ei.
    assert (W : wf (t_nodes s1)) by apply Hi1.
    apply (has_path_cpath s1 i path W) in Hp as Hc. 
    assert (Hin : In n (t_nodes s1) /\ n_id n = i). { unfold node_at in Ei. apply List.find_some in Ei. destruct Ei as (A1 & A2). apply N.eqb_eq in A2. auto. }
    destruct Hin as (Hin & Eid). inversion Hp as [Hr0 Hr1|n2 p l Hn2 Hp2 Hl2 Hi2 Hl3]; [rewrite <- Hr1 in Hne; contradiction|].
    assert (n2 = n). { eapply nodup_id_eq; eauto; [apply (wf_nodup _ W)|congruence]. }
    subst n2. assert (Hga : glob (n_attr n) = true).
    { assert (Hx : In (n_attr n, n_val n) path) by (rewrite <- Hl3; apply in_or_app; right; left; auto). unfold path in Hx. apply in_flat_map in Hx. destruct Hx as (e & _ & Hx). destruct (is_ref tr e); [|destruct Hx].
      apply filter_In in Hx. apply Hx. }
    destruct (Hg _ Hga) as (H12 & _). destruct (N.eqb_spec (n_attr n) NAME_ATTR_ID) as [Ea|Ea]; [rewrite Ea in H12; unfold NAME_ATTR_ID in H12; lia|]. rewrite Hl3, Hi2. symmetry. exact Hc.
Qed.
Lemma imm_view e : In e (bb_visible m) -> is_ref tr e = false -> ext tr tr' -> inv tr' -> ent_view tr (Some e) = [e] /\ ent_view tr' (Some e) = [e].
Proof.
  intros He Hr Hx Hi'. destruct (entry_node e He) as (n & En). unfold is_ref in Hr. rewrite En in Hr. apply negb_false_iff in Hr. destruct e as [i v]. cbn [fst] in *. unfold ent_view. rewrite En, Hr. split; auto.
  assert (Hin : In n (t_nodes tr) /\ n_id n = i). { unfold node_at in En. apply List.find_some in En. destruct En as (A1 & A2). apply N.eqb_eq in A2. auto. }
  destruct Hin as (Hin & Eid). assert (Hin' : In n (t_nodes tr')) by (eapply ext_in; eauto). rewrite <- Eid. rewrite (in_node_at _ n (wf_nodup _ (proj1 Hi')) Hin'), Hr. reflexivity.
Qed.
Lemma globals_in : not_full tr' -> forall a v, In (a, v) (flat_map (fun e => ent_view tr' (Some e)) es) <-> glob a = true /\ in_ctx c a v.
Proof.
  intros Hnf a v. destruct globals_shape as (Hi' & Hx & Sh). destruct (Sh Hnf) as (refs & -> & S1 & S2). rewrite flat_map_app, in_app_iff.
  assert (HR : In (a, v) (flat_map (fun e => ent_view tr' (Some e)) refs) <-> In (a, v) path).
  { destruct path as [|p0 l0] eqn:Ep; [rewrite (S1 eq_refl); reflexivity|]. destruct (S2 ltac:(discriminate)) as (e & -> & Ev). cbn [flat_map]. rewrite app_nil_r, Ev. reflexivity. }
  rewrite HR. clear HR S1 S2 Sh.
  assert (HI : In (a, v) (flat_map (fun e => ent_view tr' (Some e)) (filter (fun e => negb (is_ref tr e) && glob (fst e)) (bb_visible m))) <->
     exists e, In e (bb_visible m) /\ is_ref tr e = false /\ glob a = true /\ In (a, v) (ent_view tr (Some e))).
  { rewrite in_flat_map. split.
    - intros (e & He & Hv). apply filter_In in He. destruct He as (He & Hf). apply andb_true_iff in Hf. destruct Hf as (Hf & Hga). apply negb_true_iff in Hf. destruct (imm_view e He Hf Hx Hi') as (V1 & V2). rewrite V2 in Hv. destruct Hv as [->|[]]. exists (a, v). cbn in Hga. rewrite V1. cbn. auto.
    - intros (e & He & Hf & Hga & Hv). destruct (imm_view e He Hf Hx Hi') as (V1 & V2). rewrite V1 in Hv. destruct Hv as [->|[]]. exists (a, v). split; [apply filter_In; split; auto; rewrite Hf; exact Hga|]. rewrite V2. left. auto. }
  rewrite HI. clear HI.
  assert (HP : In (a, v) path <-> exists e, In e (bb_visible m) /\ is_ref tr e = true /\ glob a = true /\ In (a, v) (ent_view tr (Some e))).
  { unfold path. rewrite in_flat_map. split.
    - intros (e & He & Hv). apply in_rev in He. destruct (is_ref tr e) eqn:Er; [|destruct Hv]. apply filter_In in Hv. destruct Hv as (Hv & Hga). exists e. auto.
    - intros (e & He & Hf & Hga & Hv). exists e. split; [apply -> in_rev; auto|]. rewrite Hf. apply filter_In. auto. }
  rewrite HP. clear HP.
  assert (HV : forall x, (exists e, In e (bb_visible m) /\ ent_view tr (Some e) = x) <-> ctx_item c x).
  { intro x. rewrite <- (view_items tr m c x Hi Hn Hb Hvis). unfold views. rewrite in_map_iff. split; intros (e & A1 & A2); eauto. }
  split.
  - intro H. assert (Hga : glob a = true) by (destruct H as [(e & _ & _ & Hga & _)|(e & _ & _ & Hga & _)]; auto). split; auto.
    assert (He : exists e, In e (bb_visible m) /\ In (a, v) (ent_view tr (Some e))) by (destruct H as [(e & A1 & _ & _ & A2)|(e & A1 & _ & _ & A2)]; eauto). destruct He as (e & He & Hv).
    assert (Hci : ctx_item c (ent_view tr (Some e))) by (apply HV; eauto). destruct Hci as (_ & [Z|[Z|(k & w & Hk & Ek & Z)]]); rewrite Z in Hv; [left; auto|right; left; auto|]. destruct Hv as [Hv|[]]. injection Hv as <- <-. right; right. auto.
  - intros (Hga & Hc). assert (Hx2 : exists x, ctx_item c x /\ In (a, v) x).
    { destruct Hc as [Hc|[Hc|(Ha & Ea)]].
      - exists (c_reg c). split; auto. split; [intro Z; rewrite Z in Hc; destruct Hc|auto].
      - exists (c_una c). split; auto. split; [intro Z; rewrite Z in Hc; destruct Hc|auto].
      - exists [(a, v)]. split; [split; [discriminate|right; right; eauto]|left; auto]. }
    destruct Hx2 as (x & Hci & Hin). apply HV in Hci. destruct Hci as (e & He & <-). destruct (is_ref tr e) eqn:Er; [right|left]; exists e; auto.
Qed.
(* order *)
Lemma flat_two (F : N * (N * value * bool) -> list (N * value)) : forall l, NoDup (map fst l) -> (forall y, In y l -> fst y <> REGION_KEY -> fst y <> UNALIGNED_KEY -> F y = []) ->
  let X k := match find (fun y => fst y =? k) l with Some y => F y | None => [] end in
  flat_map F l = X REGION_KEY ++ X UNALIGNED_KEY \/ flat_map F l = X UNALIGNED_KEY ++ X REGION_KEY.
Proof.
  assert (One : forall k l, NoDup (map fst l) -> (forall y, In y l -> fst y <> k -> F y = []) -> flat_map F l = match find (fun y => fst y =? k) l with Some y => F y | None => [] end).
  { intros k. induction l as [|y l IH]; intros Hnd H0; [reflexivity|]. inversion Hnd as [|? ? H1 H2]; subst. cbn [flat_map find]. destruct (N.eqb_spec (fst y) k).
    - assert (Z : flat_map F l = []). { rewrite IH; auto; [|intros; apply H0; auto; right; auto]. destruct (find (fun y0 => fst y0 =? k) l) as [z|] eqn:Ef; auto. apply List.find_some in Ef. destruct Ef as (A1 & A2). apply N.eqb_eq in A2. exfalso. apply H1. rewrite e, <- A2. apply in_map; auto. }
      rewrite Z, app_nil_r. reflexivity.
    - rewrite (H0 y (or_introl eq_refl) n). apply IH; auto. intros; apply H0; auto. right; auto. }
  induction l as [|y l IH]; intros Hnd H0; [left; reflexivity|]. inversion Hnd as [|? ? H1 H2]; subst. cbn zeta in *. cbn [flat_map find]. destruct (N.eqb_spec (fst y) REGION_KEY) as [Er|Er].
  - assert (Hu : fst y =? UNALIGNED_KEY = false) by (rewrite Er; reflexivity). rewrite Hu. left. f_equal. apply One; auto. intros z Hz Hk. apply H0; [right; auto| |auto]. intro Z. apply H1. rewrite Er, <- Z. apply in_map; auto.
  - destruct (N.eqb_spec (fst y) UNALIGNED_KEY) as [Eu|Eu].
    + right. f_equal. apply One; auto. intros z Hz Hk. apply H0; [right; auto|auto|]. intro Z. apply H1. rewrite Eu, <- Z. apply in_map; auto.
    + rewrite (H0 y (or_introl eq_refl) Er Eu). cbn [app]. apply IH; auto. intros; apply H0; auto. right; auto.
Qed.
Lemma imm_entry e : In e (bb_visible m) -> is_ref tr e = false -> c_imm c (fst e) = Some (snd e).
Proof.
  intros He Hr. unfold bb_visible in He. rewrite vis_all in He by auto. apply in_map_iff in He. destruct He as ([k [[i v] b]] & <- & Hy). cbn [fst snd] in *.
  assert (Eg : bget m k = Some (i, v)) by (apply bget_in; eauto).
  unfold vis_inv in Hvis. rewrite Forall_forall in Hvis. destruct (Hvis _ Hy) as (_ & Hk). cbn [fst] in Hk.
  assert (Z : (k = REGION_KEY \/ k = UNALIGNED_KEY) -> False).
  { intro Hk'. assert (Hrf : exists l, ref_rel tr (bget m k) l) by (destruct Hk' as [->| ->]; eexists; apply Hb). destruct Hrf as (l & Hrf). rewrite Eg in Hrf. destruct Hrf as (Hf & Hne & Hp & _).
    destruct (path_last _ _ _ Hi Hp Hne) as (n & p & l' & Hm & Em & _ & _ & El' & Ea & _). unfold is_ref in Hr. cbn [fst] in Hr. rewrite Ea in Hr. apply negb_false_iff, N.eqb_eq in Hr.
    rewrite Forall_forall in Hf. assert (12 <= n_attr n) by (apply (Hf (n_attr n, n_val n)); rewrite El'; apply in_or_app; right; left; auto). unfold NAME_ATTR_ID in Hr. lia. }
  destruct Hk as [Hk|[Hk|Hk]]; [exfalso; auto|exfalso; auto|]. destruct (br_imm _ _ _ Hb k Hk) as (Ei & _). rewrite Eg in Ei. destruct (c_imm c k) as [w|] eqn:Ec; [|discriminate]. cbn in Ei. injection Ei as -> ->. exact Ec.
Qed.
Lemma path_order : path = filter gp (c_reg c) ++ filter gp (c_una c) \/ path = filter gp (c_una c) ++ filter gp (c_reg c).
Proof.
  unfold path, bb_visible. assert (Ef : filter (fun x => snd (snd x)) m = m).
  { apply vis_all, Hvis. }
  rewrite Ef, <- map_rev, flat_map_concat_map, map_map, <- flat_map_concat_map. set (F := fun x : N * (N * value * bool) => if is_ref tr (fst (snd x)) then filter gp (ent_view tr (Some (fst (snd x)))) else []).
  assert (Hin : forall y, In y m -> In (fst (snd y)) (bb_visible m)). { intros y Hy. unfold bb_visible. rewrite Ef. apply (in_map (fun x => fst (snd x))). exact Hy. }
  assert (H0 : forall y, In y (rev m) -> fst y <> REGION_KEY -> fst y <> UNALIGNED_KEY -> F y = []).
  { intros y Hy Hr Hu. apply in_rev in Hy. destruct y as [k [[i v] b]]. cbn in Hr, Hu. unfold F. cbn [fst snd]. assert (Hk : 12 <= k).
    { unfold vis_inv in Hvis. rewrite Forall_forall in Hvis. destruct (Hvis _ Hy) as (_ & [Z|[Z|Z]]); auto; contradiction. }
    assert (Eg : bget m k = Some (i, v)) by (apply bget_in; eauto). destruct (br_imm _ _ _ Hb k Hk) as (Ei & An). rewrite Eg in Ei. destruct (c_imm c k) as [w|]; [|discriminate]. cbn in Ei. injection Ei as -> ->. destruct An as (n & Hn' & En & An); [discriminate|].
    unfold is_ref. cbn [fst]. rewrite <- En, (in_node_at _ n (wf_nodup _ (proj1 Hi)) Hn'), An, N.eqb_refl. reflexivity. }
  assert (HX : forall k l, (k = REGION_KEY /\ l = c_reg c) \/ (k = UNALIGNED_KEY /\ l = c_una c) -> match find (fun y => fst y =? k) (rev m) with Some y => F y | None => [] end = filter gp l).
  { intros k l Hk. pose proof (bbrel_shows _ _ _ Hi Hb) as (Sh1 & Sh2 & _).
    assert (El : l = ent_view tr (bget m k)) by (destruct Hk as [(-> & ->)|(-> & ->)]; [symmetry; apply Sh1|symmetry; apply Sh2]).
    destruct (find (fun y => fst y =? k) (rev m)) as [[k' [[i v] b]]|] eqn:Ef2.
    - apply List.find_some in Ef2. destruct Ef2 as (A1 & A2). apply in_rev in A1. cbn in A2. apply N.eqb_eq in A2. subst k'.
      assert (Eg : bget m k = Some (i, v)) by (apply bget_in; eauto). unfold F. cbn [fst snd]. rewrite El, Eg.
      destruct (is_ref tr (i, v)) eqn:Er; auto. exfalso.
      assert (Hrf : exists n, In n (t_nodes tr) /\ n_id n = i /\ n_attr n <> NAME_ATTR_ID).
      { assert (Hrf : ref_rel tr (bget m k) l) by (destruct Hk as [(-> & ->)|(-> & ->)]; apply Hb). rewrite Eg in Hrf. destruct Hrf as (Hf & Hne & Hp & _). destruct (path_last _ _ _ Hi Hp Hne) as (n & p & l' & Hm & Em & _ & _ & El' & _). exists n. split; auto. split; auto. rewrite Forall_forall in Hf. assert (12 <= n_attr n) by (apply (Hf (n_attr n, n_val n)); rewrite El'; apply in_or_app; right; left; auto). unfold NAME_ATTR_ID. lia. }
      destruct Hrf as (n & A3 & A4 & A5). unfold is_ref in Er. cbn [fst] in Er. rewrite <- A4, (in_node_at _ n (wf_nodup _ (proj1 Hi)) A3) in Er. apply negb_false_iff, N.eqb_eq in Er. contradiction.
    - assert (Eg : bget m k = None).
      { destruct (bget m k) as [[i v]|] eqn:Eg; auto. apply bget_in in Eg; auto. destruct Eg as (b & Hy). apply in_rev in Hy. apply (List.find_none _ _ Ef2) in Hy. cbn in Hy. rewrite N.eqb_refl in Hy. discriminate. }
      rewrite El, Eg. reflexivity. }
  assert (Hnr : NoDup (map fst (rev m))) by (rewrite map_rev; apply NoDup_rev; exact Hn).
  destruct (flat_two F (rev m) Hnr H0) as [Z|Z]; cbn zeta in Z; rewrite (HX REGION_KEY _ (or_introl (conj eq_refl eq_refl))), (HX UNALIGNED_KEY _ (or_intror (conj eq_refl eq_refl))) in Z; auto.
Qed.
End G.
