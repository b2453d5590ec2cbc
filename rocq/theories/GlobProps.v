(* C65: the records written at flush and the global values *)
From Verif Require Import Base VariantModel VariantSpec TreeModel TreeSpec TreeProofs TreeProofs2
  RuntimeModel RuntimeSpec RuntimeProofs RuntimeProofs2 RuntimeProps2 RuntimeProps3 RuntimeProps4 ChnModel ChnSpec ChnProofs ChnProofs2 ChnProofs3 ChnProofs4 ChnProofs5 ChnProofs6 ChnProps ChnProps2 GlobModel.

(* ---- specification ---- *)
(* no attribute used in the call is hidden *)
Definition call_visible (k : call) : Prop :=
  match k with
  | (_, KApi o, _) => all_visible o
  | (_, o, _) => Forall (fun a => visible_flag a = true) (attrs_of o)
  end.
(* the entries of a context: region path, unaligned path, as-value attributes *)
Definition ctx_item (c : actx) (x : list (N * value)) : Prop :=
  x <> [] /\ (x = c_reg c \/ x = c_una c \/ exists k v, 12 <= k /\ c_imm c k = Some v /\ x = [(k, v)]).
Definition in_ctx (c : actx) (a : N) (v : value) : Prop :=
  In (a, v) (c_reg c) \/ In (a, v) (c_una c) \/ (12 <= a /\ c_imm c a = Some v).

(* ---- visibility ---- *)
Definition vis_k (s : kst) : Prop := vis_st (k_rt s) /\ forall c b, k_body s c = Some b -> vis_inv (b_bb b).
Lemma vis_hset tr t a v m tr' m' : vis_inv m -> 12 <= at_id a -> visible_flag a = true -> handle_set tr t a v m = HOk tr' m' -> vis_inv m'.
Proof.
  intros Hm Ha Hv. unfold handle_set. rewrite Hv. destruct (asvalue a); [intro Z; injection Z as <- <-; apply vis_bset; auto|].
  destruct (replace_first_in_path _ _ _ _ _) as [[[q|] tr1]|]; [|discriminate|discriminate]. destruct (mk_ref tr1 q); [|discriminate].
  intro Z; injection Z as <- <-. apply vis_bset; auto. apply ref_key_ok.
Qed.
Lemma vis_hbegin tr t a v m tr' m' : vis_inv m -> 12 <= at_id a -> visible_flag a = true -> handle_begin tr t a v m = HOk tr' m' -> vis_inv m'.
Proof.
  intros Hm Ha Hv. unfold handle_begin. rewrite Hv. destruct (asvalue a); [intro Z; injection Z as <- <-; apply vis_bset; auto|].
  destruct (get_child _ _ _ _ _) as [[[q|] tr1]|]; [|discriminate|discriminate]. destruct (mk_ref tr1 q); [|discriminate].
  intro Z; injection Z as <- <-. apply vis_bset; auto. apply ref_key_ok.
Qed.
Lemma vis_hend tr t a cur m tr' m' : vis_inv m -> visible_flag a = true -> handle_end tr t a cur (bb_key a) m = HOk tr' m' -> vis_inv m'.
Proof.
  intros Hm Hv. unfold handle_end. destruct (asvalue a) eqn:Eas; [intro Z; injection Z as <- <-; apply vis_bdel; auto|]. assert (Ek : bb_key a = ref_key a) by (unfold bb_key; rewrite Eas; auto).
  destruct (fst cur) as [[i w0]|]; [|discriminate]. destruct (snd cur) as [[j0 v0]|]; [|discriminate]. destruct (node_at _ i) as [nd|]; [|discriminate]. destruct (n_par nd) as [p|]; [|discriminate].
  destruct (p =? ROOT); [intro Z; injection Z as <- <-; apply vis_bdel; auto|].
  destruct (if i =? j0 then _ else _) as [[[q|] tr1]|]; [|discriminate|discriminate]. destruct (mk_ref tr1 q); [|discriminate].
  intro Z; injection Z as <- <-. rewrite Hv, Ek. apply vis_bset; auto. apply ref_key_ok.
Qed.
Lemma vis_put_chn s c tr m : vis_k s -> vis_inv m -> vis_k (put_chn s c tr m).
Proof.
  intros ((H1 & H2) & H3) Hm. unfold put_chn. destruct (k_body s c) as [b|] eqn:Eb; [|split; [split; auto|auto]]. split; [split; auto|]. cbn. intros d b'. unfold upd. destruct (N.eqb_spec d c); [|apply H3].
  intro Z. injection Z as <-. exact Hm.
Qed.
Lemma vis_frame s s' : vis_k s -> r_tbb (k_rt s') = r_tbb (k_rt s) -> r_pbb (k_rt s') = r_pbb (k_rt s) ->
  (forall c b', k_body s' c = Some b' -> exists b, k_body s c = Some b /\ b_bb b' = b_bb b) -> vis_k s'.
Proof. intros ((H1 & H2) & H3) E1 E2 E3. split; [split; rewrite ?E1, ?E2; auto|]. intros c b' Eb. destruct (E3 c b' Eb) as (b & E & ->). eauto. Qed.
Lemma vis_same_body s s' : vis_k s -> k_rt s' = k_rt s -> k_body s' = k_body s -> vis_k s'.
Proof. intros H E1 E2. eapply vis_frame; eauto; rewrite ?E1, ?E2; eauto. Qed.
Lemma vis_kfire s k t c a v : vis_k s -> vis_k (kfire s k t c a v).
Proof. intro H. eapply vis_same_body; [exact H|apply kfire_rt|apply kfire_body]. Qed.
Lemma vis_set s t c a v s' x : vis_k s -> 12 <= at_id a -> visible_flag a = true -> chn_set s t c a v = KOk s' x -> vis_k s'.
Proof.
  intros H Ha Hv E. unfold chn_set in E. destruct (k_body s c) as [b|] eqn:Eb; [|discriminate]. unfold kcommit in E. destruct (handle_set _ _ _ _ _) as [tr m| |] eqn:Eh; try discriminate. injection E as <- <-.
  apply vis_put_chn; [apply vis_kfire; auto|]. eapply vis_hset; eauto. apply (proj2 H c b Eb).
Qed.
Lemma vis_sets l : forall s t c s' x, vis_k s -> Forall (fun p => 12 <= at_id (fst p) /\ visible_flag (fst p) = true) l -> chn_sets s t c l = KOk s' x -> vis_k s'.
Proof.
  induction l as [|[a v] l IH]; cbn; intros s t c s' x H F E; [injection E as <- <-; auto|]. inversion F as [|? ? (F1 & F2) F3]; subst.
  destruct (chn_set s t c a v) as [s1 x1| |] eqn:E1; try discriminate. eapply IH; [|exact F3|exact E]. eapply vis_set; eauto.
Qed.
Lemma vis_release t0 s t s' x : kinv t0 s -> vis_k s -> k_release s t = KOk s' x -> vis_k s'.
Proof.
  intros I H E. destruct (release_spec t0 s t I) as (s1 & Er & A1 & A2 & A3 & A4 & A5 & A6 & A7 & A8 & A9 & A10 & A11 & A12).
  rewrite Er in E. injection E as <- <-. eapply vis_frame; eauto. rewrite A2. eauto.
Qed.
Lemma vis_k_step t0 s t o s' x : kinv t0 s -> vis_k s -> kop_ok s o -> call_visible (t, o, x) -> k_step s t o = KOk s' x -> vis_k s'.
Proof.
  intros I H (Hok1 & Hok2 & _ & Hok4) Hv E.
  assert (Hen : vis_k (ensure s t)) by (eapply vis_same_body; [exact H|apply ensure_rt|apply ensure_body]).
  destruct (guarded o) eqn:Hg.
  - destruct o; try discriminate; cbn [k_step] in E.
    + injection E as <- <-. auto.
    + destruct (k_live s); [|injection E as <- <-; auto]. eapply (vis_release t0); [|exact Hen|exact E]. apply ensure_inv; auto.
    + destruct (k_live s); [|injection E as <- <-; auto]. unfold k_thread_exit in E. destruct (existsb _ _); [|injection E as <- <-; auto].
      destruct (t =? k_main s); [eapply (vis_release t0); eauto|]. injection E as <- <-. eapply vis_same_body; [exact H| |]; reflexivity.
  - pose proof (live_step _ _ _ _ _ E Hg (Hok1 eq_refl)) as E1. clear E. pose proof (ensure_inv t0 s t I) as I1.
    assert (Hok2' : Forall (attr_ok (r_tree (k_rt (ensure s t)))) (attrs_of o)) by (rewrite ensure_rt; auto).
    assert (Hok4' : match o with KApi o => rop_ok (k_rt (ensure s t)) o /\ no_act o | _ => True end) by (rewrite ensure_rt; destruct o; auto).
    set (s1 := ensure s t) in *. clearbody s1.
    assert (Dact : forall d, chn_activate s1 d = KOk s' x -> vis_k s').
    { intros d E2. unfold chn_activate in E2. destruct (k_body s1 d) as [b|] eqn:Eb; [|discriminate]. injection E2 as <- <-. eapply vis_frame; [exact Hen|reflexivity|reflexivity|].
      cbn. intros c b'. unfold upd. destruct (N.eqb_spec c d); [|eauto]. subst. intro Z. injection Z as <-. eauto. }
    assert (Ddea : forall d, chn_deactivate s1 d = KOk s' x -> vis_k s').
    { intros d E2. unfold chn_deactivate in E2. destruct (k_body s1 d) as [b|] eqn:Eb; [|discriminate]. injection E2 as <- <-. eapply vis_frame; [exact Hen|reflexivity|reflexivity|].
      cbn. intros c b'. unfold upd. destruct (N.eqb_spec c d); [|eauto]. subst. intro Z. injection Z as <-. eauto. }
    assert (Ddel : forall d, chn_delete s1 d = KOk s' x -> vis_k s').
    { intros d E2. unfold chn_delete in E2. destruct (k_body s1 d) as [b|] eqn:Eb; [|discriminate]. injection E2 as <- <-. eapply vis_frame; [exact Hen|reflexivity|reflexivity|]. cbn. eauto. }
    destruct o; try discriminate; cbn [k_run1] in E1; cbn [attrs_of] in Hok2'; cbn [call_visible attrs_of] in Hv; eauto.
    + unfold k_api in E1. destruct (rt_step (k_rt s1) t o) as [r y| |] eqn:Er; try discriminate. injection E1 as <- <-. destruct Hok4' as (Ho & _).
      destruct Hen as (V1 & V2). split; [|exact V2]. cbn. pose proof (vis_step _ _ _ _ _ V1 Ho Hv Er) as (W1 & W2). split; auto.
    + unfold chn_create in E1. cbn zeta in E1.
      match type of E1 with (match chn_sets ?u _ _ _ with _ => _ end) = _ => set (s0 := u) in E1 end.
      destruct (chn_sets s0 t (k_next s1) _) as [s2 x2| |] eqn:E2; try discriminate. injection E1 as <- <-.
      assert (V0 : vis_k s0). { destruct Hen as (V1 & V2). split; [exact V1|]. intros c b. unfold s0. cbn [k_body]. unfold upd. destruct (c =? k_next s1); [|apply V2]. intro Z. injection Z as <-. constructor. }
      eapply (vis_same_body s2); [|reflexivity|reflexivity]. eapply vis_sets; [exact V0| |exact E2].
      inversion Hok2' as [|? ? P1 Q1]; inversion Q1 as [|? ? P2 Q2]; inversion Q2 as [|? ? P3 Q3]. inversion Hv as [|? ? P1' Q1']; inversion Q1' as [|? ? P2' Q2']; inversion Q2' as [|? ? P3' Q3'].
      constructor; [split; [apply P1|exact P1']|]. constructor; [split; [apply P2|exact P2']|]. constructor; [split; [apply P3|exact P3']|constructor].
    + unfold chn_begin in E1. destruct (k_body s1 c) as [b|] eqn:Eb; [|discriminate]. unfold kcommit in E1. destruct (handle_begin _ _ _ _ _) as [tr m| |] eqn:Eh; try discriminate. injection E1 as <- <-.
      apply vis_kfire. apply vis_put_chn; [apply vis_kfire; auto|]. inversion Hok2' as [|? ? P1 _]; inversion Hv as [|? ? P2 _]; subst. eapply vis_hbegin; [| | |exact Eh]; [apply (proj2 Hen c b Eb)|apply P1|auto].
    + unfold chn_end in E1. destruct (k_body s1 c) as [b|] eqn:Eb; [|discriminate]. cbn zeta in E1. destruct (snd (load_current _ _ _ _)) as [[i v]|].
      * unfold kcommit in E1. destruct (handle_end _ _ _ _ _ _) as [tr m| |] eqn:Eh; try discriminate. injection E1 as <- <-. apply vis_put_chn; [apply vis_kfire; auto|].
        inversion Hv as [|? ? P2 _]; subst. eapply vis_hend; [|exact P2|exact Eh]. apply (proj2 Hen c b Eb).
      * injection E1 as <- <-. destruct Hen as (V1 & V2). split; auto.
    + inversion Hok2' as [|? ? P1 _]; inversion Hv as [|? ? P2 _]; subst. eapply vis_set; [exact Hen|apply P1|exact P2|exact E1].
    + unfold chn_get in E1. destruct (k_body s1 c); [|discriminate]. injection E1 as <- <-. auto.
    + apply write_ok in E1. destruct E1 as (_ & A1 & A2 & _). eapply vis_same_body; eauto.
    + injection E1 as <- <-. auto.
    + injection E1 as <- <-. auto.
    + injection E1 as <- <-. eapply vis_same_body; [exact Hen| |]; reflexivity.
    + destruct (chn_find s1 i); eauto. injection E1 as <- <-. auto.
    + destruct (chn_find s1 i); eauto. injection E1 as <- <-. auto.
    + destruct (chn_find s1 i); eauto. injection E1 as <- <-. auto.
    + destruct (chn_find s1 i); injection E1 as <- <-; auto.
    + destruct (chn_find s1 0); [|injection E1 as <- <-; auto]. apply flush_ok in E1. destruct E1 as (_ & A1 & A2 & _). eapply vis_same_body; eauto.
    + destruct (chn_find s1 i); [|discriminate]. apply flush_ok in E1. destruct E1 as (_ & A1 & A2 & _). eapply vis_same_body; eauto.
Qed.
Lemma vis_hist t0 h s : k_hist t0 h s -> Forall call_visible h -> vis_k s.
Proof.
  induction 1; intro F.
  - split; [split; constructor|]. discriminate.
  - apply Forall_app in F. destruct F as (F1 & F2). inversion F2; subst. eapply vis_k_step; eauto. apply KJ_hist in H. apply H.
Qed.

(* the visible entries of a blackboard *)
Lemma view_items tr m c x : inv tr -> NoDup (keys m) -> bbrel tr m c -> vis_inv m -> (In x (views tr m) <-> ctx_item c x).
Proof.
  intros Hi Hn Hb Hvis. pose proof (bbrel_shows _ _ _ Hi Hb) as (Sh1 & Sh2 & Sh3). unfold views, bb_visible. rewrite map_map, in_map_iff. split.
  - intros ([k [[i v] b]] & Ex & Hin). cbn in Ex. apply filter_In in Hin. destruct Hin as (Hin & _).
    unfold vis_inv in Hvis. rewrite Forall_forall in Hvis. destruct (Hvis _ Hin) as (_ & Hk). cbn in Hk.
    assert (Eg : bget m k = Some (i, v)) by (apply bget_in; eauto).
    destruct Hk as [->|[->|Hk]].
    + assert (E2 : x = c_reg c) by (rewrite <- Sh1; unfold bb_regions; rewrite Eg; auto). split; auto.
      destruct (br_reg _ _ _ Hb) as (_ & Z). rewrite Eg in Z. rewrite E2. apply Z.
    + assert (E2 : x = c_una c) by (rewrite <- Sh2; unfold bb_unaligned; rewrite Eg; auto). split; auto.
      destruct (br_una _ _ _ Hb) as (_ & Z). rewrite Eg in Z. rewrite E2. apply Z.
    + destruct (br_imm _ _ _ Hb k Hk) as (Ei & An). rewrite Eg in Ei. destruct (c_imm c k) as [w|] eqn:Ew; [|discriminate]. cbn in Ei. injection Ei as -> ->.
      destruct An as (n & Hn' & En & An); [discriminate|]. unfold ent_view in Ex. rewrite <- En in Ex.
      rewrite (in_node_at _ n (wf_nodup _ (proj1 Hi)) Hn'), An, N.eqb_refl in Ex. subst x. split; [discriminate|]. right; right.
      exists k, w. rewrite En. auto.
  - intros (Hne & Hx).
    assert (Take : forall k i v, bget m k = Some (i, v) -> ent_view tr (Some (i, v)) = x -> exists y, ent_view tr (Some (fst (snd y))) = x /\ In y (filter (fun x0 => snd (snd x0)) m)).
    { intros k i v Eg Ev. apply bget_in in Eg; auto. destruct Eg as (b & Hin). exists (k, (i, v, b)). split; auto. apply filter_In. split; auto.
      unfold vis_inv in Hvis. rewrite Forall_forall in Hvis. apply (Hvis _ Hin). }
    destruct Hx as [->|[->|(k & v & Hk & Eg & ->)]].
    + rewrite <- Sh1 in Hne. unfold bb_regions in *. destruct (bget m REGION_KEY) as [[i v]|] eqn:Eg; [|cbn in Hne; congruence]. eapply Take; eauto.
    + rewrite <- Sh2 in Hne. unfold bb_unaligned in *. destruct (bget m UNALIGNED_KEY) as [[i v]|] eqn:Eg; [|cbn in Hne; congruence]. eapply Take; eauto.
    + destruct (br_imm _ _ _ Hb k Hk) as (Ei & An). rewrite Eg in Ei. cbn in Ei.
      eapply Take; [exact Ei|]. destruct An as (n & Hn' & En & An); [congruence|]. unfold ent_view. rewrite <- En.
      rewrite (in_node_at _ n (wf_nodup _ (proj1 Hi)) Hn'), An, N.eqb_refl. reflexivity.
Qed.

(* ---- 1: the record given to the writers at a flush ---- *)
Lemma new_writes t0 s t o s' x c t' info : kinv t0 s -> (match o with KApi o => no_act o | _ => True end) -> k_step s t o = KOk s' x ->
  forall l, k_log s' = k_log s ++ l -> In (KWrite c t' info) l -> t' = t /\ exists b, k_body s c = Some b /\ info = flush_rec (k_rt s) t (b_bb b).
Proof.
  intros I Hn E l El Hin.
  set (P := fun e => forall c t' info, e = KWrite c t' info -> t' = t /\ exists b, k_body s c = Some b /\ info = flush_rec (k_rt s) t (b_bb b)).
  assert (Q : Forall P l -> t' = t /\ exists b, k_body s c = Some b /\ info = flush_rec (k_rt s) t (b_bb b)).
  { intro F. rewrite Forall_forall in F. apply (F _ Hin). reflexivity. }
  apply Q. clear Q Hin.
  assert (G : forall l', k_log s' = k_log s ++ l' -> Forall P l' -> Forall P l). { intros l' E' F. rewrite El in E'. apply app_inv_head in E'. subst; auto. }
  assert (Z : k_log s' = k_log s -> Forall P l). { intro E'. apply (G []); [rewrite app_nil_r; auto|constructor]. }
  assert (Pe : forall e, (forall c t' info, e <> KWrite c t' info) -> P e) by (intros e He c0 t1 i1 E'; destruct (He _ _ _ E')).
  assert (Rel : forall s1, kinv t0 s1 -> k_rt s1 = k_rt s -> k_body s1 = k_body s -> (exists l1, k_log s1 = k_log s ++ l1 /\ Forall P l1) -> k_release s1 t = KOk s' x -> Forall P l).
  { intros s1 I1 E1 E2 (l1 & E3 & F1) Er. destruct (release_spec t0 s1 t I1) as (s2 & Er2 & A1 & A2 & A3 & A4 & A5 & A6 & A7 & A8 & A9 & A10 & A11 & A12 & A13 & A14). rewrite Er2 in Er. injection Er as <- <-.
    apply (G (l1 ++ flat_map (fin_events s1 t) (k_all s1))); [rewrite A14, E3, app_assoc; reflexivity|]. apply Forall_app. split; auto. apply Forall_forall. intros e He. apply in_flat_map in He. destruct He as (d & _ & He).
    unfold fin_events in He. rewrite E1, E2 in He. destruct (k_body s d) as [b|] eqn:Eb; [|destruct He]. apply in_app_iff in He. destruct He as [He|He].
    - destruct (b_flush b); [|destruct He]. destruct He as [<-|[]]. intros c1 t1 i1 E'. injection E' as <- <- <-. split; eauto.
    - apply Pe. intros c1 t1 i1 ->. destruct He as [He|[He|[]]]; discriminate. }
  assert (En : exists l1, k_log (ensure s t) = k_log s ++ l1 /\ Forall P l1).
  { unfold ensure. destruct (existsb _ _); [exists []; rewrite app_nil_r; auto|]. eexists; split; [reflexivity|]. apply Forall_map, Forall_forall. intros d _. apply Pe. discriminate. }
  destruct (guarded o) eqn:Hg.
  - destruct o; try discriminate; cbn [k_step] in E.
    + unfold chn_is_active in E. injection E as <- <-. auto.
    + destruct (k_live s); [|injection E as <- <-; auto]. eapply Rel; [| | |exact En|exact E]; auto using ensure_inv, ensure_rt, ensure_body.
    + destruct (k_live s); [|injection E as <- <-; auto]. unfold k_thread_exit in E. destruct (existsb _ _); [|injection E as <- <-; auto].
      destruct (t =? k_main s); [eapply Rel; [| | | |exact E]; auto; exists []; rewrite app_nil_r; auto|]. injection E as <- <-. eapply G; [reflexivity|]. apply Forall_map, Forall_forall. intros d _. apply Pe. discriminate.
  - destruct (k_live s) eqn:HL; [|destruct o; try discriminate; cbn [k_step] in E; rewrite HL in E; discriminate].
    pose proof (live_step _ _ _ _ _ E Hg HL) as E1. clear E. destruct En as (l1 & En & Fn).
    pose proof (ensure_rt s t) as Ert. pose proof (ensure_body s t) as Ebd. set (s1 := ensure s t) in *. clearbody s1.
    assert (G1 : forall l', k_log s' = k_log s1 ++ l' -> Forall P l' -> Forall P l). { intros l' E' F. apply (G (l1 ++ l')); [rewrite E', En, app_assoc; reflexivity|]. apply Forall_app; auto. }
    assert (Z1 : k_log s' = k_log s1 -> Forall P l). { intro E'. apply (G1 []); [rewrite app_nil_r; auto|constructor]. }
    assert (F : forall u k c a v, exists l, k_log (kfire u k t c a v) = k_log u ++ l /\ Forall P l).
    { intros. unfold kfire. destruct (k_body u c0) as [b|]; [|exists []; rewrite app_nil_r; auto]. destruct (run_events a && b_active b); [|exists []; rewrite app_nil_r; auto]. eexists [_]. split; [reflexivity|]. constructor; [apply Pe; discriminate|constructor]. }
    assert (Set_ : forall u c a v u' y, chn_set u t c a v = KOk u' y -> exists l, k_log u' = k_log u ++ l /\ Forall P l).
    { intros u c0 a v u' y E2. unfold chn_set in E2. destruct (k_body u c0); [|discriminate]. unfold kcommit in E2. destruct (handle_set _ _ _ _ _); try discriminate. injection E2 as <- <-. rewrite put_log. apply F. }
    assert (Sets : forall l u c u' y, chn_sets u t c l = KOk u' y -> exists l, k_log u' = k_log u ++ l /\ Forall P l).
    { induction l0 as [|[a v] l0 IH]; cbn; intros u c0 u' y E2; [injection E2 as <- <-; exists []; rewrite app_nil_r; auto|]. destruct (chn_set u t c0 a v) as [u1 y1| |] eqn:E3; try discriminate.
      apply Set_ in E3. apply IH in E2. destruct E2 as (m1 & -> & F1). destruct E3 as (m2 & -> & F2). exists (m2 ++ m1). rewrite app_assoc. split; auto. apply Forall_app; auto. }
    assert (Del : forall c, chn_delete s1 c = KOk s' x -> Forall P l).
    { intro c0. unfold chn_delete. destruct (k_body s1 c0); [|discriminate]. intro Y; injection Y as <- <-. eapply (G1 ([KPreFinish c0] ++ [KFinish c0])); [cbn; rewrite <- app_assoc; reflexivity|]. constructor; [apply Pe; discriminate|]. constructor; [apply Pe; discriminate|constructor]. }
    assert (Act : forall c, chn_activate s1 c = KOk s' x -> Forall P l) by (intro c0; unfold chn_activate; destruct (k_body s1 c0); [|discriminate]; intro Y; injection Y as <- <-; auto).
    assert (Dea : forall c, chn_deactivate s1 c = KOk s' x -> Forall P l) by (intro c0; unfold chn_deactivate; destruct (k_body s1 c0); [|discriminate]; intro Y; injection Y as <- <-; auto).
    assert (PW : forall d b, k_body s1 d = Some b -> P (KWrite d t (flush_rec (k_rt s1) t (b_bb b)))). { intros d b Eb c1 t1 i1 E'. injection E' as <- <- <-. rewrite Ebd in Eb. rewrite Ert. split; eauto. }
    assert (Fl : forall c b, then_clear (chn_write s1 t c) b c = KOk s' x -> Forall P l).
    { intros c0 b. unfold then_clear, chn_write. destruct (k_body s1 c0) eqn:Eb; [|discriminate]. destruct b; [unfold chn_clear; cbn [klog k_body]; rewrite Eb|]; intro Y; injection Y as <- <-.
      - eapply (G1 ([_] ++ [_])); [cbn [klog k_log]; rewrite <- app_assoc; reflexivity|]. constructor; [apply PW; auto|]. constructor; [apply Pe; discriminate|constructor].
      - eapply (G1 [_]); [reflexivity|]. constructor; [apply PW; auto|constructor]. }
    destruct o; try discriminate; cbn [k_run1] in E1; eauto.
    + unfold k_api in E1. destruct (rt_step _ _ _); try discriminate. injection E1 as <- <-. eapply G1; [reflexivity|]. apply Forall_map, Forall_forall. intros e _. apply Pe. discriminate.
    + unfold chn_create in E1. cbn zeta in E1. match type of E1 with (match chn_sets ?u _ _ _ with _ => _ end) = _ => set (s0 := u) in E1 end.
      destruct (chn_sets s0 t (k_next s1) _) as [s2 x2| |] eqn:E2; try discriminate. injection E1 as <- <-. apply Sets in E2. destruct E2 as (m & E2 & F2).
      eapply G1; [cbn [klog k_log]; rewrite E2; change (k_log s0) with (k_log s1); rewrite <- app_assoc; reflexivity|]. apply Forall_app. split; auto. constructor; [apply Pe; discriminate|constructor].
    + unfold chn_begin in E1. destruct (k_body s1 c0); [|discriminate]. unfold kcommit in E1. destruct (handle_begin _ _ _ _ _) as [tr m| |]; try discriminate. injection E1 as <- <-.
      destruct (F (put_chn (kfire s1 PreBegin t c0 a v) c0 tr m) PostBegin c0 a v) as (m1 & Em1 & F1). destruct (F s1 PreBegin c0 a v) as (m2 & Em2 & F2). eapply G1; [rewrite Em1, put_log, Em2, <- app_assoc; reflexivity|]. apply Forall_app; auto.
    + unfold chn_end in E1. destruct (k_body s1 c0); [|discriminate]. cbn zeta in E1. destruct (snd (load_current _ _ _ _)) as [[i v]|]; [|injection E1 as <- <-; auto].
      unfold kcommit in E1. destruct (handle_end _ _ _ _ _ _); try discriminate. injection E1 as <- <-. destruct (F s1 PreEnd c0 a v) as (m2 & Em2 & F2). eapply G1; [rewrite put_log; exact Em2|auto].
    + apply Set_ in E1. destruct E1 as (m & E1 & F1). eapply G1; eauto.
    + unfold chn_get in E1. destruct (k_body s1 c0); [|discriminate]. injection E1 as <- <-. auto.
    + unfold chn_write in E1. destruct (k_body s1 c0) eqn:Eb; [|discriminate]. injection E1 as <- <-. eapply (G1 [_]); [reflexivity|]. constructor; [apply PW; auto|constructor].
    + injection E1 as <- <-. auto.
    + injection E1 as <- <-. auto.
    + injection E1 as <- <-. eapply G1; [reflexivity|]. apply Forall_map, Forall_forall. intros d _. apply Pe. discriminate.
    + destruct (chn_find s1 i); eauto. injection E1 as <- <-. auto.
    + destruct (chn_find s1 i); eauto. injection E1 as <- <-. auto.
    + destruct (chn_find s1 i); eauto. injection E1 as <- <-. auto.
    + destruct (chn_find s1 i); injection E1 as <- <-; auto.
    + destruct (chn_find s1 0); eauto. injection E1 as <- <-. auto.
    + destruct (chn_find s1 i); eauto. discriminate.
Qed.
(* Every record handed to the writers (a flush, or finalization) is for the flushing thread and
   contains exactly the channel's, the process' and the thread's context, provided it is not full *)
Theorem C65_flush_record : forall t0 h s t o s' x l c t' info, k_hist t0 h s -> Forall call_visible h -> kop_ok s o -> k_step s t o = KOk s' x ->
  k_log s' = k_log s ++ l -> In (KWrite c t' info) l -> (length info < 120)%nat ->
  t' = t /\ forall i, In i info <-> ctx_item (ctx_of c h) i \/ ctx_item (a_proc (ann_of h)) i \/ ctx_item (a_thr (ann_of h) t) i.
Proof.
  intros t0 h s t o s' x l c t' info H V Hok E El Hin Hlen. pose proof (vis_hist _ _ _ H V) as ((V1 & V2) & V3). apply KJ_hist in H.
  destruct (new_writes t0 s t o s' x c t' info (j_inv _ _ _ (kj_j _ _ _ H)) (ok_noact _ _ Hok) E l El Hin) as (-> & b & Eb & ->). split; auto.
  pose proof (kj_k _ _ _ H) as [R1 _ R3]. destruct (R3 c b Eb) as (N3 & B3). pose proof (rl_inv _ _ R1) as Hi. destruct (rl_thr _ _ R1 t) as (N1 & B1). destruct (rl_proc _ _ R1) as (N2 & B2).
  unfold flush_rec in *. rewrite firstn_length in Hlen. intro i. rewrite firstn_all2 by (unfold SNAP_MAX in *; lia). rewrite !in_app_iff.
  rewrite (view_items _ _ _ i Hi N3 B3 (V3 _ _ Eb)), (view_items _ _ _ i Hi N2 B2 V2), (view_items _ _ _ i Hi N1 B1 (V1 t)). reflexivity.
Qed.
Print Assumptions C65_flush_record.
