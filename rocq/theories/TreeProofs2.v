From Verif Require Import Base VariantModel VariantSpec TreeModel TreeSpec TreeProofs.

Lemma replace_first_yields s t path a v l : inv s -> a <> INV_ID -> (forall i, path = Some i -> In i (ids (t_nodes s))) ->
  has_path s (or_root path) l ->
  exists r s1, replace_first_in_path s t path a v = Some (r, s1) /\ yields s s1 r (rm_innermost a l ++ [(a, v)]).
Proof.
  intros Hi Ha Hp Hl. unfold replace_first_in_path. destruct path as [i|].
  - destruct (remove_first_yields s t (Some i) a l Hi Ha Hp Hl) as (r & s1 & E & Y). rewrite E.
    pose proof Y as (Hi1 & He & U & P & Y1).
    destruct (get_child_yields s1 t a v r (rm_innermost a l) Hi1 P Ha) as (r2 & s2 & E2 & Y2).
    { intro Hnf. destruct (Y1 Hnf) as (j & -> & Hj). exact Hj. }
    exists r2, s2. split; auto. eapply yields_trans; eauto.
  - cbn [or_root] in Hl. destruct Hi as (Hw & Hb). pose proof (has_path_cpath _ _ _ Hw Hl) as El.
    rewrite cpath_root in El by auto. subst l.
    destruct (get_child_yields s t a v None [] (conj Hw Hb)) as (r & s1 & E & Y); auto.
    exists r, s1. split; auto.
Qed.

Lemma uniq_cons ns n p : wf ns -> uniq ns -> n_par n = Some p ->
  (forall m, In m ns -> n_par m = Some p -> n_attr m = n_attr n -> n_val m = n_val n -> False) -> uniq (n :: ns).
Proof.
  intros Hw U Hp H x y q [<-|Hx] [<-|Hy] Px Py A V; auto.
  - exfalso. assert (q = p) by congruence. subst. eapply H; eauto.
  - exfalso. assert (q = p) by congruence. subst. eapply H; eauto.
  - eapply U; eauto.
Qed.
Lemma fresh_no_children ns i m : wf ns -> ~ In i (ids ns) -> In m ns -> n_par m = Some i -> False.
Proof.
  intros Hw Hf Hm Hp. destruct (N.eq_dec (n_id m) ROOT) as [Er|Er].
  - rewrite (wf_root_id _ _ Hw Hm Er) in Hp. discriminate.
  - destruct (wf_par _ _ Hw Hm Er) as (q & E & Hq). congruence.
Qed.

Lemma place_list_spec vs : forall s t a p b f l, inv s -> In p (ids (t_nodes s)) -> a <> INV_ID -> has_path s p l ->
  t_cur s t = Some b -> t_fill s b = Some f -> f + N.of_nat (length vs) <= t_npb s ->
  exists i s1, place_list s t a vs p = Some (i, s1) /\ inv s1 /\ ext s s1 /\ In i (ids (t_nodes s1)) /\
    has_path s1 i (l ++ map (fun v => (a, v)) vs) /\
    (uniq (t_nodes s) -> (match vs with v :: _ => find_child s p a v = None | [] => True end) -> uniq (t_nodes s1)).
Proof.
  induction vs as [|v vs IH]; intros s t a p b f l Hi Hp Ha Hl Hc Hf Hle.
  - exists p, s. cbn. split; auto. split; auto. split; [apply ext_refl|]. split; auto. rewrite app_nil_r. auto.
  - cbn [place_list]. cbn [length] in Hle. rewrite Nat2N.inj_succ in Hle.
    destruct (place_spec s t a v p b f Hi Hp Ha Hc Hf) as (s1 & E & Hi1 & He1 & En & Hc1 & Hf1); [lia|].
    rewrite E. set (id := b * t_npb s + f) in *.
    assert (Hch : child_of s1 id p a v) by (unfold child_of; rewrite En; left; reflexivity).
    destruct (IH s1 t a id b (f + 1) (l ++ [(a, v)])) as (i & s2 & E2 & Hi2 & He2 & Hin & Hpath & U); auto.
    + eapply child_in; eauto.
    + eapply child_path; eauto; [apply Hi1|]. eapply ext_path; eauto.
    + replace (t_npb s1) with (t_npb s) by (symmetry; apply He1). lia.
    + exists i, s2. split; auto. split; auto. split; [eapply ext_trans; eauto|]. split; auto. split.
      * cbn. change ((a, v) :: ?x) with ([(a, v)] ++ x). rewrite app_assoc. exact Hpath.
      * intros Hu Hnone. apply U.
        -- rewrite En. apply (uniq_cons _ _ p); auto; [apply Hi|]. cbn. intros m Hm P1 A1 V1.
           eapply find_child_none; eauto.
        -- destruct vs as [|v2 vs]; auto. destruct (find_child s1 id a v2) as [n|] eqn:Ef; auto.
           exfalso. apply find_child_spec in Ef. destruct Ef as (Hn & Pn & _).
           assert (Hw1 : wf (t_nodes s1)) by apply Hi1. rewrite En in Hn, Hw1.
           assert (H3 : ~ In id (ids (t_nodes s))) by (inversion Hw1; assumption).
           destruct Hn as [<-|Hn].
           ++ cbn in Pn. injection Pn as Pn. apply H3. rewrite <- Pn. exact Hp.
           ++ eapply fresh_no_children; [|exact H3|exact Hn|exact Pn]. apply Hi.
Qed.

Lemma create_path_yields s t a vs p l : inv s -> In p (ids (t_nodes s)) -> a <> INV_ID -> has_path s p l ->
  N.of_nat (length vs) <= t_npb s -> (match vs with v :: _ => find_child s p a v = None | [] => True end) ->
  exists r s1, create_path s t a vs p = Some (r, s1) /\ yields s s1 r (l ++ map (fun v => (a, v)) vs).
Proof.
  intros Hi Hp Ha Hl Hlen Hnone. unfold create_path.
  destruct (have_free s t (N.of_nat (length vs))) as [ok s1] eqn:E.
  destruct (have_free_spec s t _ Hi _ _ E) as (Hi1 & He1 & En & Ht & Hf).
  destruct ok.
  - destruct (Ht eq_refl) as (b & f & Hc & Hfl & Hlt).
    assert (Hnpb : t_npb s1 = t_npb s) by apply He1.
    destruct (place_list_spec vs s1 t a p b f l) as (i & s2 & E2 & Hi2 & He2 & Hin & Hpath & U); auto; try lia.
    { rewrite En; auto. } { eapply ext_path; eauto. }
    rewrite E2. exists (Some i), s2. split; auto. split; auto. split; [eapply ext_trans; eauto|]. split.
    + intro Hu. apply U; [rewrite En; auto|]. unfold find_child. rewrite En. exact Hnone.
    + split; [intros j Ej; injection Ej as <-; auto|]. intros _. exists i; auto.
  - exists None, s1. split; auto. split; auto. split; auto. split; [rewrite En; auto|]. split; [discriminate|].
    intro Hnf. specialize (Hf eq_refl). unfold not_full in Hnf. lia.
Qed.

Lemma descend_spec s a vs : forall p l, inv s -> In p (ids (t_nodes s)) -> has_path s p l ->
  forall q rest, descend s p a vs = (q, rest) ->
  exists done, vs = done ++ rest /\ In q (ids (t_nodes s)) /\ has_path s q (l ++ map (fun v => (a, v)) done) /\
    (match rest with v :: _ => find_child s q a v = None | [] => True end).
Proof.
  induction vs as [|v vs IH]; intros p l Hi Hp Hl q rest E; cbn in E.
  - injection E as <- <-. exists []. cbn. rewrite app_nil_r. auto.
  - destruct (find_child s p a v) as [n|] eqn:Ef.
    + pose proof (find_child_spec _ _ _ _ _ Ef) as (Hn & Pn & An & Vn).
      destruct (IH (n_id n) (l ++ [(a, v)]) Hi) with (q := q) (rest := rest) as (done & -> & Hq & Hpath & Hnone); auto.
      { apply in_map; auto. }
      { rewrite <- An, <- Vn. apply (hp_node s n p l); auto. }
      exists (v :: done). split; auto. split; auto. split; auto. cbn. change ((a, v) :: ?x) with ([(a, v)] ++ x).
      rewrite app_assoc. auto.
    + injection E as <- <-. exists []. cbn. rewrite app_nil_r. auto.
Qed.

(* if p is the result of an earlier, possibly failed, step *)
Lemma get_path_yields s t a vs p l : inv s -> (forall i, p = Some i -> In i (ids (t_nodes s))) -> a <> INV_ID ->
  (not_full s -> has_path s (or_root p) l) -> N.of_nat (length vs) <= t_npb s ->
  exists r s1, get_path s t a vs p = Some (r, s1) /\ yields s s1 r (l ++ map (fun v => (a, v)) vs).
Proof.
  intros Hi Hp Ha Hl Hlen. unfold get_path.
  assert (Hp' : In (or_root p) (ids (t_nodes s))) by (destruct p; cbn; [auto|apply root_in; auto]).
  destruct (descend s (or_root p) a vs) as [q rest] eqn:E.
  pose proof (cpath_has_path s (or_root p) (proj1 Hi) Hp') as Hl'.
  destruct (descend_spec s a vs _ _ Hi Hp' Hl' _ _ E) as (done & Ev & Hq & Hpath & Hnone).
  assert (Hleq : not_full s -> l = cpath (t_nodes s) (or_root p)).
  { intro Hnf. apply has_path_cpath; [apply Hi|auto]. }
  destruct rest as [|v rest].
  - exists (Some q), s. split; auto. split; auto. split; [apply ext_refl|]. split; auto.
    split; [intros j Ej; injection Ej as <-; auto|]. intro Hnf. exists q. split; auto.
    rewrite app_nil_r in Ev. subst done. rewrite (Hleq Hnf). exact Hpath.
  - destruct (create_path_yields s t a (v :: rest) q _ Hi Hq Ha Hpath) as (r & s1 & E1 & Y); auto.
    { rewrite Ev, app_length in Hlen. lia. }
    exists r, s1. split; auto. destruct Y as (Y1 & Y2 & Y3 & Y4 & Y5). split; auto. split; auto. split; auto. split; auto.
    intro Hnf. destruct (Y5 Hnf) as (i & -> & Hpi). exists i. split; auto.
    rewrite (Hleq (not_full_ext _ _ Y2 Hnf)). rewrite Ev, map_app, app_assoc. exact Hpi.
Qed.

Lemma nonroot_prefix ns i pre n post : wf ns -> In i (ids ns) -> chain ns (Some i) = pre ++ n :: post -> n_par n <> None ->
  Forall (fun z => nonroot z = true /\ In z ns) (pre ++ [n]).
Proof.
  intros Hw Hp Ec Hn. apply Forall_forall. intros z Hz.
  assert (Hz' : In z ns).
  { eapply chain_in. rewrite Ec. apply in_app_or in Hz. apply in_or_app. destruct Hz as [?|[<-|[]]]; [left; auto|right; left; auto]. }
  split; auto. unfold nonroot. destruct (N.eqb_spec (n_id z) ROOT) as [Z|]; auto. exfalso.
  apply in_app_or in Hz. destruct Hz as [Hz|[<-|[]]].
  - rewrite (wf_root_id _ _ Hw Hz' Z) in Hz. apply in_split in Hz. destruct Hz as (x1 & x2 & ->).
    rewrite <- app_assoc in Ec. cbn in Ec.
    destruct (chain_decomp _ Hw i x1 root_node _ Hp Ec) as (_ & Hx). destruct (Hx eq_refl) as (_ & Hx'). destruct x2; discriminate.
  - rewrite (wf_root_id _ _ Hw Hz' Z) in Hn. apply Hn; reflexivity.
Qed.

(* copying everything below node n's parent, where n lies on the chain of i *)
Lemma copy_from_yields s t a i pre n post : inv s -> In i (ids (t_nodes s)) -> chain (t_nodes s) (Some i) = pre ++ n :: post ->
  (forall z, In z post -> n_attr z <> a \/ z = root_node) -> a <> INV_ID ->
  exists r s1, copy_path_without_attribute s t a (Some i) (n_par n) = Some (r, s1) /\
    yields s s1 r (rm_all a (cpath (t_nodes s) i)).
Proof.
  intros Hi Hp Ec Hpost Ha. pose proof Hi as (Hw & _). unfold copy_path_without_attribute.
  destruct (chain_decomp _ Hw i pre n post Hp Ec) as (Hd & Hd0).
  destruct (n_par n) as [q|] eqn:Eq.
  - destruct (Hd q eq_refl) as (Hcq & Hup). cbn [or_root].
    assert (Hfa : Forall (fun z => nonroot z = true /\ In z (t_nodes s)) (pre ++ [n])).
    { eapply nonroot_prefix; eauto. congruence. }
    assert (Hq : In q (ids (t_nodes s))).
    { assert (In n (t_nodes s)) by (eapply chain_in; rewrite Ec; apply in_or_app; right; left; auto).
      destruct (wf_par _ _ Hw H) as (q' & E' & H'); [intro Z; rewrite (wf_root_id _ _ Hw H Z) in Eq; discriminate|congruence]. }
    destruct (copy_wo_yields (chain (t_nodes s) (Some i)) s t a q _ Hi Hq (cpath_has_path s q Hw Hq)) as (r & s1 & E & Y).
    { rewrite Ec, Hup. eapply Forall_impl; [|exact Hfa]. intros z (Hz & Hz'). eapply wf_attr; eauto.
      unfold nonroot in Hz. destruct (N.eqb_spec (n_id z) ROOT); [discriminate|auto]. }
    exists r, s1. split; auto. rewrite Ec, Hup in Y.
    replace (rm_all a (cpath (t_nodes s) i)) with (cpath (t_nodes s) q ++ rm_all a (map content (rev (pre ++ [n])))); auto.
    unfold cpath. rewrite Hcq, Ec. replace (pre ++ n :: post) with ((pre ++ [n]) ++ post) by (rewrite <- app_assoc; reflexivity).
    rewrite (filter_app nonroot (pre ++ [n]) post). rewrite (filter_all nonroot (pre ++ [n])).
    2:{ intros x Hx. rewrite Forall_forall in Hfa. apply Hfa; auto. }
    rewrite (rev_app_distr (pre ++ [n]) (filter nonroot post)), map_app. unfold rm_all at 2. rewrite filter_app. f_equal.
    symmetry. apply rm_all_id. intros y Hy. apply in_map_iff in Hy. destruct Hy as (z & <- & Hz). apply in_rev in Hz.
    apply filter_In in Hz. destruct Hz as (Hz & Hr). cbn. destruct (Hpost z Hz) as [?|Hz2]; [auto|]. subst z. discriminate.
  - destruct (Hd0 eq_refl) as (-> & ->). cbn [or_root].
    destruct (chain_ends _ Hw i Hp) as (prer & Er & Eu & Ef). rewrite Er in Ec.
    apply app_inj_tail in Ec. destruct Ec as (<- & _).
    destruct (copy_wo_yields (chain (t_nodes s) (Some i)) s t a ROOT [] Hi (root_in _ Hi) (hp_root _)) as (r & s1 & E & Y).
    { apply Forall_forall. intros z Hz. eapply chain_attr; eauto. }
    exists r, s1. split; auto. rewrite Er, Eu in Y. unfold cpath. rewrite Er, Ef. exact Y.
Qed.

Lemma replace_all_yields s t path a vs l : inv s -> a <> INV_ID -> (forall i, path = Some i -> In i (ids (t_nodes s))) ->
  has_path s (or_root path) l -> N.of_nat (length vs) <= t_npb s ->
  exists r s1, replace_all_in_path s t path a vs = Some (r, s1) /\
    yields s s1 r (rm_all a l ++ map (fun v => (a, v)) vs).
Proof.
  intros Hi Ha Hp Hl Hlen. pose proof Hi as (Hw & _). unfold replace_all_in_path.
  assert (Hl' : l = cpath (t_nodes s) (or_root path)) by (apply has_path_cpath; auto).
  assert (G : forall par, par = (match (match find (fun n => n_attr n =? a) (rev (chain (t_nodes s) path)) with
             | Some n => Some n | None => hd_error (chain (t_nodes s) path) end) with Some n => n_par n | None => Some ROOT end) ->
          exists r s1, copy_path_without_attribute s t a path par = Some (r, s1) /\ yields s s1 r (rm_all a l)).
  { intros par ->. destruct path as [i|].
    - specialize (Hp i eq_refl). cbn in Hl'. rewrite Hl'.
      destruct (find (fun n => n_attr n =? a) (rev (chain (t_nodes s) (Some i)))) as [n|] eqn:Ef.
      + apply find_split in Ef. destruct Ef as (l1 & l2 & E & Hn & Hl1).
        apply (f_equal (@rev _)) in E. rewrite rev_involutive, rev_app_distr in E. cbn in E. rewrite <- app_assoc in E. cbn in E.
        eapply copy_from_yields; eauto. intros z Hz. left. apply N.eqb_neq. apply Hl1. apply in_rev; auto.
      + assert (exists n post, chain (t_nodes s) (Some i) = [] ++ n :: post) as (n & post & E).
        { apply in_map_iff in Hp. destruct Hp as (n & <- & Hn). rewrite (chain_step _ _ Hw Hn). exists n; eexists; reflexivity. }
        rewrite E. cbn [app hd_error]. eapply copy_from_yields; eauto. intros z Hz. left. apply N.eqb_neq.
        apply (find_none _ _ Ef). rewrite <- in_rev. rewrite E. right; auto.
    - rewrite chain_none. cbn. cbn in Hl'. rewrite cpath_root in Hl' by auto. subst l.
      unfold copy_path_without_attribute. rewrite chain_none. cbn [copy_wo or_root].
      exists (Some ROOT), s. split; auto. split; auto. split; [apply ext_refl|]. split; auto.
      split; [intros j Ej; injection Ej as <-; apply root_in; auto|]. intros _. exists ROOT. split; auto. }
  destruct (G _ eq_refl) as (r & s1 & E & Y). rewrite E.
  pose proof Y as (Hi1 & He & U & P & Y1).
  destruct (get_path_yields s1 t a vs r (rm_all a l) Hi1 P Ha) as (r2 & s2 & E2 & Y2).
  { intro Hnf. destruct (Y1 Hnf) as (j & -> & Hj). exact Hj. }
  { replace (t_npb s1) with (t_npb s) by (symmetry; apply He). auto. }
  exists r2, s2. split; auto. eapply yields_trans; eauto.
Qed.

(* ---- initial state and histories ---- *)
Lemma init_inv npb nblk t0 s0 : cfg_ok npb nblk -> tree_init npb nblk t0 = Some s0 -> inv s0 /\ uniq (t_nodes s0).
Proof.
  intros (H1 & H2) H. unfold tree_init in H.
  destruct ((N.min npb 256 <? 12) || (nblk =? 0)) eqn:E; [discriminate|]. injection H as <-.
  split; [split|].
  - cbn. unfold boot_nodes.
    Ltac wfstep := eapply wf_cons; [|cbn; reflexivity|cbn; tauto|cbn; unfold ROOT, INV_ID; intuition discriminate|discriminate].
    repeat wfstep. exact wf_root.
  - assert (12 <= N.min npb 256 <= 256) by lia. revert H. generalize (N.min npb 256) as q. intros q Hq.
    constructor; cbn -[N.mul]; try lia.
    + intros b f. unfold upd. destruct (N.eqb_spec b 0); [intro X; injection X as <-; subst; lia|discriminate].
    + intros t b. unfold upd. destruct (N.eqb_spec t t0); [|discriminate]. intro X. injection X as <-. rewrite N.eqb_refl. eauto.
    + intros t t' b. unfold upd. destruct (N.eqb_spec t t0), (N.eqb_spec t' t0); congruence.
    + intros n Hn Hr. exists 0. unfold upd. rewrite N.eqb_refl.
      assert (exists i, i < 12 /\ n_id n = i) as (i & Hi & Ei).
      { repeat (destruct Hn as [<-|Hn]; [eexists; split; [|cbn; reflexivity]; lia|]).
        destruct Hn as [<-|[]]. exfalso. apply Hr. reflexivity. }
      exists i, 12. repeat split; auto.
    + intros b f i. unfold upd. destruct (N.eqb_spec b 0); [|discriminate]. intro X. injection X as <-. intro Hi. subst b.
      replace (0 * q + i) with i by lia. unfold ids, boot_nodes. cbn [map n_id].
      assert (Hc : i = 0 \/ i = 1 \/ i = 2 \/ i = 3 \/ i = 4 \/ i = 5 \/ i = 6 \/ i = 7 \/ i = 8 \/ i = 9 \/ i = 10 \/ i = 11) by lia.
      cbn. intuition (subst; auto 20).
  - cbn. intros n m p Hn Hm Pn Pm A V.
    assert (G : n_id n = n_id m).
    { unfold boot_nodes in Hn, Hm. cbn in Hn, Hm.
      repeat (destruct Hn as [<-|Hn]; [repeat (destruct Hm as [<-|Hm]; [cbn in *; try reflexivity; try congruence; try discriminate|]); try contradiction|]);
      contradiction. }
    assert (NoDup (ids boot_nodes)).
    { apply wf_nodup. unfold boot_nodes. repeat wfstep. exact wf_root. }
    eapply nodup_id_eq; eauto.
Qed.

Lemma ptr_ok_ids s p : ptr_ok s p -> forall i, p = Some i -> In i (ids (t_nodes s)).
Proof. intros H i E. destruct (H i E) as (n & Hn & <-). apply in_map; auto. Qed.
Lemma ptr_has_path s p : inv s -> ptr_ok s p -> exists l, has_path s (or_root p) l.
Proof.
  intros Hi H. exists (cpath (t_nodes s) (or_root p)). apply cpath_has_path; [apply Hi|].
  destruct p; cbn; [eapply ptr_ok_ids; eauto|apply root_in; auto].
Qed.

(* every operation is defined and preserves the invariant *)
Lemma tstep_inv s t o : inv s -> op_ok s o -> op_small s o ->
  exists r s1, tstep s t o = Some (r, s1) /\ inv s1 /\ ext s s1 /\ (race_free o -> uniq (t_nodes s) -> uniq (t_nodes s1)).
Proof.
  intros Hi Ho Hs. pose proof Hi as (Hw & Hb). destruct o; cbn in Ho, Hs; cbn [tstep].
  - destruct Ho as (Ha & Hp). destruct (ptr_has_path s p Hi Hp) as (l & Hl).
    destruct (get_child_yields s t a v p l Hi (ptr_ok_ids _ _ Hp) Ha (fun _ => Hl)) as (r & s1 & E & Y1 & Y2 & Y3 & _).
    exists r, s1; auto.
  - destruct Ho as (Ha & Hp). destruct (ptr_has_path s p Hi Hp) as (l & Hl).
    destruct (get_path_yields s t a vs p l Hi (ptr_ok_ids _ _ Hp) Ha (fun _ => Hl) Hs) as (r & s1 & E & Y1 & Y2 & Y3 & _).
    exists r, s1; auto.
  - destruct Ho as (Hl & Hnr & Hp). destruct (ptr_has_path s p Hi Hp) as (pl & Hpl).
    destruct (get_path_nodes_yields (map (fun x => match x with Some i => node_at s i | None => None end) l) s t p pl Hi (ptr_ok_ids _ _ Hp))
      as (r & s1 & E & Y1 & Y2 & Y3 & _).
    { intros _. split; auto. intros ->. cbn in Hpl. rewrite (has_path_cpath _ _ _ Hw Hpl). apply cpath_root; auto. }
    { apply Forall_forall. intros x Hx n ->. apply in_map_iff in Hx. destruct Hx as (y & Ey & Hy).
      destruct y as [i|]; [|discriminate]. apply node_at_in in Ey. destruct Ey as (Hn & En).
      eapply wf_attr; eauto. rewrite Forall_forall in Hnr. intro Z. apply (Hnr _ Hy). congruence. }
    exists r, s1; auto.
  - destruct Ho as (Ha & Hp). destruct (ptr_has_path s _ Hi Hp) as (l & Hl).
    destruct (remove_first_yields s t path a l Hi Ha (ptr_ok_ids _ _ Hp) Hl) as (r & s1 & E & Y1 & Y2 & Y3 & _).
    exists r, s1; auto.
  - destruct Ho as (Ha & Hp). destruct (ptr_has_path s _ Hi Hp) as (l & Hl).
    destruct (replace_first_yields s t path a v l Hi Ha (ptr_ok_ids _ _ Hp) Hl) as (r & s1 & E & Y1 & Y2 & Y3 & _).
    exists r, s1; auto.
  - destruct Ho as (Ha & Hp). destruct (ptr_has_path s _ Hi Hp) as (l & Hl).
    destruct (replace_all_yields s t path a vs l Hi Ha (ptr_ok_ids _ _ Hp) Hl Hs) as (r & s1 & E & Y1 & Y2 & Y3 & _).
    exists r, s1; auto.
  - destruct Ho as (Ha & Hp).
    destruct (create_child_spec s t a v p Hi (ptr_ok_ids _ _ Hp p eq_refl) Ha) as (r & s1 & E & Hi1 & He & _).
    exists r, s1. split; [exact E|]. split; [exact Hi1|]. split; [exact He|]. intros [].
  - destruct (N.leb_spec (t_nblk s) (t_next s)).
    + eexists _, _. split; [reflexivity|]. split; [split; auto|].
      * destruct Hb as [b1 b2 b3 b4 b5 b6 b7 b8]. constructor; cbn; auto; try lia.
        intros b f E. apply b3 in E. lia.
      * split; [|auto]. split; [exists []; auto|]. cbn. repeat split; lia.
    + eexists _, _. split; [reflexivity|]. split; auto. split; [apply ext_refl|auto].
Qed.

Lemma steps_inv races s s' : steps races s s' -> inv s -> inv s' /\ ext s s' /\ (races = false -> uniq (t_nodes s) -> uniq (t_nodes s')).
Proof.
  induction 1; intro Hi.
  - split; auto. split; [apply ext_refl|auto].
  - destruct (tstep_inv s t o Hi H H0) as (r' & s1' & E & Hi1 & He & U). rewrite E in H2. injection H2 as -> ->.
    destruct (IHsteps Hi1) as (Hi2 & He2 & U2). split; auto. split; [eapply ext_trans; eauto|]. auto.
Qed.
Lemma reach_inv races s : reach races s -> inv s /\ (races = false -> uniq (t_nodes s)).
Proof.
  intros (npb & nblk & t0 & s0 & Hc & E & Hs). destruct (init_inv _ _ _ _ Hc E) as (Hi & U).
  destruct (steps_inv _ _ _ Hs Hi) as (Hi' & _ & U'). auto.
Qed.

(* equal paths are the same node *)
Lemma path_inj s i j l : inv s -> uniq (t_nodes s) -> has_path s i l -> has_path s j l -> i = j.
Proof.
  intros Hi U H. revert j. induction H as [|n p l Hn Hp Hl IH]; intros j Hj.
  - inversion Hj; auto. destruct l; discriminate.
  - inversion Hj as [E1 E2|n' p' l' Hn' Hp' Hl' E1 E2].
    + destruct l; discriminate.
    + apply app_inj_tail in E2. destruct E2 as (-> & E2). injection E2 as E2 E3.
      assert (p = p') by (apply IH; auto). subst p'. f_equal. eapply U; eauto.
Qed.

Lemma node_lookup_spec s n : inv s -> In n (t_nodes s) -> n_id n <> ROOT -> node_lookup s (n_id n) = Some (Some n).
Proof.
  intros (Hw & Hb) Hn Hr. destruct Hb as [b1 b2 b3 b4 b5 b6 b7 b8].
  destruct (b6 n Hn Hr) as (b & i & f & E1 & E2 & E3). destruct (b3 _ _ E1) as (_ & Hb & Hf).
  unfold node_lookup.
  assert (Hd : n_id n / t_npb s = b). { symmetry. apply (N.div_unique _ _ b i); lia. }
  assert (Hm : n_id n mod t_npb s = i). { symmetry. apply (N.mod_unique _ _ b i); lia. }
  rewrite Hd, Hm, E1. destruct (N.leb_spec (t_nblk s) b); [lia|]. destruct (N.leb_spec f i); [lia|].
  rewrite <- E3. f_equal. apply (in_node_at s n (wf_nodup _ Hw) Hn).
Qed.
