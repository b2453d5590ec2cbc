From Verif Require Import Base VariantModel VariantSpec TreeModel TreeSpec TreeProofs TreeProofs2 RuntimeModel RuntimeSpec.

(* ---- t_next only grows, whatever happens ---- *)
Definition mono (s s' : tree) : Prop := t_next s <= t_next s' /\ t_nblk s' = t_nblk s.
Lemma mono_refl s : mono s s. Proof. split; [lia|auto]. Qed.
Lemma mono_trans a b c : mono a b -> mono b c -> mono a c.
Proof. intros (A1 & A2) (B1 & B2). split; [lia|congruence]. Qed.
Lemma mono_nf s s' : mono s s' -> not_full s' -> not_full s.
Proof. unfold not_full. intros (A & B) H. rewrite B in H. lia. Qed.
Lemma ext_mono s s' : ext s s' -> mono s s'.
Proof. intros (_ & A & _ & B). split; auto. Qed.
Lemma have_free_mono s t n ok s1 : have_free s t n = (ok, s1) -> mono s s1.
Proof.
  unfold have_free. destruct (match t_cur s t with None => true | Some b => match t_fill s b with Some i => t_npb s <=? i + n | None => true end end).
  - destruct (t_nblk s <=? t_next s); intro H; injection H as <- <-; [apply mono_refl|split; cbn; [lia|auto]].
  - intro H; injection H as <- <-. apply mono_refl.
Qed.
Lemma place_mono s t a v p i s1 : place s t a v p = Some (i, s1) -> mono s s1.
Proof.
  unfold place. destruct (t_cur s t); [|discriminate]. destruct (t_fill s n); [|discriminate]. destruct (n0 <? t_npb s); [|discriminate].
  intro H. injection H as <- <-. split; cbn; [lia|auto].
Qed.
Lemma get_child_mono s t a v p r s1 : get_child s t a v p = Some (r, s1) -> mono s s1.
Proof.
  unfold get_child, create_child. destruct (find_child s (or_root p) a v).
  - intro H; injection H as <- <-. apply mono_refl.
  - destruct (have_free s t 1) as [ok s'] eqn:E. apply have_free_mono in E. destruct ok.
    + destruct (place s' t a v (or_root p)) as [[i s2]|] eqn:E2; [|discriminate]. intro H; injection H as <- <-.
      eapply mono_trans; eauto using place_mono.
    + intro H; injection H as <- <-; auto.
Qed.
Lemma copy_wo_mono ch : forall s t a stop r s1, copy_wo s t a ch stop = Some (r, s1) -> mono s s1.
Proof.
  induction ch as [|n ch IH]; cbn; intros s t a stop r s1 H; [injection H as <- <-; apply mono_refl|].
  destruct (n_id n =? stop); [injection H as <- <-; apply mono_refl|].
  destruct (copy_wo s t a ch stop) as [[tmp s']|] eqn:E; [|discriminate]. apply IH in E.
  destruct (n_attr n =? a); [injection H as <- <-; auto|]. rewrite goc_get_child in H. apply get_child_mono in H. eapply mono_trans; eauto.
Qed.
Lemma remove_first_mono s t p a r s1 : remove_first_in_path s t p a = Some (r, s1) -> mono s s1.
Proof. apply copy_wo_mono. Qed.
Lemma replace_first_mono s t p a v r s1 : replace_first_in_path s t p a v = Some (r, s1) -> mono s s1.
Proof.
  unfold replace_first_in_path. destruct p; [|apply get_child_mono].
  destruct (remove_first_in_path s t (Some n) a) as [[q s']|] eqn:E; [|discriminate]. intro H.
  apply remove_first_mono in E. apply get_child_mono in H. eapply mono_trans; eauto.
Qed.
Lemma place_list_mono vs : forall s t a p i s1, place_list s t a vs p = Some (i, s1) -> mono s s1.
Proof.
  induction vs as [|v vs IH]; cbn; intros s t a p i s1 H; [injection H as <- <-; apply mono_refl|].
  destruct (place s t a v p) as [[j s']|] eqn:E; [|discriminate]. apply place_mono in E. apply IH in H. eapply mono_trans; eauto.
Qed.
Lemma get_path_mono s t a vs p r s1 : get_path s t a vs p = Some (r, s1) -> mono s s1.
Proof.
  unfold get_path, create_path. destruct (descend s (or_root p) a vs) as [q rest]. destruct rest.
  - intro H; injection H as <- <-; apply mono_refl.
  - destruct (have_free s t _) as [ok s'] eqn:E. apply have_free_mono in E. destruct ok.
    + destruct (place_list s' t a (v :: rest) q) as [[i s2]|] eqn:E2; [|discriminate]. intro H; injection H as <- <-.
      apply place_list_mono in E2. eapply mono_trans; eauto.
    + intro H; injection H as <- <-; auto.
Qed.
Lemma get_path_nodes_mono l : forall s t p r s1, get_path_nodes s t l p = Some (r, s1) -> mono s s1.
Proof.
  induction l as [|x l IH]; cbn; intros s t p r s1 H; [injection H as <- <-; apply mono_refl|]. destruct x as [n|]; [|eauto].
  rewrite goc_get_child in H. destruct (get_child s t (n_attr n) (n_val n) p) as [[q s']|] eqn:E; [|discriminate].
  apply get_child_mono in E. apply IH in H. eapply mono_trans; eauto.
Qed.
Lemma tstep_mono s t o r s1 : tstep s t o = Some (r, s1) -> mono s s1.
Proof.
  destruct o; cbn [tstep].
  - apply get_child_mono. - apply get_path_mono. - apply get_path_nodes_mono. - apply remove_first_mono.
  - apply replace_first_mono.
  - unfold replace_all_in_path. match goal with |- context [copy_path_without_attribute s t a path ?x] => destruct (copy_path_without_attribute s t a path x) as [[q s']|] eqn:E end; [|discriminate].
    apply copy_wo_mono in E. intro H. apply get_path_mono in H. eapply mono_trans; eauto.
  - intro H. unfold create_child in H. destruct (have_free s t 1) as [ok s'] eqn:E. apply have_free_mono in E. destruct ok.
    + destruct (place s' t a v p) as [[i s2]|] eqn:E2; [|discriminate]. injection H as <- <-. apply place_mono in E2. eapply mono_trans; eauto.
    + injection H as <- <-; auto.
  - destruct (t_nblk s <=? t_next s); intro H; injection H as <- <-; [split; cbn; [lia|auto]|apply mono_refl].
Qed.

(* ---- relation between blackboard entries and lists ---- *)
Definition ref_rel (tr : tree) (e : ent) (l : list (N * value)) : Prop :=
  Forall (fun x => 12 <= fst x /\ fst x <> INV_ID) l /\
  match e with
  | None => l = []
  | Some (i, v) => l <> [] /\ has_path tr i l /\ exists n, In n (t_nodes tr) /\ n_id n = i /\ n_val n = v
  end.
Definition attr_node (tr : tree) (k : N) : Prop := exists n, In n (t_nodes tr) /\ n_id n = k /\ n_attr n = NAME_ATTR_ID.

Lemma ref_ext tr tr' e l : ext tr tr' -> ref_rel tr e l -> ref_rel tr' e l.
Proof.
  intros He (Hf & H). split; auto. destruct e as [[i v]|]; auto. destruct H as (H1 & H2 & n & H3 & H4 & H5).
  split; auto. split; [eapply ext_path; eauto|]. exists n; split; auto. eapply ext_in; eauto.
Qed.
Lemma attr_node_ext tr tr' k : ext tr tr' -> attr_node tr k -> attr_node tr' k.
Proof. intros He (n & H1 & H2 & H3). exists n; split; auto. eapply ext_in; eauto. Qed.

(* structure of a non-empty path *)
Lemma path_last tr i l : inv tr -> has_path tr i l -> l <> [] ->
  exists n p l', In n (t_nodes tr) /\ n_id n = i /\ n_par n = Some p /\ has_path tr p l' /\ l = l' ++ [(n_attr n, n_val n)] /\
    node_at tr i = Some n /\ i <> ROOT.
Proof.
  intros Hi H Hne. pose proof Hi as (Hw & _). destruct H as [|n p l' Hn Hp Hl]; [congruence|].
  exists n, p, l'. repeat split; auto; [apply in_node_at; auto; apply wf_nodup; auto|].
  intro Z. rewrite (wf_root_id _ _ Hw Hn Z) in Hp. discriminate.
Qed.

Lemma rev_app_last {A} (l : list A) x : rev (l ++ [x]) = x :: rev l.
Proof. rewrite rev_app_distr. reflexivity. Qed.

Lemma ref_view tr e l : inv tr -> ref_rel tr e l -> ent_view tr e = l.
Proof.
  intros Hi (Hf & H). destruct e as [[i v]|]; [|auto]. destruct H as (Hne & Hp & n & Hn & En & Vn).
  destruct (path_last _ _ _ Hi Hp Hne) as (m & p & l' & Hm & Em & Pm & Hl' & El & Ea & Hr).
  unfold ent_view. rewrite Ea.
  assert (12 <= n_attr m). { rewrite Forall_forall in Hf. apply (Hf (n_attr m, n_val m)). rewrite El. apply in_or_app; right; left; auto. }
  destruct (N.eqb_spec (n_attr m) NAME_ATTR_ID) as [Z|_]; [unfold NAME_ATTR_ID in Z; lia|].
  rewrite (has_path_cpath _ _ _ (proj1 Hi) Hp). reflexivity.
Qed.

Lemma find_chain tr i l aid : inv tr -> has_path tr i l -> aid <> INV_ID ->
  match find (fun m => n_attr m =? aid) (chain (t_nodes tr) (Some i)) with
  | Some m => innermost aid l = Some (n_val m) /\ In m (t_nodes tr)
  | None => innermost aid l = None
  end.
Proof.
  intros Hi Hp Ha. pose proof Hi as (Hw & _). induction Hp as [|n p l Hn Pn Hl IH].
  - change ROOT with (n_id root_node). rewrite (chain_step _ _ Hw (wf_root_in _ Hw)). cbn [n_par root_node]. rewrite chain_none. cbn.
    destruct (N.eqb_spec INV_ID aid); [congruence|]. reflexivity.
  - rewrite (chain_step _ _ Hw Hn), Pn. cbn [find]. unfold innermost in *. rewrite rev_app_last. cbn [find fst].
    destruct (N.eqb_spec (n_attr n) aid); [cbn; auto|]. exact IH.
Qed.

Lemma ref_get tr e l aid : inv tr -> ref_rel tr e l -> attr_node tr aid -> aid <> INV_ID -> 
  option_map snd (ent_get tr e aid) = innermost aid l /\
  (ent_attribute tr e =? aid) = last_is aid l /\
  (forall i v, e = Some (i, v) -> forall j w, ent_get tr e aid = Some (j, w) -> (i =? j) = last_is aid l).
Proof.
  intros Hi (Hf & H) (an & Han & Ean & Aan) Ha. pose proof Hi as (Hw & _).
  destruct e as [[i v]|].
  - destruct H as (Hne & Hp & n & Hn & En & Vn).
    destruct (path_last _ _ _ Hi Hp Hne) as (m & p & l' & Hm & Em & Pm & Hl' & El & Ea & Hr).
    assert (Hma : 12 <= n_attr m). { rewrite Forall_forall in Hf. apply (Hf (n_attr m, n_val m)). rewrite El. apply in_or_app; right; left; auto. }
    assert (Hia : i <> aid).
    { intro Z. assert (m = an). { eapply nodup_id_eq; eauto; [apply wf_nodup; auto|congruence]. } subst. rewrite Aan in Hma. unfold NAME_ATTR_ID in Hma. lia. }
    unfold ent_get, ent_attribute. rewrite Ea. destruct (N.eqb_spec i aid); [contradiction|].
    destruct (N.eqb_spec (n_attr m) NAME_ATTR_ID) as [Z|_]; [unfold NAME_ATTR_ID in Z; lia|].
    pose proof (find_chain tr i l aid Hi Hp Ha) as Hfc.
    assert (Hlast : last_is aid l = (n_attr m =? aid)) by (unfold last_is; rewrite El, rev_app_last; reflexivity).
    split; [|split].
    + destruct (find _ _); [destruct Hfc as (-> & _)|rewrite Hfc]; reflexivity.
    + auto.
    + intros i' v' E' j w Hj. injection E' as <- <-. rewrite Hlast.
      pose proof (chain_step _ _ Hw Hm) as Hcs. rewrite Em, Pm in Hcs. rewrite Hcs in Hj. cbn [find] in Hj.
      destruct (N.eqb_spec (n_attr m) aid).
      * injection Hj as <- <-. rewrite Em. apply N.eqb_refl.
      * destruct (find (fun m0 => n_attr m0 =? aid) (chain (t_nodes tr) (Some p))) as [x|] eqn:Ex; [|discriminate].
        injection Hj as <- <-. apply N.eqb_neq. intro Z.
        apply find_some in Ex. destruct Ex as (Hx & Ax). apply N.eqb_eq in Ax.
        assert (Hx' : In x (t_nodes tr)) by (eapply chain_in; eauto).
        assert (x = m) by (eapply nodup_id_eq; eauto; [apply wf_nodup; auto|congruence]). subst x. contradiction.
  - subst l. cbn. split; auto. split; [|discriminate]. destruct (N.eqb_spec INV_ID aid); [congruence|reflexivity].
Qed.

(* ---- one blackboard ---- *)
Record bbrel (tr : tree) (m : bb) (c : actx) : Prop := {
  br_reg : ref_rel tr (bget m REGION_KEY) (c_reg c);
  br_una : ref_rel tr (bget m UNALIGNED_KEY) (c_una c);
  br_imm : forall k, 12 <= k -> bget m k = option_map (fun v => (k, v)) (c_imm c k) /\ (c_imm c k <> None -> attr_node tr k)
}.

Lemma bget_bset_same m k e vis : bget (bset m k e vis) k = Some e.
Proof.
  induction m as [|[k' [[i v] b]] m IH]; cbn; [rewrite N.eqb_refl; destruct e; reflexivity|].
  destruct (N.eqb_spec k' k); cbn; [subst; rewrite N.eqb_refl; destruct e; reflexivity|]. destruct (N.eqb_spec k' k); [contradiction|auto].
Qed.
Lemma bget_bset_other m k k2 e vis : k2 <> k -> bget (bset m k e vis) k2 = bget m k2.
Proof.
  intro H. induction m as [|[k' [[i v] b]] m IH]; cbn.
  - destruct (N.eqb_spec k k2); [congruence|reflexivity].
  - destruct (N.eqb_spec k' k); cbn.
    + subst. destruct (N.eqb_spec k k2); [congruence|reflexivity].
    + rewrite IH. reflexivity.
Qed.
Definition keys (m : bb) := map fst m.
Lemma keys_bset m k e vis : NoDup (keys m) -> NoDup (keys (bset m k e vis)).
Proof.
  intro H. assert (G : forall x, In x (keys (bset m k e vis)) <-> x = k \/ In x (keys m)).
  { clear. induction m as [|[k' [[i v] b]] m IH]; cbn; intro x; [intuition|]. destruct (N.eqb_spec k' k); cbn; [subst; intuition|]. rewrite IH. intuition. }
  induction m as [|[k' [[i v] b]] m IH]; cbn in *; [repeat constructor; intuition|]. inversion H; subst.
  destruct (N.eqb_spec k' k); cbn; [constructor; auto|]. constructor; [|apply IH; auto].
  - intro Hx. apply H2. assert (forall m, In k' (keys (bset m k e vis)) -> In k' (keys m)).
    { clear -n. induction m as [|[k2 [[i v] b]] m IH]; cbn; [intuition congruence|]. destruct (N.eqb_spec k2 k); cbn; intuition. }
    apply H0; auto.
  - clear. induction m as [|[k2 [[i2 v2] b2]] m IH]; cbn; intro x; [intuition|]. destruct (N.eqb_spec k2 k); cbn; [subst; intuition|]. rewrite IH. intuition.
Qed.
Lemma bget_bdel_other m k k2 : k2 <> k -> bget (bdel m k) k2 = bget m k2.
Proof.
  intro H. induction m as [|[k' [[i v] b]] m IH]; cbn; auto. destruct (N.eqb_spec k' k); cbn.
  - subst. destruct (N.eqb_spec k k2); [congruence|reflexivity].
  - rewrite IH. reflexivity.
Qed.
Lemma bget_notin m k : ~ In k (keys m) -> bget m k = None.
Proof.
  induction m as [|[k' [[i v] b]] m IH]; cbn; auto. intro H. destruct (N.eqb_spec k' k); [exfalso; auto|auto].
Qed.
Lemma bget_bdel_same m k : NoDup (keys m) -> bget (bdel m k) k = None.
Proof.
  induction m as [|[k' [[i v] b]] m IH]; cbn; intro H; auto. inversion H; subst. destruct (N.eqb_spec k' k); cbn.
  - subst. apply bget_notin; auto.
  - destruct (N.eqb_spec k' k); [contradiction|auto].
Qed.
Lemma keys_bdel m k : NoDup (keys m) -> NoDup (keys (bdel m k)).
Proof.
  intro H. assert (G : forall x, In x (keys (bdel m k)) -> In x (keys m)).
  { clear. induction m as [|x m IH]; cbn; auto. destruct (fst x =? k); cbn; intuition. }
  induction m as [|x m IH]; cbn in *; auto. inversion H; subst. destruct (fst x =? k); auto. cbn. constructor.
  - intro Hx. apply H2. clear -Hx. induction m as [|y m IH]; cbn in *; auto. destruct (fst y =? k); cbn in *; intuition.
  - apply IH; auto. clear. induction m as [|y m IH]; cbn; auto. destruct (fst y =? k); cbn; intuition.
Qed.

Lemma bbrel_ext tr tr' m c : ext tr tr' -> bbrel tr m c -> bbrel tr' m c.
Proof.
  intros He [H1 H2 H3]. constructor; [eapply ref_ext; eauto|eapply ref_ext; eauto|]. intros k Hk. destruct (H3 k Hk) as (A & B).
  split; auto. intro Z. eapply attr_node_ext; eauto.
Qed.

(* setting the list of an attribute's class *)
Lemma bbrel_set_ref tr m c a i v l vis : bbrel tr m c -> ref_rel tr (Some (i, v)) l ->
  bbrel tr (bset m (ref_key a) (i, v) vis) (with_lst c a l).
Proof.
  intros [H1 H2 H3] Hr. unfold ref_key, with_lst. destruct (unaligned a); constructor; cbn;
    try (rewrite bget_bset_same; exact Hr); try (rewrite bget_bset_other by discriminate; assumption).
  - intros k Hk. rewrite bget_bset_other by (unfold UNALIGNED_KEY; lia). auto.
  - intros k Hk. rewrite bget_bset_other by (unfold REGION_KEY; lia). auto.
Qed.
Lemma bbrel_del_ref tr m c a : NoDup (keys m) -> bbrel tr m c -> bbrel tr (bdel m (ref_key a)) (with_lst c a []).
Proof.
  intros Hn [H1 H2 H3]. unfold ref_key, with_lst. destruct (unaligned a); constructor; cbn;
    try (rewrite bget_bdel_same by auto; split; auto); try (rewrite bget_bdel_other by discriminate; assumption).
  - intros k Hk. rewrite bget_bdel_other by (unfold UNALIGNED_KEY; lia). auto.
  - intros k Hk. rewrite bget_bdel_other by (unfold REGION_KEY; lia). auto.
Qed.
Lemma bbrel_set_imm tr m c k v vis : 12 <= k -> attr_node tr k -> bbrel tr m c ->
  bbrel tr (bset m k (k, v) vis) (with_imm c k (Some v)).
Proof.
  intros Hk Ha [H1 H2 H3]. constructor; cbn.
  - rewrite bget_bset_other by (unfold REGION_KEY; lia). auto.
  - rewrite bget_bset_other by (unfold UNALIGNED_KEY; lia). auto.
  - intros k2 Hk2. unfold upd. destruct (N.eqb_spec k2 k); [subst; rewrite bget_bset_same; auto|]. rewrite bget_bset_other by auto. auto.
Qed.
Lemma bbrel_del_imm tr m c k : 12 <= k -> NoDup (keys m) -> bbrel tr m c -> bbrel tr (bdel m k) (with_imm c k None).
Proof.
  intros Hk Hn [H1 H2 H3]. constructor; cbn.
  - rewrite bget_bdel_other by (unfold REGION_KEY; lia). auto.
  - rewrite bget_bdel_other by (unfold UNALIGNED_KEY; lia). auto.
  - intros k2 Hk2. unfold upd. destruct (N.eqb_spec k2 k); [subst; rewrite bget_bdel_same by auto; cbn; split; [auto|congruence]|].
    rewrite bget_bdel_other by auto. auto.
Qed.

Lemma br_lst tr m c a : bbrel tr m c -> ref_rel tr (bget m (ref_key a)) (lst c a).
Proof. intros [H1 H2 H3]. unfold ref_key, lst. destruct (unaligned a); auto. Qed.

Lemma br_see tr m c a : inv tr -> bbrel tr m c -> attr_ok tr a -> ent_view tr (bget m (bb_key a)) = c_see c a.
Proof.
  intros Hi Hb (H12 & n & Hn & En & An). unfold bb_key, c_see. destruct (asvalue a).
  - destruct (br_imm _ _ _ Hb (at_id a) H12) as (E & _). rewrite E. destruct (c_imm c (at_id a)) as [v|]; cbn; auto.
    rewrite <- En. rewrite (in_node_at tr n (wf_nodup _ (proj1 Hi)) Hn). rewrite An, N.eqb_refl. reflexivity.
  - apply ref_view; auto. apply br_lst; auto.
Qed.

Lemma attr_ok_ne tr a : inv tr -> attr_ok tr a -> at_id a <> INV_ID.
Proof.
  intros (Hw & _) (_ & n & Hn & En & An) Z. assert (n = root_node) by (eapply wf_root_id; [exact Hw|exact Hn|rewrite En; exact Z]). subst. discriminate.
Qed.

Definition hok (tr : tree) (h : hres) (c' : actx) : Prop :=
  match h with
  | HOk tr' m' => inv tr' /\ ext tr tr' /\ NoDup (keys m') /\ (not_full tr' -> bbrel tr' m' c')
  | HCrash tr' => ~ not_full tr'
  | HUB => False
  end.

Lemma ref_ptr tr e l : inv tr -> ref_rel tr e l -> forall i, option_map fst e = Some i -> In i (ids (t_nodes tr)).
Proof.
  intros Hi (Hf & H) i E. destruct e as [[j v]|]; [|discriminate]. injection E as <-. destruct H as (_ & Hp & _).
  eapply has_path_in; eauto. apply Hi.
Qed.
Lemma ref_path tr e l : ref_rel tr e l -> has_path tr (or_root (option_map fst e)) l.
Proof. intros (Hf & H). destruct e as [[j v]|]; cbn; [apply H|subst; constructor]. Qed.
Lemma yields_ref s s' r l : yields s s' r l -> not_full s' -> l <> [] -> Forall (fun x => 12 <= fst x /\ fst x <> INV_ID) l ->
  exists i v, r = Some i /\ mk_ref s' i = Some (i, v) /\ ref_rel s' (Some (i, v)) l.
Proof.
  intros (Hi & He & _ & _ & Y) Hnf Hne Hf. destruct (Y Hnf) as (i & -> & Hp).
  destruct (path_last _ _ _ Hi Hp Hne) as (m & p & l' & Hm & Em & Pm & Hl' & El & Ea & Hr).
  exists i, (n_val m). split; auto. unfold mk_ref. rewrite Ea. split; auto. split; auto. split; auto. split; auto. exists m; auto.
Qed.
Lemma rm_first_forall (P : N * value -> Prop) a l : Forall P l -> Forall P (rm_first a l).
Proof. induction 1; cbn; auto. destruct (fst x =? a); auto. Qed.
Lemma rm_innermost_forall (P : N * value -> Prop) a l : Forall P l -> Forall P (rm_innermost a l).
Proof. intro H. unfold rm_innermost. apply Forall_rev, rm_first_forall, Forall_rev; auto. Qed.

(* turn the result of a tree operation into a blackboard update *)
Lemma hres_ref tr tr' m c a r l : inv tr -> yields tr tr' r l -> NoDup (keys m) -> bbrel tr m c ->
  l <> [] -> Forall (fun x => 12 <= fst x /\ fst x <> INV_ID) l ->
  hok tr (match r with
   | None => HCrash tr'
   | Some i => match mk_ref tr' i with
               | Some e => HOk tr' (bset m (ref_key a) e (visible_flag a)) | None => HUB end
   end) (with_lst c a l).
Proof.
  intros Hi Y Hn Hb Hne Hf. pose proof Y as (Y1 & Y2 & Y3 & Y4 & Y5). destruct r as [i|].
  - specialize (Y4 i eq_refl). apply in_map_iff in Y4. destruct Y4 as (n & En & Hn').
    unfold mk_ref. rewrite <- En. rewrite (in_node_at tr' n (wf_nodup _ (proj1 Y1)) Hn'). cbn.
    split; auto. split; auto. split; [apply keys_bset; auto|]. intro Hnf.
    apply bbrel_set_ref; [eapply bbrel_ext; eauto|].
    destruct (yields_ref _ _ _ _ Y Hnf Hne Hf) as (i' & v' & E & Em & Hr). injection E as <-.
    unfold mk_ref in Em. rewrite <- En, (in_node_at tr' n (wf_nodup _ (proj1 Y1)) Hn') in Em. rewrite <- En in Hr. injection Em as <-. exact Hr.
  - cbn. intro Hnf. destruct (Y5 Hnf) as (i & E & _). discriminate.
Qed.

Lemma handle_begin_ok tr t a v m c : inv tr -> NoDup (keys m) -> bbrel tr m c -> attr_ok tr a ->
  hok tr (handle_begin tr t a v m) (c_begin c a v).
Proof.
  intros Hi Hn Hb Ha. pose proof (attr_ok_ne _ _ Hi Ha) as Hne. pose proof Ha as (H12 & Hnode). unfold handle_begin, c_begin. destruct (asvalue a).
  - cbn. split; auto. split; [apply ext_refl|]. split; [apply keys_bset; auto|]. intros _. apply bbrel_set_imm; auto.
  - pose proof (br_lst _ _ _ a Hb) as Hr.
    destruct (get_child_yields tr t (at_id a) v (option_map fst (bget m (ref_key a))) (lst c a) Hi (ref_ptr _ _ _ Hi Hr) Hne (fun _ => ref_path _ _ _ Hr)) as (r & tr' & E & Y).
    rewrite E. apply (hres_ref tr tr' m c a r _ Hi Y Hn Hb).
    + destruct (lst c a); discriminate.
    + apply Forall_app. split; [apply Hr|]. repeat constructor; auto.
Qed.

Lemma handle_set_ok tr t a v m c : inv tr -> NoDup (keys m) -> bbrel tr m c -> attr_ok tr a ->
  hok tr (handle_set tr t a v m) (c_set c a v).
Proof.
  intros Hi Hn Hb Ha. pose proof (attr_ok_ne _ _ Hi Ha) as Hne. pose proof Ha as (H12 & Hnode). unfold handle_set, c_set. destruct (asvalue a).
  - cbn. split; auto. split; [apply ext_refl|]. split; [apply keys_bset; auto|]. intros _. apply bbrel_set_imm; auto.
  - pose proof (br_lst _ _ _ a Hb) as Hr.
    destruct (replace_first_yields tr t (option_map fst (bget m (ref_key a))) (at_id a) v (lst c a) Hi Hne (ref_ptr _ _ _ Hi Hr) (ref_path _ _ _ Hr)) as (r & tr' & E & Y).
    rewrite E. apply (hres_ref tr tr' m c a r _ Hi Y Hn Hb).
    + destruct (rm_innermost (at_id a) (lst c a)); discriminate.
    + apply Forall_app. split; [apply rm_innermost_forall, Hr|]. repeat constructor; auto.
Qed.

Lemma load_spec tr a m c : inv tr -> bbrel tr m c -> attr_ok tr a ->
  match c_open c a with
  | None => snd (load_current tr a (bb_key a) m) = None
  | Some v => exists i w j, load_current tr a (bb_key a) m = (bget m (bb_key a), Some (j, v)) /\ bget m (bb_key a) = Some (i, w) /\
      ent_get tr (Some (i, w)) (at_id a) = Some (j, v)
  end.
Proof.
  intros Hi Hb Ha. pose proof (attr_ok_ne _ _ Hi Ha) as Hne. pose proof Ha as (H12 & Hnode). unfold load_current, bb_key, c_open.
  destruct (asvalue a).
  - destruct (br_imm _ _ _ Hb (at_id a) H12) as (E & Ek). rewrite E. destruct (c_imm c (at_id a)) as [v|]; cbn [option_map].
    + destruct Hnode as (n & Hn & En & An). unfold ent_attribute, ent_get. rewrite N.eqb_refl.
      rewrite <- En, (in_node_at tr n (wf_nodup _ (proj1 Hi)) Hn), An. cbn. rewrite N.eqb_refl. exists (n_id n), v, (n_id n). split; [reflexivity|]. split; [reflexivity|]. rewrite N.eqb_refl. reflexivity.
    + cbn. destruct (N.eqb_spec INV_ID (at_id a)); [congruence|reflexivity].
  - pose proof (br_lst _ _ _ a Hb) as Hr.
    assert (Han : attr_node tr (at_id a)) by exact Hnode.
    destruct (ref_get tr _ _ (at_id a) Hi Hr Han Hne) as (G1 & G2 & G3).
    rewrite G2. unfold lst, ref_key in *. destruct (unaligned a).
    + destruct (bget m UNALIGNED_KEY) as [[i w]|] eqn:Eb.
      * destruct (ent_get tr (Some (i, w)) (at_id a)) as [[j v]|] eqn:Eg; cbn in G1.
        -- rewrite <- G1. rewrite N.eqb_refl. exists i, w, j. destruct (last_is (at_id a) (c_una c)); auto.
        -- rewrite <- G1. destruct (last_is (at_id a) (c_una c)); reflexivity.
      * cbn in G1. rewrite <- G1. cbn. destruct (last_is (at_id a) (c_una c)); reflexivity.
    + destruct (last_is (at_id a) (c_reg c)) eqn:El.
      * destruct (bget m REGION_KEY) as [[i w]|] eqn:Eb.
        -- destruct (ent_get tr (Some (i, w)) (at_id a)) as [[j v]|] eqn:Eg; cbn in G1; rewrite <- G1; [|reflexivity].
           exists i, w, j. auto.
        -- cbn in G1. rewrite <- G1. reflexivity.
      * destruct (ent_get tr (bget m REGION_KEY) (at_id a)) as [[j v]|]; reflexivity.
Qed.

Lemma last_is_rm a (l l' : list (N * value)) v : rm_innermost a (l' ++ [(a, v)]) = l'.
Proof. unfold rm_innermost. rewrite rev_app_last. cbn. rewrite N.eqb_refl. apply rev_involutive. Qed.

Lemma innermost_in a l v : innermost a l = Some v -> In (a, v) l.
Proof.
  unfold innermost. destruct (find _ (rev l)) as [[b w]|] eqn:E; [|discriminate]. intro H. injection H as <-.
  apply find_some in E. destruct E as (E1 & E2). apply N.eqb_eq in E2. cbn in E2. subst. apply in_rev; auto.
Qed.
Lemma open_innermost c a v : asvalue a = false -> c_open c a = Some v -> innermost (at_id a) (lst c a) = Some v.
Proof.
  unfold c_open, lst. intros ->. destruct (unaligned a); auto. destruct (last_is (at_id a) (c_reg c)); [auto|discriminate].
Qed.
Lemma rm_first_length a l : In a (map fst l) -> S (length (rm_first a l)) = length l.
Proof.
  induction l as [|x l IH]; cbn; [contradiction|]. destruct (N.eqb_spec (fst x) a); auto. intros [?|H]; [contradiction|]. cbn. rewrite IH; auto.
Qed.

Lemma handle_end_ok tr t a m c v : inv tr -> NoDup (keys m) -> bbrel tr m c -> attr_ok tr a -> c_open c a = Some v ->
  hok tr (handle_end tr t a (load_current tr a (bb_key a) m) (bb_key a) m) (c_end c a).
Proof.
  intros Hi Hn Hb Ha Ho. pose proof (attr_ok_ne _ _ Hi Ha) as Hne. pose proof Ha as (H12 & Hnode).
  pose proof (load_spec tr a m c Hi Hb Ha) as HL. rewrite Ho in HL. destruct HL as (i & w & j & EL & Eb & Eg).
  rewrite EL. unfold handle_end, c_end. destruct (asvalue a) eqn:Eav.
  - cbn. split; auto. split; [apply ext_refl|]. split; [apply keys_bdel; auto|]. intros _. unfold bb_key. rewrite Eav. apply bbrel_del_imm; auto.
  - cbn [fst snd]. rewrite Eb. assert (Ek : bb_key a = ref_key a) by (unfold bb_key; rewrite Eav; auto). rewrite Ek in *.
    pose proof (br_lst _ _ _ a Hb) as Hr. rewrite Eb in Hr.
    destruct (ref_get tr _ _ (at_id a) Hi Hr Hnode Hne) as (G1 & G2 & G3). specialize (G3 i w eq_refl j v Eg).
    pose proof Hr as (Hf & Hlne & Hp & _).
    destruct (path_last _ _ _ Hi Hp Hlne) as (n & p & l' & Hn' & En & Pn & Hl' & El & Ea & Hroot).
    rewrite Ea, Pn. pose proof (open_innermost _ _ _ Eav Ho) as Hin.
    assert (Hf' : Forall (fun x => 12 <= fst x /\ fst x <> INV_ID) l'). { rewrite El in Hf. apply Forall_app in Hf. apply Hf. }
    destruct (N.eqb_spec p ROOT).
    + (* last entry *)
      cbn. split; auto. split; [apply ext_refl|]. split; [apply keys_bdel; auto|]. intros _.
      assert (l' = []). { subst p. rewrite (has_path_cpath _ _ _ (proj1 Hi) Hl'). apply cpath_root, Hi. }
      subst l'. cbn in El. rewrite El in *. cbn in Hin. unfold innermost in Hin. cbn in Hin.
      destruct (N.eqb_spec (n_attr n) (at_id a)) as [En'|]; [|discriminate]. rewrite En'.
      replace (rm_innermost (at_id a) [(at_id a, n_val n)]) with (@nil (N * value)) by (symmetry; apply (last_is_rm (at_id a) [] [] (n_val n))).
      apply bbrel_del_ref; auto.
    + assert (Hl'ne : l' <> []).
      { intro Z. subst l'. remember [] as z eqn:Ez in Hl'. destruct Hl'; [auto|]. destruct l; discriminate. }
      destruct (i =? j) eqn:Eij.
      * assert (Hla : n_attr n = at_id a). { unfold last_is in G3. rewrite El, rev_app_last in G3. apply N.eqb_eq; auto. }
        assert (Hrm : rm_innermost (at_id a) (lst c a) = l'). { rewrite El, Hla. apply last_is_rm; auto. }
        rewrite Hrm. apply (hres_ref tr tr m c a (Some p) l'); auto.
        split; auto. split; [apply ext_refl|]. split; auto. split.
        -- intros q Hq. injection Hq as <-. eapply has_path_in; eauto. apply Hi.
        -- intros _. exists p; auto.
      * destruct (remove_first_yields tr t (Some i) (at_id a) (lst c a) Hi Hne) as (r & tr' & E & Y); auto.
        { intros q Hq. injection Hq as <-. eapply has_path_in; eauto. apply Hi. }
        rewrite E. apply (hres_ref tr tr' m c a r _ Hi Y Hn Hb).
        -- intro Z. apply innermost_in in Hin.
           assert (Hlen : S (length (rm_innermost (at_id a) (lst c a))) = length (lst c a)).
           { unfold rm_innermost. rewrite rev_length, rm_first_length, rev_length; auto.
             rewrite map_rev, <- in_rev. apply in_map_iff. exists (at_id a, v); auto. }
           rewrite Z, El, app_length in Hlen. cbn in Hlen. destruct l'; [contradiction|cbn in Hlen; lia].
        -- apply rm_innermost_forall; auto.
Qed.

(* ---- the whole state ---- *)
Record rel (s : rt) (a : ast) : Prop := {
  rl_inv : inv (r_tree s);
  rl_thr : forall t, NoDup (keys (r_tbb s t)) /\ bbrel (r_tree s) (r_tbb s t) (a_thr a t);
  rl_proc : NoDup (keys (r_pbb s)) /\ bbrel (r_tree s) (r_pbb s) (a_proc a);
  rl_err : forall t, r_err s t = a_err a t;
  rl_act : r_act s = a_act a;
  rl_log : r_log s = a_log a
}.

Lemma rel_bb s a t x : rel s a -> scope_of x <> ScOther -> NoDup (keys (get_bb s t x)) /\ bbrel (r_tree s) (get_bb s t x) (a_ctx a t x).
Proof. intros H Hs. unfold get_bb, a_ctx. destruct (scope_of x); [apply H|apply H|congruence]. Qed.

Lemma bb_empty tr : bbrel tr [] ctx_empty.
Proof. constructor; cbn; try (split; auto; fail). intros k Hk. split; auto; intro Z; congruence. Qed.

Lemma rel_see s a t x : rel s a -> attr_ok (r_tree s) x -> ent_view (r_tree s) (bget (get_bb s t x) (bb_key x)) = c_see (a_ctx a t x) x.
Proof.
  intros H Hx. apply br_see; auto; [apply H|]. unfold get_bb, a_ctx. destruct (scope_of x); [apply H|apply H|apply bb_empty].
Qed.
Lemma rel_fire s a k t x v : rel s a -> attr_ok (r_tree s) x -> rel (fire s k t x v) (a_fire a k t x v).
Proof.
  intros H Hx. unfold fire, a_fire. destruct (run_events x); auto. pose proof (rel_see s a t x H Hx) as E.
  destruct H as [H1 H2 H3 H4 H5 H6]. constructor; cbn; auto. rewrite E, H5, H6. reflexivity.
Qed.
Lemma fire_tree s k t x v : r_tree (fire s k t x v) = r_tree s.
Proof. unfold fire. destruct (run_events x); reflexivity. Qed.
Lemma fire_bb s k t x v : get_bb (fire s k t x v) t x = get_bb s t x.
Proof. unfold fire. destruct (run_events x); reflexivity. Qed.
Lemma fire_load s k t x v : end_load (fire s k t x v) t x = end_load s t x.
Proof. unfold end_load. rewrite fire_tree, fire_bb. reflexivity. Qed.

Lemma rel_put s a t x tr m c : rel s a -> scope_of x <> ScOther -> inv tr -> ext (r_tree s) tr -> NoDup (keys m) -> bbrel tr m c ->
  rel (put_bb s t x tr m) (a_put a t x c).
Proof.
  intros [H1 H2 H3 H4 H5 H6] Hs Hi He Hn Hb. unfold put_bb, a_put. destruct (scope_of x); [| |congruence]; constructor; cbn; auto.
  - intro t'. unfold upd. destruct (t' =? t); auto. destruct (H2 t'). split; auto. eapply bbrel_ext; eauto.
  - destruct H3. split; auto. eapply bbrel_ext; eauto.
  - intro t'. destruct (H2 t'). split; auto. eapply bbrel_ext; eauto.
Qed.
Lemma put_tree s t x tr m : scope_of x <> ScOther -> r_tree (put_bb s t x tr m) = tr.
Proof. unfold put_bb. destruct (scope_of x); auto; congruence. Qed.

(* simulation result of a step *)
Definition sim (s : rt) (r : sres) (a' : ast) (o' : out) : Prop :=
  match r with
  | SOk s' o => mono (r_tree s) (r_tree s') /\ (not_full (r_tree s') -> o = o' /\ rel s' a' /\ ext (r_tree s) (r_tree s'))
  | SCrash tr => ~ not_full tr
  | SUB => False
  end.

Lemma sim_commit s a t x h c k o (post : ast -> ast) : rel s a -> scope_of x <> ScOther -> hok (r_tree s) h c ->
  (forall s2, rel s2 (a_put a t x c) -> ext (r_tree s) (r_tree s2) ->
     exists s3, k s2 = SOk s3 o /\ rel s3 (post (a_put a t x c)) /\ r_tree s3 = r_tree s2) ->
  (forall s2, exists s3, k s2 = SOk s3 o /\ r_tree s3 = r_tree s2) ->
  sim s (commit s t x h k) (post (a_put a t x c)) o.
Proof.
  intros H Hs Hh Hk Hk2. unfold commit. destruct h as [tr m|tr|]; cbn in Hh; [|exact Hh|exact Hh].
  destruct Hh as (Hi & He & Hn & Hb). destruct (Hk2 (put_bb s t x tr m)) as (s3 & E & Et). rewrite E. cbn.
  rewrite Et, put_tree by auto. split; [apply ext_mono; auto|]. intro Hnf.
  destruct (Hk (put_bb s t x tr m)) as (s3' & E' & Hr & _).
  - apply rel_put; auto.
  - rewrite put_tree; auto.
  - split; auto. split; auto. congruence.
Qed.

Lemma attr_ok_fire s k t x v : attr_ok (r_tree s) x -> attr_ok (r_tree (fire s k t x v)) x.
Proof. rewrite fire_tree. auto. Qed.
Lemma attr_ok_ext tr tr' x : ext tr tr' -> attr_ok tr x -> attr_ok tr' x.
Proof. intros He (H & n & Hn & E). split; auto. exists n; split; auto. eapply ext_in; eauto. Qed.
Lemma sim_fire s k t x v r a' o : sim (fire s k t x v) r a' o -> sim s r a' o.
Proof. unfold sim. rewrite fire_tree. auto. Qed.

Lemma a_put_other a t x c : scope_of x = ScOther -> a_put a t x c = a.
Proof. intro H. unfold a_put. rewrite H. reflexivity. Qed.

Lemma step_begin s a t x v : rel s a -> attr_ok (r_tree s) x -> 
  sim s (rt_begin s t x v) (fst (a_step a t (OBegin x v))) (snd (a_step a t (OBegin x v))).
Proof.
  intros H Hx. unfold rt_begin. cbn [a_step]. rewrite (rl_err _ _ H). destruct (a_err a t); cbn [fst snd].
  - cbn. split; [apply mono_refl|]. intros _. split; auto. split; auto. apply ext_refl.
  - pose proof (rel_fire _ _ PreBegin t x v H Hx) as H1. pose proof (attr_ok_fire s PreBegin t x v Hx) as Hx1.
    set (s1 := fire s PreBegin t x v) in *. set (a1 := a_fire a PreBegin t x v) in *.
    apply (sim_fire s PreBegin t x v). fold s1.
    destruct (scope_of x) eqn:Es.
    3:{ rewrite a_put_other by auto. cbn. rewrite fire_tree. split; [apply mono_refl|]. intros _. split; auto. split; [apply rel_fire; auto|apply ext_refl]. }
    all: apply (sim_commit s1 a1 t x _ _ _ _ (fun a2 => a_fire a2 PostBegin t x v)); auto; [congruence| | |].
    all: try (apply handle_begin_ok; auto; [apply H1|apply (rel_bb _ _ t x H1)|apply (rel_bb _ _ t x H1)]; congruence).
    all: try (intros s2 H2 He2; eexists; split; [reflexivity|]; split; [apply rel_fire; auto; eapply attr_ok_ext; eauto|apply fire_tree]).
    all: intros s2; eexists; split; [reflexivity|apply fire_tree].
Qed.

Lemma step_set s a t x v : rel s a -> attr_ok (r_tree s) x -> 
  sim s (rt_set s t x v) (fst (a_step a t (OSet x v))) (snd (a_step a t (OSet x v))).
Proof.
  intros H Hx. unfold rt_set. cbn [a_step]. rewrite (rl_err _ _ H). destruct (a_err a t); cbn [fst snd].
  - cbn. split; [apply mono_refl|]. intros _. split; auto. split; auto. apply ext_refl.
  - pose proof (rel_fire _ _ PreSet t x v H Hx) as H1. pose proof (attr_ok_fire s PreSet t x v Hx) as Hx1.
    set (s1 := fire s PreSet t x v) in *. set (a1 := a_fire a PreSet t x v) in *.
    apply (sim_fire s PreSet t x v). fold s1.
    destruct (scope_of x) eqn:Es.
    3:{ rewrite a_put_other by auto. cbn. split; [apply mono_refl|]. intros _. split; auto. split; auto. apply ext_refl. }
    all: apply (sim_commit s1 a1 t x _ _ _ _ (fun a2 => a2)); auto; [congruence| | |].
    all: try (apply handle_set_ok; auto; [apply H1|apply (rel_bb _ _ t x H1)|apply (rel_bb _ _ t x H1)]; congruence).
    all: try (intros s2 H2 He2; eexists; split; [reflexivity|]; split; auto).
    all: intros s2; eexists; split; reflexivity.
Qed.

Lemma rel_err_set s a t : rel s a -> rel (set_err s t) (a_fail a t).
Proof.
  intros [H1 H2 H3 H4 H5 H6]. constructor; cbn; auto. intro t'. unfold upd. destruct (t' =? t); auto.
Qed.

Lemma sim_err s a t : rel s a -> sim s (SOk (set_err s t) OError) (a_fail a t) OError.
Proof. intro H. cbn. split; [apply mono_refl|]. intros _. split; auto. split; [apply rel_err_set; auto|apply ext_refl]. Qed.
Lemma sim_same s a o : rel s a -> sim s (SOk s o) a o.
Proof. intro H. cbn. split; [apply mono_refl|]. intros _. split; auto. split; auto. apply ext_refl. Qed.

Lemma step_close s a t x (ok : value -> bool) : rel s a -> attr_ok (r_tree s) x ->
  sim s (if r_err s t then SOk s ODone
         else match scope_of x with
              | ScOther => SOk s ODone
              | _ => match snd (end_load s t x) with
                     | None => SOk (set_err s t) OError
                     | Some (_, w) => if ok w then end_commit s t x (end_load s t x) else SOk (set_err s t) OError
                     end
              end) (fst (a_close a t x ok)) (snd (a_close a t x ok)).
Proof.
  intros H Hx. unfold a_close, is_other. rewrite (rl_err _ _ H). destruct (a_err a t); [apply sim_same; auto|].
  assert (Hmain : scope_of x <> ScOther ->
     sim s (match snd (end_load s t x) with
                     | None => SOk (set_err s t) OError
                     | Some (_, w) => if ok w then end_commit s t x (end_load s t x) else SOk (set_err s t) OError
                     end)
       (fst (match c_open (a_ctx a t x) x with
       | None => (a_fail a t, OError)
       | Some w => if ok w then let s1 := a_fire a PreEnd t x w in (a_put s1 t x (c_end (a_ctx s1 t x) x), ODone) else (a_fail a t, OError)
       end))
       (snd (match c_open (a_ctx a t x) x with
       | None => (a_fail a t, OError)
       | Some w => if ok w then let s1 := a_fire a PreEnd t x w in (a_put s1 t x (c_end (a_ctx s1 t x) x), ODone) else (a_fail a t, OError)
       end))).
  { intro Hs. destruct (rel_bb _ _ t x H Hs) as (Hn & Hb).
    pose proof (load_spec _ x _ _ (rl_inv _ _ H) Hb Hx) as HL.
    destruct (c_open (a_ctx a t x) x) as [w|] eqn:Eo.
    - destruct HL as (i & u & j & EL & Eb & Eg). unfold end_load. rewrite EL. cbn [snd]. destruct (ok w); [|apply sim_err; auto].
      rewrite <- EL. unfold end_commit. rewrite EL. cbn [snd].
      pose proof (rel_fire _ _ PreEnd t x w H Hx) as H1. pose proof (attr_ok_fire s PreEnd t x w Hx) as Hx1.
      rewrite <- EL. fold (end_load s t x). rewrite <- (fire_load s PreEnd t x w).
      assert (Eo1 : c_open (a_ctx (a_fire a PreEnd t x w) t x) x = Some w) by (unfold a_fire; destruct (run_events x); exact Eo).
      apply (sim_fire s PreEnd t x w).
      set (s1 := fire s PreEnd t x w) in *. set (a1 := a_fire a PreEnd t x w) in *.
      cbn [fst snd]. destruct (rel_bb _ _ t x H1 Hs) as (Hn1 & Hb1).
      apply (sim_commit s1 a1 t x _ _ _ _ (fun a2 => a2)); auto.
      + unfold end_load. eapply handle_end_ok; eauto. apply H1.
      + intros s2 H2 He2. eexists; split; [reflexivity|]; split; auto.
      + intros s2; eexists; split; reflexivity.
    - unfold end_load. rewrite HL. apply sim_err; auto. }
  destruct (scope_of x); [apply Hmain; discriminate|apply Hmain; discriminate|apply sim_same; auto].
Qed.

Lemma rt_end_eq s t x : rt_end s t x =
  if r_err s t then SOk s ODone
  else match scope_of x with
       | ScOther => SOk s ODone
       | _ => match snd (end_load s t x) with
              | None => SOk (set_err s t) OError
              | Some (_, w) => if (fun _ : value => true) w then end_commit s t x (end_load s t x) else SOk (set_err s t) OError
              end
       end.
Proof.
  unfold rt_end. destruct (r_err s t); auto. destruct (scope_of x); cbn zeta; auto; destruct (snd (end_load s t x)) as [[? ?]|]; reflexivity.
Qed.

Lemma step_sim s a t o : rel s a -> rop_ok s o -> sim s (rt_step s t o) (fst (a_step a t o)) (snd (a_step a t o)).
Proof.
  intros H Ho. destruct o; cbn [rop_ok] in Ho; cbn [rt_step].
  - apply step_begin; auto.
  - cbn [a_step]. rewrite rt_end_eq. apply (step_close s a t a0 (fun _ => true) H Ho).
  - cbn [a_step]. apply (step_close s a t a0 (veqb v) H Ho).
  - apply step_set; auto.
  - cbn. split; [apply mono_refl|]. intros _. split; [|split; auto; apply ext_refl]. f_equal. unfold rt_get, is_other.
    pose proof (attr_ok_ne _ _ (rl_inv _ _ H) Ho) as Hne. pose proof Ho as (H12 & Hnode).
    assert (G : scope_of a0 <> ScOther -> option_map snd (ent_get (r_tree s) (bget (get_bb s t a0) (bb_key a0)) (at_id a0)) = c_get (a_ctx a t a0) a0).
    { intro Hs. destruct (rel_bb _ _ t a0 H Hs) as (Hn & Hb). unfold bb_key, c_get. destruct (asvalue a0).
      - destruct (br_imm _ _ _ Hb (at_id a0) H12) as (E & _). rewrite E. destruct (c_imm (a_ctx a t a0) (at_id a0)); cbn; auto. rewrite N.eqb_refl. reflexivity.
      - apply (ref_get (r_tree s)); auto; [apply H|apply br_lst; auto]. }
    destruct (scope_of a0); [apply G; discriminate|apply G; discriminate|reflexivity].
  - cbn. split; [apply mono_refl|]. intros _. split; auto. split; [|apply ext_refl]. destruct H as [H1 H2 H3 H4 H5 H6]. constructor; cbn; auto. rewrite H5. reflexivity.
  - cbn. split; [apply mono_refl|]. intros _. split; auto. split; [|apply ext_refl]. destruct H as [H1 H2 H3 H4 H5 H6]. constructor; cbn; auto. rewrite H5. reflexivity.
  - destruct Ho as (Ho & Hs). destruct (tstep_inv _ t o (rl_inv _ _ H) Ho Hs) as (r & tr & E & Hi & He & _). rewrite E. cbn.
    split; [apply ext_mono; auto|]. intros _. split; auto. split; auto. destruct H as [H1 H2 H3 H4 H5 H6]. constructor; cbn; auto.
    + intro t'. destruct (H2 t'). split; auto. eapply bbrel_ext; eauto.
    + destruct H3. split; auto. eapply bbrel_ext; eauto.
Qed.

(* every step only grows the tree (no validity assumptions) *)
Lemma handle_mono_begin tr t a v m tr' m' : handle_begin tr t a v m = HOk tr' m' -> mono tr tr'.
Proof.
  unfold handle_begin. destruct (asvalue a); [intro H; injection H as <- <-; apply mono_refl|].
  destruct (get_child tr t (at_id a) v _) as [[[i|] tr1]|] eqn:E; [|discriminate|discriminate].
  destruct (mk_ref tr1 i); [|discriminate]. intro H. injection H as <- <-. eapply get_child_mono; eauto.
Qed.
Lemma handle_mono_set tr t a v m tr' m' : handle_set tr t a v m = HOk tr' m' -> mono tr tr'.
Proof.
  unfold handle_set. destruct (asvalue a); [intro H; injection H as <- <-; apply mono_refl|].
  destruct (replace_first_in_path tr t _ (at_id a) v) as [[[i|] tr1]|] eqn:E; [|discriminate|discriminate].
  destruct (mk_ref tr1 i); [|discriminate]. intro H. injection H as <- <-. eapply replace_first_mono; eauto.
Qed.
Lemma handle_mono_end tr t a c k m tr' m' : handle_end tr t a c k m = HOk tr' m' -> mono tr tr'.
Proof.
  unfold handle_end. destruct (asvalue a); [intro H; injection H as <- <-; apply mono_refl|].
  destruct (fst c) as [[i ?]|]; [|discriminate]. destruct (snd c) as [[j ?]|]; [|discriminate].
  destruct (node_at tr i); [|discriminate]. destruct (n_par t0) as [p|]; [|discriminate].
  destruct (p =? ROOT); [intro H; injection H as <- <-; apply mono_refl|].
  destruct (i =? j).
  - destruct (mk_ref tr p); [|discriminate]. intro H; injection H as <- <-; apply mono_refl.
  - destruct (remove_first_in_path tr t (Some i) (at_id a)) as [[[q|] tr1]|] eqn:E; [|discriminate|discriminate].
    destruct (mk_ref tr1 q); [|discriminate]. intro H. injection H as <- <-. eapply remove_first_mono; eauto.
Qed.
Lemma put_mono s t x tr m : mono (r_tree s) tr -> mono (r_tree s) (r_tree (put_bb s t x tr m)).
Proof. intro H. unfold put_bb. destruct (scope_of x); auto. apply mono_refl. Qed.
Lemma step_mono s t o s' out' : rt_step s t o = SOk s' out' -> mono (r_tree s) (r_tree s').
Proof.
  assert (EC : forall s t a cur s' o', end_commit s t a cur = SOk s' o' -> mono (r_tree s) (r_tree s')).
  { intros s0 t0 a cur s1 o1. unfold end_commit. destruct (snd cur) as [[? v]|]; [|discriminate]. unfold commit.
    destruct (handle_end _ _ _ _ _ _) as [tr m|tr|] eqn:E; [|discriminate|discriminate]. intro H. injection H as <- <-.
    apply handle_mono_end in E. rewrite <- (fire_tree s0 PreEnd t0 a v). apply put_mono. exact E. }
  destruct o; cbn [rt_step].
  - unfold rt_begin. destruct (r_err s t); [intro H; injection H as <- <-; apply mono_refl|].
    rewrite <- (fire_tree s PreBegin t a v). set (s1 := fire s PreBegin t a v).
    destruct (scope_of a) eqn:Es.
    3:{ intro H. injection H as <- <-. rewrite fire_tree. apply mono_refl. }
    all: unfold commit; destruct (handle_begin _ _ _ _ _) as [tr m|tr|] eqn:E; [|discriminate|discriminate];
      intro H; injection H as <- <-; rewrite fire_tree; apply put_mono; eapply handle_mono_begin; eauto.
  - unfold rt_end. destruct (r_err s t); [intro H; injection H as <- <-; apply mono_refl|].
    destruct (scope_of a); cbn zeta; try (destruct (snd (end_load s t a)) as [e|]; [apply EC|]); intro H; injection H as <- <-; apply mono_refl.
  - unfold rt_end_check. destruct (r_err s t); [intro H; injection H as <- <-; apply mono_refl|].
    destruct (scope_of a); cbn zeta; try (destruct (snd (end_load s t a)) as [[e w]|]; [destruct (veqb v w); [apply EC|]|]); intro H; injection H as <- <-; apply mono_refl.
  - unfold rt_set. destruct (r_err s t); [intro H; injection H as <- <-; apply mono_refl|].
    rewrite <- (fire_tree s PreSet t a v). set (s1 := fire s PreSet t a v).
    destruct (scope_of a) eqn:Es.
    3:{ intro H. injection H as <- <-. apply mono_refl. }
    all: unfold commit; destruct (handle_set _ _ _ _ _) as [tr m|tr|] eqn:E; [|discriminate|discriminate];
      intro H; injection H as <- <-; apply put_mono; eapply handle_mono_set; eauto.
  - intro H; injection H as <- <-; apply mono_refl.
  - intro H; injection H as <- <-; apply mono_refl.
  - intro H; injection H as <- <-; apply mono_refl.
  - destruct (tstep (r_tree s) t o) as [[r tr]|] eqn:E; [|discriminate]. intro H; injection H as <- <-. cbn. eapply tstep_mono; eauto.
Qed.
Lemma run_mono ops : forall s s' xs, rt_run s ops = Some (s', xs) -> mono (r_tree s) (r_tree s').
Proof.
  induction ops as [|[t o] ops IH]; cbn; intros s s' xs H; [injection H as <- <-; apply mono_refl|].
  destruct (rt_step s t o) as [s1 x|?|] eqn:E; [|discriminate|discriminate]. destruct (rt_run s1 ops) as [[s2 ys]|] eqn:E2; [|discriminate].
  injection H as <- <-. eapply mono_trans; [eapply step_mono; eauto|eauto].
Qed.

Lemma run_sim ops : forall s a s' xs, rel s a -> ops_ok s ops -> rt_run s ops = Some (s', xs) -> not_full (r_tree s') ->
  snd (a_run a ops) = xs /\ rel s' (fst (a_run a ops)) /\ ext (r_tree s) (r_tree s').
Proof.
  induction ops as [|[t o] ops IH]; cbn [rt_run a_run ops_ok]; intros s a s' xs H Ho E Hnf.
  - injection E as <- <-. split; auto. split; auto. apply ext_refl.
  - destruct Ho as (Ho1 & Ho2). pose proof (step_sim s a t o H Ho1) as Hs.
    destruct (rt_step s t o) as [s1 x|?|] eqn:E1; [|discriminate|discriminate].
    destruct (rt_run s1 ops) as [[s2 ys]|] eqn:E2; [|discriminate]. injection E as <- <-.
    destruct Hs as (_ & Hs). assert (Hnf1 : not_full (r_tree s1)) by (eapply mono_nf; eauto using run_mono).
    destruct (Hs Hnf1) as (Ex & H1 & He1). destruct (a_step a t o) as [a1 x'] eqn:Ea. cbn in Ex, H1. subst x'.
    destruct (IH s1 a1 s2 ys H1 Ho2 E2 Hnf) as (Ey & H2 & He2). destruct (a_run a1 ops) as [a2 ys'] eqn:Ear. cbn in *. subst. split; auto.
    split; auto. eapply ext_trans; eauto.
Qed.

Lemma rel_init tr : inv tr -> rel (rt_init tr) ast_init.
Proof. intro H. constructor; cbn; auto. - intro t. split; [constructor|apply bb_empty]. - split; [constructor|apply bb_empty]. Qed.

Lemma rel_shows s a t : rel s a -> shows (r_tree s) (r_tbb s t) (a_thr a t) /\ shows (r_tree s) (r_pbb s) (a_proc a).
Proof.
  intros H. assert (G : forall m c, bbrel (r_tree s) m c -> shows (r_tree s) m c).
  { intros m c Hb. split; [|split].
    - apply ref_view; [apply H|apply Hb].
    - apply ref_view; [apply H|apply Hb].
    - intros k Hk. destruct (br_imm _ _ _ Hb k Hk) as (E & _). rewrite E. destruct (c_imm c k); reflexivity. }
  split; apply G; apply H.
Qed.

(* a well-defined step from a related, non-full state either succeeds or finds the tree exhausted *)
Lemma step_progress s a t o : rel s a -> rop_ok s o ->
  (exists s' x, rt_step s t o = SOk s' x) \/ (exists tr, rt_step s t o = SCrash tr /\ ~ not_full tr).
Proof.
  intros H Ho. pose proof (step_sim s a t o H Ho) as Hs. destruct (rt_step s t o) as [s1 x|tr|]; cbn in Hs; [left; eauto|right; eauto|contradiction].
Qed.
