(* Keys: the entry lists used as keys in the aggregation table represent the groups of the specification *)
From Verif Require Import Base VariantModel VariantSpec NamesModel NamesProps TextModel TreeModel TreeProofs CaliFileModel CaliFileProofs2 CaliFileProofs3 CaliFileProofs4 ArithSpec AggModel AggSpec AggProofs2 AggProofs3.
From Coq Require Import Permutation Sorted.
Open Scope N_scope.

(* ---------- sorting ---------- *)
Definition le1 (x y : N * value) : Prop := fst x <= fst y.
Definition lsorted := StronglySorted le1.
Lemma ins_perm x l : Permutation (x :: l) (ins_sorted x l).
Proof. induction l as [|y l IH]; cbn [ins_sorted]; auto. destruct (fst x <? fst y); auto. eapply perm_trans; [apply perm_swap|]. constructor. exact IH. Qed.
Lemma sort_perm_acc l : forall acc, Permutation (l ++ acc) (fold_left (fun acc x => ins_sorted x acc) l acc).
Proof.
  induction l as [|x l IH]; intro acc; cbn [fold_left app]; auto. eapply perm_trans; [|apply IH]. eapply perm_trans; [apply Permutation_middle|]. apply Permutation_app_head. apply ins_perm.
Qed.
Lemma sort_perm l : Permutation l (sort_imms l).
Proof. unfold sort_imms. assert (H := sort_perm_acc l []). rewrite app_nil_r in H. exact H. Qed.
Lemma ins_sorted_ok x l : lsorted l -> lsorted (ins_sorted x l).
Proof.
  induction 1 as [|y l S IH F]; cbn [ins_sorted]; [constructor; constructor|]. destruct (N.ltb_spec (fst x) (fst y)) as [L|L].
  - constructor; [constructor; auto|]. constructor; [unfold le1; lia|]. eapply Forall_impl; [|exact F]. unfold le1. intros; lia.
  - constructor; auto. eapply Permutation_Forall; [apply ins_perm|]. constructor; auto.
Qed.
Lemma sort_sorted l : lsorted (sort_imms l).
Proof.
  unfold sort_imms. assert (H : forall acc, lsorted acc -> lsorted (fold_left (fun acc x => ins_sorted x acc) l acc)).
  { induction l as [|x l IH]; intros acc Ha; cbn [fold_left]; auto. apply IH. apply ins_sorted_ok; auto. }
  apply H. constructor.
Qed.
Lemma ins_end x l : Forall (fun y => le1 y x) l -> ins_sorted x l = l ++ [x].
Proof. induction 1 as [|y l Hy F IH]; cbn [ins_sorted app]; auto. destruct (N.ltb_spec (fst x) (fst y)) as [L|L]; [unfold le1 in Hy; lia|]. rewrite IH. reflexivity. Qed.
Lemma sort_id l : lsorted l -> sort_imms l = l.
Proof.
  intro H. unfold sort_imms. assert (G : forall l2 acc, lsorted (acc ++ l2) -> fold_left (fun acc x => ins_sorted x acc) l2 acc = acc ++ l2).
  { induction l2 as [|x l2 IH]; intros acc Hs; cbn [fold_left]; [rewrite app_nil_r; auto|].
    rewrite ins_end. - rewrite IH; [rewrite <- app_assoc; reflexivity|rewrite <- app_assoc; exact Hs].
    - clear - Hs. induction acc as [|y acc IHa]; auto. inversion Hs as [|? ? S F]; subst. constructor; auto. rewrite Forall_forall in F. apply F. apply in_app_iff. right. left. auto. }
  exact (G l [] H).
Qed.

(* ---------- lists ---------- *)
Lemma filter_rev {A} (f : A -> bool) l : filter f (rev l) = rev (filter f l).
Proof. induction l as [|x l IH]; cbn [rev filter]; auto. rewrite filter_app, IH. cbn [filter]. destruct (f x); cbn [rev]; auto. rewrite app_nil_r. reflexivity. Qed.
Lemma filter_filter {A} (f g : A -> bool) l : filter f (filter g l) = filter (fun x => g x && f x) l.
Proof. induction l as [|x l IH]; cbn [filter]; auto. destruct (g x); cbn [andb filter]; rewrite IH; reflexivity. Qed.

(* ---------- the region path ---------- *)
Lemma refpath_fun d rec l : refpath d rec l -> forall l', refpath d rec l' -> l = l'.
Proof. induction 1 as [|a v rec l H IH|i p rec l Hp H IH]; intros l' H'; inversion H'; subst; auto. f_equal; auto. eapply npath_fun; eauto. Qed.
Lemma refpath_ex d rec : db_ok d -> size_ok d -> Forall (entry_ok d) rec -> exists l, refpath d rec l.
Proof.
  intros Hd Hs. induction 1 as [|e rec He F (l & IH)]; [exists []; constructor|]. destruct e as [i|a v].
  - destruct He as (He & _). destruct (npath_ex d i Hd Hs He) as (p & Hp). exists (l ++ p). constructor; auto.
  - exists l. constructor; auto.
Qed.
Lemma refpath_dext d d' rec l : dext d d' -> refpath d rec l -> refpath d' rec l.
Proof. intro He. induction 1; constructor; auto. eapply npath_dext; eauto. Qed.
Lemma refpath_known d rec l : db_ok d -> refpath d rec l -> Forall (fun x => is_attr d (fst x) = true /\ snd x <> VInv) l.
Proof.
  intros Hd. induction 1 as [|a v rec l H IH|i p rec l Hp H IH]; auto. apply Forall_app. split; auto. apply Forall_forall. intros x Hx. split; [eapply npath_attr; eauto|eapply npath_val; eauto].
Qed.
Lemma refpath_no8 d rec l : Forall (entry_ok d) rec -> refpath d rec l -> Forall (fun x => fst x <> 8) l.
Proof. intro F. induction 1 as [|a v rec l H IH|i p rec l Hp H IH]; auto; apply Forall_cons_iff in F as (He & F); auto. apply Forall_app. split; auto. apply He. exact Hp. Qed.
Lemma sel_nodes_ok d q rec l : db_ok d -> size_ok d -> Forall (entry_ok d) rec -> refpath d rec l -> sel_nodes d q rec = filter (fun x => selected d q (fst x)) (rev l).
Proof.
  intros Hd Hs F H. unfold sel_nodes. induction H as [|a v rec l H IH|i p rec l Hp H IH]; cbn [flat_map]; auto; apply Forall_cons_iff in F as (He & F).
  - rewrite IH by auto. reflexivity.
  - rewrite IH by auto. rewrite rev_app_distr, filter_app. f_equal. rewrite (node_path_ok d i p); auto. destruct He as (He & _). unfold size_ok in Hs. lia.
Qed.
Definition key_of (d : mdb) (q : qspec) (rec : list entry) : gkey := mkgk (sort_imms (sel_imms d q rec)) (nonpath_part d q rec) (path_part d q rec).
Lemma imms_known d rec : Forall (entry_ok d) rec -> Forall (fun x => is_attr d (fst x) = true) (imms_of rec).
Proof. unfold imms_of. induction 1 as [|e rec He F IH]; cbn [flat_map]; auto. destruct e as [i|a v]; cbn [app]; auto. Qed.
Lemma imm_in d a v rec : Forall (entry_ok d) rec -> In (a, v) (imms_of rec) -> a < N.of_nat (length (d_nodes d)).
Proof. intros F H. apply is_attr_lt. assert (G := imms_known d rec F). rewrite Forall_forall in G. apply (G (a, v) H). Qed.
Lemma key_of_ok d q rec : wf d -> size_ok d -> Forall (entry_ok d) rec -> group_key d q rec (key_of d q rec).
Proof.
  intros Hw Hs F. pose proof Hw as (Hd & Hn). destruct (refpath_ex d rec Hd Hs F) as (l & Hl). assert (Kn := refpath_known d rec l Hd Hl). rewrite Forall_forall in Kn.
  exists l, (sel_imms d q rec). cbn [gk_np gk_path gk_imm key_of]. split; auto. unfold nonpath_part, path_part. rewrite (sel_nodes_ok d q rec l) by auto.
  rewrite !filter_filter, !filter_rev, !rev_involutive.
  assert (Sel : forall x, In x l -> selected d q (fst x) = true <-> grouped d q (fst x)).
  { intros x Hx. apply selected_spec; auto. apply is_attr_lt. apply (Kn x Hx). }
  split; [|split; [|split; [|reflexivity]]].
  - apply keep_filter. intros x Hx. rewrite andb_true_iff, negb_true_iff, (Sel x Hx). reflexivity.
  - apply keep_filter. intros x Hx. rewrite andb_true_iff, (Sel x Hx). reflexivity.
  - unfold sel_imms. apply keep_filter. intros x Hx. apply is_key_spec; auto. destruct x as (a, v). eapply imm_in; eauto.
Qed.
Lemma group_key_fun d q rec K K' : group_key d q rec K -> group_key d q rec K' -> K = K'.
Proof.
  intros (l & m & R & A & B & C & D) (l' & m' & R' & A' & B' & C' & D'). assert (l' = l) by (eapply refpath_fun; eauto). subst l'.
  destruct K as [k1 k2 k3], K' as [k1' k2' k3']; cbn [gk_imm gk_np gk_path] in *.
  assert (m' = m) by (eapply keep_fun; eauto). subst m' k1 k1'. f_equal; eapply keep_fun; eauto.
Qed.
Lemma entry_ok_grow d d' e : wf d -> size_ok d' -> grow d d' -> entry_ok d e -> entry_ok d' e.
Proof.
  intros (Hd & _) Hs G. destruct e as [i|a v]; cbn.
  - intros (L & H). assert (Ln := dext_len _ _ (gr_ext _ _ G)). split; [lia|]. intros l Hl. destruct (npath_ex d i Hd (size_dext _ _ (gr_ext _ _ G) Hs) L) as (l0 & Hl0).
    assert (l = l0) by (eapply npath_fun; [exact Hl|eapply npath_dext; [apply (gr_ext _ _ G)|exact Hl0]]). subst l0. auto.
  - apply dext_attr. apply (gr_ext _ _ G).
Qed.
Lemma group_key_grow d d' q rec K : wf d -> wf d' -> grow d d' -> size_ok d' -> Forall (entry_ok d) rec -> group_key d q rec K -> group_key d' q rec K.
Proof.
  intros Hw Hw' G Hs F (l & m & R & A & B & C & D). pose proof Hw as (Hd & _). assert (Kn := refpath_known d rec l Hd R). rewrite Forall_forall in Kn.
  assert (KL : forall x, In x l -> fst x < N.of_nat (length (d_nodes d))) by (intros x Hx; apply is_attr_lt; apply (Kn x Hx)).
  exists l, m. split; [eapply refpath_dext; [apply (gr_ext _ _ G)|auto]|]. split; [|split; [|split; [|auto]]].
  - eapply keep_ext; [|exact A]. intros x Hx. rewrite (grouped_stable d d') by auto. rewrite (is_nested_stable d d') by auto. reflexivity.
  - eapply keep_ext; [|exact B]. intros x Hx. rewrite (grouped_stable d d') by auto. rewrite (is_nested_stable d d') by auto. reflexivity.
  - eapply keep_ext; [|exact C]. intros (a, v) Hx. cbn [fst]. symmetry. apply key_attr_stable; auto. eapply imm_in; eauto.
Qed.
(* ---------- well-formed groups ---------- *)
Record wfkey (d : mdb) (q : qspec) (K : gkey) : Prop := mkwfk {
  wk_np : Forall (fun x => is_attr d (fst x) = true /\ fst x <> 8 /\ snd x <> VInv /\ grouped d q (fst x) /\ is_nested d (fst x) = false) (gk_np K);
  wk_path : Forall (fun x => is_attr d (fst x) = true /\ fst x <> 8 /\ snd x <> VInv /\ grouped d q (fst x) /\ is_nested d (fst x) = true) (gk_path K);
  wk_imm : Forall (fun x => is_attr d (fst x) = true /\ key_attr d q (fst x)) (gk_imm K);
  wk_sorted : lsorted (gk_imm K) }.
Lemma group_wf d q rec K : wf d -> Forall (entry_ok d) rec -> group_key d q rec K -> wfkey d q K.
Proof.
  intros (Hd & _) F (l & m & R & A & B & C & D). assert (Kn := refpath_known d rec l Hd R). assert (N8 := refpath_no8 d rec l F R). rewrite Forall_forall in Kn, N8. constructor.
  - assert (S := keep_sat _ _ _ A). assert (I := keep_incl _ _ _ A). rewrite Forall_forall in *. intros x Hx. destruct (S x Hx). destruct (Kn x (I x Hx)). specialize (N8 x (I x Hx)). auto.
  - assert (S := keep_sat _ _ _ B). assert (I := keep_incl _ _ _ B). rewrite Forall_forall in *. intros x Hx. destruct (S x Hx). destruct (Kn x (I x Hx)). specialize (N8 x (I x Hx)). auto.
  - rewrite D. apply (Permutation_Forall (sort_perm m)). assert (S := keep_sat _ _ _ C). assert (I := keep_incl _ _ _ C). assert (G := imms_known d rec F). rewrite Forall_forall in *. intros x Hx. split; auto.
  - rewrite D. apply sort_sorted.
Qed.
Lemma wfkey_grow d d' q K : wf d -> wf d' -> grow d d' -> size_ok d' -> wfkey d q K -> wfkey d' q K.
Proof.
  intros Hw Hw' G Hs [A B C D]. constructor; auto.
  - eapply Forall_impl; [|exact A]. intros x (X1 & X2 & X3 & X4 & X5). assert (L := is_attr_lt d _ X1). rewrite (grouped_stable d d') by auto. rewrite (is_nested_stable d d') by auto. split; [eapply dext_attr; [apply (gr_ext _ _ G)|auto]|auto].
  - eapply Forall_impl; [|exact B]. intros x (X1 & X2 & X3 & X4 & X5). assert (L := is_attr_lt d _ X1). rewrite (grouped_stable d d') by auto. rewrite (is_nested_stable d d') by auto. split; [eapply dext_attr; [apply (gr_ext _ _ G)|auto]|auto].
  - eapply Forall_impl; [|exact C]. intros x (X1 & X2). assert (L := is_attr_lt d _ X1). rewrite (key_attr_stable d d') by auto. split; [eapply dext_attr; [apply (gr_ext _ _ G)|auto]|auto].
Qed.
Lemma wfkey_encl d q A K : wfkey d q K -> encloses A K -> wfkey d q A.
Proof.
  intros [W1 W2 W3 W4] (E1 & E2 & _ & x & l & E3). constructor; rewrite ?E1, ?E2; auto. rewrite E3 in W2. apply Forall_app in W2 as (W2 & _). exact W2.
Qed.
(* ---------- representation of a group as a list of entries ---------- *)
Definition prep (d : mdb) (l : list (N * value)) (es : list entry) : Prop := (l = [] /\ es = []) \/ (l <> [] /\ exists i, es = [ERef i] /\ npath d i l).
Definition krep (d : mdb) (key : list entry) (K : gkey) : Prop :=
  exists a b, key = map (fun x => EImm (fst x) (snd x)) (gk_imm K) ++ a ++ b /\ prep d (gk_np K) a /\ prep d (gk_path K) b.
Lemma prep_dext d d' l es : dext d d' -> prep d l es -> prep d' l es.
Proof. intros He [H|(H & i & -> & Hp)]; [left; auto|right; split; auto]. exists i. split; auto. eapply npath_dext; eauto. Qed.
Lemma krep_dext d d' k K : dext d d' -> krep d k K -> krep d' k K.
Proof. intros He (a & b & E & A & B). exists a, b. split; auto. split; eapply prep_dext; eauto. Qed.
Lemma prep_fun d l a b : db_ok d -> prep d l a -> prep d l b -> a = b.
Proof. intros Hd [(E & ->)|(E & i & -> & Hp)] [(E' & ->)|(E' & j & -> & Hp')]; auto; try contradiction. f_equal. f_equal. eapply npath_inj; eauto. Qed.
Lemma krep_fun d k k' K : db_ok d -> krep d k K -> krep d k' K -> k = k'.
Proof. intros Hd (a & b & -> & A & B) (a' & b' & -> & A' & B'). f_equal. f_equal; eapply prep_fun; eauto. Qed.
Lemma map_imm_inj (l : list (N * value)) : forall l' r r', map (fun x => EImm (fst x) (snd x)) l ++ r = map (fun x => EImm (fst x) (snd x)) l' ++ r' ->
  (forall a v, ~ In (EImm a v) r) -> (forall a v, ~ In (EImm a v) r') -> l = l' /\ r = r'.
Proof.
  induction l as [|(a, v) l IH]; intros [|(a', v') l'] r r'; cbn [map app fst snd]; intros E H H'; auto.
  - exfalso. subst r. apply (H a' v'). left. auto.
  - exfalso. subst r'. apply (H' a v). left. auto.
  - injection E as -> -> E. destruct (IH _ _ _ E H H') as (-> & ->). auto.
Qed.
Lemma prep_noimm d l es a v : prep d l es -> ~ In (EImm a v) es.
Proof. intros [(_ & ->)|(_ & i & -> & _)]; cbn; [tauto|]. intros [H|[]]. discriminate. Qed.
Lemma krep_inj d q k K K' : wfkey d q K -> wfkey d q K' -> krep d k K -> krep d k K' -> K = K'.
Proof.
  intros W W' (a & b & E & A & B) (a' & b' & E' & A' & B'). rewrite E in E'. apply map_imm_inj in E' as (E1 & E2).
  2: intros x v Hx; apply in_app_iff in Hx as [Hx|Hx]; [exact (prep_noimm _ _ _ _ _ A Hx)|exact (prep_noimm _ _ _ _ _ B Hx)].
  2: intros x v Hx; apply in_app_iff in Hx as [Hx|Hx]; [exact (prep_noimm _ _ _ _ _ A' Hx)|exact (prep_noimm _ _ _ _ _ B' Hx)].
  destruct K as [m1 n1 p1], K' as [m2 n2 p2]. cbn [gk_imm gk_np gk_path] in *. subst m2. 
  assert (Hdis : forall i (l l' : list (N * value)), npath d i l -> npath d i l' -> l <> [] -> Forall (fun x => is_attr d (fst x) = true /\ fst x <> 8 /\ snd x <> VInv /\ grouped d q (fst x) /\ is_nested d (fst x) = false) l ->
    Forall (fun x => is_attr d (fst x) = true /\ fst x <> 8 /\ snd x <> VInv /\ grouped d q (fst x) /\ is_nested d (fst x) = true) l' -> False).
  { intros i l l' H1 H2 Hne F F'. assert (l = l') by (eapply npath_fun; eauto). subst l'. destruct l as [|x l]; [auto|]. inversion F; inversion F'; subst. intuition congruence. }
  destruct W as [Wn Wp _ _], W' as [Wn' Wp' _ _]. cbn [gk_np gk_path] in *.
  destruct A as [(-> & ->)|(NA & i & -> & PA)], B as [(-> & ->)|(NB & j & -> & PB)], A' as [(-> & ->)|(NA' & i' & -> & PA')], B' as [(-> & ->)|(NB' & j' & -> & PB')]; cbn [app] in E2; try discriminate; auto; try (injection E2; intros; subst).
  - f_equal. eapply npath_fun; eauto.
  - exfalso. eapply (Hdis i' n2 p1); eauto.
  - exfalso. eapply (Hdis j' n1 p2); eauto.
  - f_equal. eapply npath_fun; eauto.
  - f_equal; eapply npath_fun; eauto.
Qed.
(* the key entries of a group have that group *)
Lemma keep_sel (P : N * value -> Prop) (a b : list (N * value)) : Forall P a -> Forall (fun x => ~ P x) b -> keep P (b ++ a) a.
Proof. intros F G. change a with ([] ++ a) at 2. apply keep_app; [apply keep_none; auto|apply keep_all; auto]. Qed.
Lemma imms_of_app a b : imms_of (a ++ b) = imms_of a ++ imms_of b.
Proof. unfold imms_of. apply flat_map_app. Qed.
Lemma imms_of_map l : imms_of (map (fun x => EImm (fst x) (snd x)) l) = l.
Proof. unfold imms_of. induction l as [|(a, v) l IH]; cbn; auto. f_equal. exact IH. Qed.
Lemma prep_imms d l es : prep d l es -> imms_of es = [].
Proof. intros [(_ & ->)|(_ & i & -> & _)]; reflexivity. Qed.
Lemma prep_refpath d l es : prep d l es -> refpath d es l.
Proof. intros [(-> & ->)|(_ & i & -> & Hp)]; [constructor|]. change l with ([] ++ l). constructor; auto. constructor. Qed.
Lemma refpath_app d a la : refpath d a la -> forall b lb, refpath d b lb -> refpath d (a ++ b) (lb ++ la).
Proof. induction 1 as [|x v rec l H IH|i p rec l Hp H IH]; intros b lb Hb; cbn [app]; [rewrite app_nil_r; auto|constructor; auto|]. rewrite app_assoc. constructor; auto. Qed.
Lemma refpath_imms d l : refpath d (map (fun x => EImm (fst x) (snd x)) l) [].
Proof. induction l; cbn [map]; constructor; auto. Qed.
Lemma krep_spells d k K : krep d k K -> spells d k K.
Proof.
  intros (a & b & -> & A & B). split.
  - rewrite !imms_of_app, imms_of_map, (prep_imms d _ a A), (prep_imms d _ b B), !app_nil_r. reflexivity.
  - assert (X := refpath_app d _ _ (refpath_imms d (gk_imm K)) _ _ (refpath_app d _ _ (prep_refpath d _ _ A) _ _ (prep_refpath d _ _ B))). rewrite app_nil_r in X. exact X.
Qed.
Lemma krep_group d q k K : wfkey d q K -> krep d k K -> group_key d q k K.
Proof.
  intros [W1 W2 W3 W4] (a & b & -> & A & B). exists (gk_path K ++ gk_np K), (gk_imm K).
  split; [|split; [|split; [|split]]].
  - rewrite <- (app_nil_r (gk_path K ++ gk_np K)). apply refpath_app; [apply refpath_imms|]. apply refpath_app; apply prep_refpath; auto.
  - apply keep_sel; [eapply Forall_impl; [|exact W1]|eapply Forall_impl; [|exact W2]]; cbn; intros x H; intuition congruence.
  - rewrite <- (app_nil_r (gk_path K)) at 2. apply keep_app; [apply keep_all|apply keep_none]; [eapply Forall_impl; [|exact W2]|eapply Forall_impl; [|exact W1]]; cbn; intros x H; intuition congruence.
  - rewrite !imms_of_app, imms_of_map, (prep_imms _ _ _ A), (prep_imms _ _ _ B), !app_nil_r. apply keep_all. eapply Forall_impl; [|exact W3]. cbn. tauto.
  - symmetry. apply sort_id. exact W4.
Qed.
(* ---------- ancestors ---------- *)
Inductive pref {A} : list A -> list (list A) -> Prop :=
| pref_nil : pref [] []
| pref_snoc l x ps : pref l ps -> pref (l ++ [x]) ((l ++ [x]) :: ps).
Lemma pref_in {A} (l : list A) ps : pref l ps -> forall p, In p ps <-> p <> [] /\ exists s, l = p ++ s.
Proof.
  induction 1 as [|l x ps H IH]; intro p; cbn [In].
  - split; [tauto|]. intros (Hn & s & E). destruct p; [auto|discriminate].
  - rewrite IH. split.
    + intros [<-|(Hn & s & ->)]; [split; [destruct l; discriminate|exists []; rewrite app_nil_r; auto]|]. split; auto. exists (s ++ [x]). rewrite app_assoc. auto.
    + intros (Hn & s & E). destruct s as [|y s _] using rev_ind; [rewrite app_nil_r in E; auto|]. rewrite app_assoc in E. apply app_inj_tail in E as (-> & ->). right. eauto.
Qed.
Lemma pref_ex {A} (l : list A) : exists ps, pref l ps.
Proof. induction l as [|x l (ps & IH)] using rev_ind; eexists; constructor; eauto. Qed.
Lemma pref_len {A} (l : list A) ps : pref l ps -> forall p, In p ps -> (length p <= length l)%nat.
Proof. intros H p Hp. apply (pref_in l ps H) in Hp as (_ & s & ->). rewrite app_length. lia. Qed.
Lemma pref_nodup {A} (l : list A) ps : pref l ps -> NoDup ps.
Proof. induction 1 as [|l x ps H IH]; constructor; auto. intro Hin. apply (pref_len _ _ H) in Hin. rewrite app_length in Hin. cbn in Hin. lia. Qed.
Lemma ancestors_ok d i l : size_ok d -> npath d i l -> forall l' x, l = l' ++ [x] -> forall fuel, (length l <= fuel)%nat -> exists ps, pref l' ps /\ Forall2 (npath d) (ancestors fuel d i) ps.
Proof.
  intro Hs. induction 1 as [|i n l Hi Hn Hp IH]; intros l' x E fuel Hf; [destruct l'; discriminate|].
  apply app_inj_tail in E as (<- & _). rewrite app_length in Hf. cbn [length] in Hf. destruct fuel as [|f]; [lia|]. cbn [ancestors]. rewrite Hn.
  unfold par_id in *. destruct (n_par n) as [p|].
  - destruct l as [|y l _] using rev_ind.
    + apply npath_nil_inv in Hp. subst p. rewrite dnode_inv by auto. exists []. split; constructor.
    + assert (exists m, dnode d p = Some m) as (m & Hm) by (apply npath_snoc_inv in Hp as (m & _ & Hm & _); eauto). rewrite Hm.
      destruct (IH l y eq_refl f) as (ps & P1 & P2); [lia|]. exists ((l ++ [y]) :: ps). split; constructor; auto.
  - assert (l = []) by (eapply npath_fun; [exact Hp|constructor]). subst l. exists []. split; constructor.
Qed.

(* ---------- make_key ---------- *)
Lemma make_key_ok d q rec key anc d2 : wf d -> Forall (entry_ok d) rec -> make_key d q rec = (key, anc, d2) -> size_ok d2 ->
  let K := key_of d q rec in
  grow d d2 /\ wf d2 /\ krep d2 key K /\ exists As, Forall2 (krep d2) anc As /\ NoDup As /\ forall A, In A As <-> encloses A K.
Proof.
  intros Hw F E Hs2 K. unfold make_key in E. fold (sort_imms) in E.
  set (imms := map (fun x => EImm (fst x) (snd x)) (sort_imms (sel_imms d q rec))) in *.
  destruct (match nonpath_part d q rec with [] => (imms, d) | _ => let (i, d1) := make_tree_entry d (nonpath_part d q rec) ROOT in (imms ++ [ERef i], d1) end) as (k1, d1) eqn:E1.
  assert (Hext1 : dext d d1).
  { destruct (nonpath_part d q rec) eqn:En; [injection E1 as _ <-; apply dext_refl|]. rewrite <- En in E1. assert (H := mte_len (nonpath_part d q rec) d ROOT). destruct (make_tree_entry d _ ROOT). injection E1 as _ <-. exact H. }
  assert (Hext2 : dext d1 d2).
  { destruct (path_part d q rec) eqn:En; [injection E as _ _ <-; apply dext_refl|]. rewrite <- En in E. assert (H := mte_len (path_part d q rec) d1 ROOT). destruct (make_tree_entry d1 _ ROOT). injection E as _ _ <-. exact H. }
  assert (Hs1 : size_ok d1) by (eapply size_dext; eauto). assert (Hs : size_ok d) by (eapply size_dext; eauto).
  assert (WK : wfkey d q K). { eapply group_wf; [exact Hw|exact F|]. apply key_of_ok; auto. }
  assert (S1 : grow d d1 /\ wf d1 /\ exists a, k1 = imms ++ a /\ prep d1 (gk_np K) a).
  { destruct (nonpath_part d q rec) as [|x0 r0] eqn:En.
    - injection E1 as <- <-. split; [apply grow_refl|]. split; auto. exists []. rewrite app_nil_r. split; auto. left. cbn [K key_of gk_np]. auto.
    - rewrite <- En in E1. assert (H := mte_ok (nonpath_part d q rec) d ROOT [] Hw). destruct (make_tree_entry d (nonpath_part d q rec) ROOT) as (i, d1') eqn:Em. injection E1 as <- <-. cbn [fst snd] in H.
      destruct H as (G & W & P); [|constructor|exact Hs1|].
      + assert (H := wk_np _ _ _ WK). cbn [K key_of gk_np] in H. eapply Forall_impl; [|exact H]. cbn. tauto.
      + split; auto. split; auto. exists [ERef i]. split; auto. right. cbn [K key_of gk_np]. split; [congruence|]. exists i. split; auto. }
  destruct S1 as (G1 & W1 & a & -> & PA).
  destruct (path_part d q rec) as [|x0 r0] eqn:En.
  - injection E as <- <- <-. split; [exact G1|]. split; auto. split.
    + exists a, []. cbn [K key_of gk_imm]. rewrite app_nil_r. split; auto. split; auto. left. cbn. auto.
    + exists []. split; [constructor|]. split; [constructor|]. intro A. split; [intros []|]. intros (_ & _ & Hn & x & l & Ex). cbn [K key_of gk_path] in Ex. rewrite En in Ex. destruct (gk_path A); discriminate.
  - rewrite <- En in E. assert (H := mte_ok (path_part d q rec) d1 ROOT [] W1). destruct (make_tree_entry d1 (path_part d q rec) ROOT) as (i, d2') eqn:Em. injection E as <- <- <-. cbn [fst snd] in H.
    destruct H as (G2 & W2 & P); [|constructor|exact Hs2|].
    { assert (H := wk_path _ _ _ WK). cbn [K key_of gk_path] in H. eapply Forall_impl; [|exact H]. cbn. intros x (X1 & X2 & X3 & _). split; [eapply dext_attr; [apply (gr_ext _ _ G1)|auto]|auto]. }
    cbn [app] in P. split; [eapply grow_trans; eauto|]. split; auto.
    assert (PA2 : prep d2' (gk_np K) a) by (eapply prep_dext; [apply (gr_ext _ _ G2)|auto]). split.
    + exists a, [ERef i]. cbn [K key_of gk_imm]. rewrite <- app_assoc. split; auto. split; auto. right. cbn [K key_of gk_path]. split; [congruence|]. exists i. auto.
    + destruct (exists_last (l := path_part d q rec)) as (l' & x & El); [congruence|].
      assert (Hi : i <> INV_ID) by (rewrite El in P; apply npath_snoc_inv in P as (m & Hi & _); exact Hi).
      destruct (ancestors_ok d2' i _ Hs2 P l' x El (length (d_nodes d2'))) as (ps & P1 & P2).
      { assert (H := npath_len d2' i _ (proj1 W2) Hs2 P Hi). destruct (npath_known_lt d2' i _ P); [contradiction|]. lia. }
      exists (map (fun p => mkgk (gk_imm K) (gk_np K) p) ps). assert (Pin := pref_in l' ps P1). split; [|split].
      * assert (Hne : Forall (fun p => p <> []) ps) by (apply Forall_forall; intros p Hp; apply Pin in Hp; tauto). clear Pin. clear P1. induction P2 as [|j p js ps Hj _ IH]; cbn [map]; [constructor|]. apply Forall_cons_iff in Hne as (Hne & Hne'). constructor; auto.
        exists a, [ERef j]. cbn [gk_imm gk_np gk_path K key_of]. rewrite <- app_assoc. split; auto. split; auto. right. split; auto. exists j. auto.
      * apply FinFun.Injective_map_NoDup; [|eapply pref_nodup; eauto]. intros p p' Q. injection Q. auto.
      * intro A. rewrite in_map_iff. unfold encloses. split.
        -- intros (p & <- & Hp). apply Pin in Hp as (Hne & s & ->). cbn [gk_imm gk_np gk_path]. split; auto. split; auto. split; auto. cbn [K key_of gk_path]. rewrite El, <- app_assoc. destruct s; cbn; eauto.
        -- intros (A1 & A2 & A3 & y & s & A4). exists (gk_path A). split; [destruct A; cbn in *; congruence|]. apply Pin. split; auto. cbn [K key_of gk_path] in A4. rewrite El in A4.
           destruct (exists_last (l := y :: s)) as (s' & z & Es); [discriminate|]. rewrite Es, app_assoc in A4. apply app_inj_tail in A4 as (A4 & _). eauto.
Qed.
