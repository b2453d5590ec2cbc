(* Proofs about the snapshot tree (TreeFmtModel) *)
From Coq Require Import Permutation Sorted.
From Verif Require Import Base VariantModel VariantSpec NamesModel TextModel TreeModel CaliFileModel AggModel FilterModel FmtModel FmtProofs TreeFmtModel.

Lemma lab_eqb_eq a b : lab_eqb a b = true <-> a = b.
Proof.
  unfold lab_eqb. destruct a as (a1, a2), b as (b1, b2). cbn [fst snd]. destruct (N.eqb_spec a1 b1); cbn [andb]; [|split; intros; congruence]. destruct (value_eq_dec a2 b2); split; intros; congruence.
Qed.
Lemma lab_eqb_refl a : lab_eqb a a = true. Proof. apply lab_eqb_eq. auto. Qed.
Lemma lab_neq a b : a <> b -> lab_eqb a b = false.
Proof. intro H. destruct (lab_eqb a b) eqn:E; auto. apply lab_eqb_eq in E. contradiction. Qed.
Definition upd (p : list label) (r : trec) (n : snode) : snode :=
  match p with [] => SNode (sn_lab n) (sn_recs n ++ [r]) (sn_kids n) | _ => SNode (sn_lab n) (sn_recs n) (tadd p r (sn_kids n)) end.
Lemma upd_lab p r n : sn_lab (upd p r n) = sn_lab n. Proof. destruct p; reflexivity. Qed.
Lemma tadd_cases x p r f :
  (exists pre n post, f = pre ++ n :: post /\ sn_lab n = x /\ (forall m, In m pre -> sn_lab m <> x) /\ tadd (x :: p) r f = pre ++ upd p r n :: post) \/
  ((forall m, In m f -> sn_lab m <> x) /\ tadd (x :: p) r f = upd p r (SNode x [] []) :: f).
Proof.
  cbn [tadd]. match goal with |- context [match ?G f with _ => _ end] => set (go := G) end.
  assert (K : forall l, (exists pre n post, l = pre ++ n :: post /\ sn_lab n = x /\ (forall m, In m pre -> sn_lab m <> x) /\ go l = Some (pre ++ upd p r n :: post)) \/ ((forall m, In m l -> sn_lab m <> x) /\ go l = None)).
  { induction l as [|n l IH]; [right; split; [intros m []|reflexivity]|]. unfold go. fold go. destruct (lab_eqb (sn_lab n) x) eqn:E.
    - left. exists [], n, l. apply lab_eqb_eq in E. split; [reflexivity|]. split; [exact E|]. split; [intros m []|]. cbn [app]. destruct p; reflexivity.
    - assert (En : sn_lab n <> x) by (intros En; rewrite <- En, lab_eqb_refl in E; discriminate). destruct IH as [(pre & m & post & E1 & E2 & E3 & E4)|(E1 & E2)].
      + left. exists (n :: pre), m, post. rewrite E1 in E4 |- *. rewrite E4. repeat split; auto. intros k [<-|Hk]; auto.
      + right. rewrite E2. split; auto. intros m [<-|Hm]; auto. }
  destruct (K f) as [(pre & n & post & E1 & E2 & E3 & E4)|(E1 & E2)].
  - left. exists pre, n, post. rewrite E4. auto.
  - right. rewrite E2. split; auto.
Qed.
(* ---------- lookups ---------- *)
Definition recs_at (p : list label) (f : list snode) : option (list trec) := option_map sn_recs (node_at p f).
Definition fnd (x : label) (f : list snode) : option snode := find (fun n => lab_eqb (sn_lab n) x) f.
Lemma fnd_none x f : (forall m, In m f -> sn_lab m <> x) -> fnd x f = None.
Proof. unfold fnd. induction f as [|n f IH]; intro H; cbn [find]; auto. rewrite lab_neq by (apply H; left; auto). apply IH. intros m Hm. apply H. right. auto. Qed.
Lemma fnd_mid x pre n post : sn_lab n = x -> (forall m, In m pre -> sn_lab m <> x) -> fnd x (pre ++ n :: post) = Some n.
Proof. unfold fnd. intros E H. induction pre as [|k pre IH]; cbn [app find]; [rewrite E, lab_eqb_refl; auto|]. rewrite lab_neq by (apply H; left; auto). apply IH. intros m Hm. apply H. right. auto. Qed.
Lemma fnd_skip y pre n n' post : sn_lab n = sn_lab n' -> sn_lab n <> y -> fnd y (pre ++ n' :: post) = fnd y (pre ++ n :: post).
Proof. unfold fnd. intros E N0. induction pre as [|k pre IH]; cbn [app find]; [rewrite <- E, !lab_neq by auto; auto|]. destruct (lab_eqb (sn_lab k) y); auto. Qed.
Lemma node_at_cons x p f : node_at (x :: p) f = match fnd x f with Some n => match p with [] => Some n | _ => node_at p (sn_kids n) end | None => None end.
Proof. reflexivity. Qed.
Lemma recs_at_empty p : recs_at p [] = None. Proof. destruct p; reflexivity. Qed.
Definition dflt (o : option (list trec)) : list trec := match o with Some l => l | None => [] end.
Lemma tadd_same : forall p r f, p <> [] -> recs_at p (tadd p r f) = Some (dflt (recs_at p f) ++ [r]).
Proof.
  induction p as [|x p IH]; intros r f Hp; [congruence|]. unfold recs_at. rewrite !node_at_cons. destruct (tadd_cases x p r f) as [(pre & n & post & E1 & E2 & E3 & E4)|(E1 & E2)].
  - rewrite E4, (fnd_mid x pre (upd p r n) post) by (rewrite ?upd_lab; auto). rewrite E1, (fnd_mid x pre n post) by auto. destruct p as [|y p]; [reflexivity|]. apply (IH r (sn_kids n)). discriminate.
  - rewrite E2, (fnd_none x f E1). unfold fnd. cbn [find]. rewrite upd_lab. cbn [sn_lab]. rewrite lab_eqb_refl. destruct p as [|y p]; [reflexivity|]. pose proof (IH r [] ltac:(discriminate)) as K. rewrite recs_at_empty in K. exact K.
Qed.
Definition prefix (p q : list label) : Prop := exists t, q = p ++ t.
Lemma prefix_cons x y p q : prefix (x :: p) (y :: q) <-> x = y /\ prefix p q.
Proof. split; [intros (t & E); injection E as -> ->; split; [auto|exists t; auto]|intros (-> & t & ->); exists t; auto]. Qed.
Lemma prefix_nil q : prefix [] q. Proof. exists q. auto. Qed.
Lemma tadd_other : forall p r f p', p' <> p -> p' <> [] ->
  (prefix p' p -> recs_at p' (tadd p r f) = Some (dflt (recs_at p' f))) /\ (~ prefix p' p -> recs_at p' (tadd p r f) = recs_at p' f).
Proof.
  induction p as [|x p IH]; intros r f p' Hne Hp'; [split; [intros (t & E); destruct p'; [congruence|discriminate]|reflexivity]|].
  destruct p' as [|y p']; [congruence|]. unfold recs_at. rewrite !node_at_cons.
  assert (Dxy : x = y \/ x <> y). { destruct (lab_eqb x y) eqn:E; [left; apply lab_eqb_eq; auto|right; intros ->; rewrite lab_eqb_refl in E; discriminate]. }
  destruct Dxy as [<-|Dxy].
  - rewrite prefix_cons. assert (Hn : p' <> p) by (intros ->; congruence).
    destruct (tadd_cases x p r f) as [(pre & n & post & E1 & E2 & E3 & E4)|(E1 & E2)].
    + rewrite E4, (fnd_mid x pre (upd p r n) post) by (rewrite ?upd_lab; auto). rewrite E1, (fnd_mid x pre n post) by auto.
      destruct p' as [|z p'].
      * destruct p as [|w p]; [congruence|]. split; [reflexivity|]. intro K. exfalso. apply K. split; auto. apply prefix_nil.
      * destruct p as [|w p]; [cbn [upd sn_kids]; split; [intros (_ & t & E); discriminate|reflexivity]|].
        cbn [upd sn_kids]. destruct (IH r (sn_kids n) (z :: p') Hn ltac:(discriminate)) as (I1 & I2). split; [intros (_ & K); exact (I1 K)|intro K; apply I2; intro K'; apply K; auto].
    + rewrite E2, (fnd_none x f E1). unfold fnd. cbn [find]. rewrite upd_lab. cbn [sn_lab]. rewrite lab_eqb_refl.
      destruct p' as [|z p'].
      * destruct p as [|w p]; [congruence|]. split; [reflexivity|]. intro K. exfalso. apply K. split; auto. apply prefix_nil.
      * destruct p as [|w p]; [cbn [upd sn_kids]; split; [intros (_ & t & E); discriminate|reflexivity]|].
        cbn [upd sn_kids]. destruct (IH r [] (z :: p') Hn ltac:(discriminate)) as (I1 & I2). rewrite recs_at_empty in I1, I2. split; [intros (_ & K); exact (I1 K)|intro K; apply I2; intro K'; apply K; auto].
  - split; [rewrite prefix_cons; intros (K & _); congruence|]. intros _.
    destruct (tadd_cases x p r f) as [(pre & n & post & E1 & E2 & E3 & E4)|(E1 & E2)].
    + rewrite E4, E1. rewrite (fnd_skip y pre n (upd p r n) post); auto; [symmetry; apply upd_lab|congruence].
    + rewrite E2. unfold fnd. cbn [find]. rewrite upd_lab. cbn [sn_lab]. rewrite lab_neq by auto. reflexivity.
Qed.
(* ---------- unique labels ---------- *)
Inductive uniq_n : snode -> Prop := un l rs ks : NoDup (map sn_lab ks) -> Forall uniq_n ks -> uniq_n (SNode l rs ks).
Definition uniq (f : list snode) : Prop := NoDup (map sn_lab f) /\ Forall uniq_n f.
Lemma uniq_kids n : uniq_n n -> uniq (sn_kids n). Proof. intros [l rs ks H1 H2]. split; auto. Qed.
Lemma uniq_of n : uniq (sn_kids n) -> uniq_n n. Proof. destruct n. intros (H1 & H2). constructor; auto. Qed.
Lemma tadd_uniq : forall p r f, uniq f -> uniq (tadd p r f).
Proof.
  induction p as [|x p IH]; intros r f U; [exact U|].
  assert (Uu : forall n, uniq (sn_kids n) -> uniq_n (upd p r n)). { intros n Un. apply uniq_of. destruct p as [|y p]; cbn [upd sn_kids]; auto. }
  destruct (tadd_cases x p r f) as [(pre & n & post & E1 & E2 & E3 & E4)|(E1 & E2)]; destruct U as (U1 & U2).
  - rewrite E4. rewrite E1 in U1, U2. rewrite Forall_app in U2. destruct U2 as (U2 & U3). inversion U3; subst. split.
    + rewrite map_app in *. cbn [map] in *. rewrite upd_lab. auto.
    + apply Forall_app. split; auto. constructor; auto. apply Uu. apply uniq_kids. auto.
  - rewrite E2. split.
    + cbn [map]. rewrite upd_lab. cbn [sn_lab]. constructor; auto. intro Hin. apply in_map_iff in Hin. destruct Hin as (m & Hm1 & Hm2). apply (E1 m Hm2 Hm1).
    + constructor; auto. apply Uu. split; constructor.
Qed.
(* ---------- printing order, with paths ---------- *)
Fixpoint porder (fuel : nat) (pre : list label) (si : list (N * sord)) (l : list snode) : list (list label * snode) :=
  match fuel with
  | O => []
  | S f => flat_map (fun n => (pre ++ [sn_lab n], n) :: porder f (pre ++ [sn_lab n]) si (sn_kids n)) (sorted_nodes si l)
  end.
Lemma print_porder : forall fuel level pre si l, length pre = level -> print_order fuel level si l = map (fun x => ((length (fst x) - 1)%nat, snd x)) (porder fuel pre si l).
Proof.
  induction fuel as [|f IH]; intros level pre si l E; [reflexivity|]. cbn [print_order porder]. induction (sorted_nodes si l) as [|n ns IHn]; [reflexivity|]. cbn [flat_map]. rewrite map_app. cbn [map fst snd]. rewrite app_length. cbn [length].
  f_equal; [|exact IHn]. f_equal; [f_equal; lia|]. apply IH. rewrite app_length. cbn [length]. lia.
Qed.
Definition eqv (n m : snode) : Prop := sn_lab n = sn_lab m /\ sn_kids n = sn_kids m /\ Permutation (sn_recs n) (sn_recs m).
Lemma eqv_refl n : eqv n n. Proof. repeat split; auto. Qed.
Lemma eqv_trans a b c : eqv a b -> eqv b c -> eqv a c.
Proof. intros (A1 & A2 & A3) (B1 & B2 & B3). repeat split; [congruence|congruence|eapply perm_trans; eauto]. Qed.
Lemma sort_node_eqv a o n : eqv n (sort_node a o n). Proof. repeat split; auto. cbn [sn_recs sort_node]. apply ssort_perm. Qed.
Definition leqv (l m : list snode) : Prop := exists k, Permutation l k /\ Forall2 eqv k m.
Lemma leqv_refl l : leqv l l. Proof. exists l. split; auto. induction l; constructor; auto using eqv_refl. Qed.
Lemma F2_perm {A} (R : A -> A -> Prop) : forall l m m', Forall2 R l m -> Permutation m m' -> exists l', Permutation l l' /\ Forall2 R l' m'.
Proof.
  intros l m m' H P. revert l H. induction P as [|x m m' P IH|x y m|m m1 m' P1 IH1 P2 IH2]; intros l H.
  - inversion H; subst. exists []. auto.
  - inversion H as [|a ? l0 ? Ha Hl]; subst. destruct (IH l0 Hl) as (l' & Q1 & Q2). exists (a :: l'). split; auto.
  - inversion H as [|a ? l0 ? Ha Hl]; subst. inversion Hl as [|b ? l1 ? Hb Hl1]; subst. exists (b :: a :: l1). split; [apply perm_swap|auto].
  - destruct (IH1 l H) as (l1 & Q1 & Q2). destruct (IH2 l1 Q2) as (l2 & Q3 & Q4). exists l2. split; [eapply perm_trans; eauto|auto].
Qed.
Lemma leqv_trans a b c : leqv a b -> leqv b c -> leqv a c.
Proof.
  intros (k & P1 & F1) (j & P2 & F2). destruct (F2_perm eqv k b j F1 P2) as (k' & P3 & F3). exists k'. split; [eapply perm_trans; eauto|].
  clear - F3 F2. revert c F2. induction F3 as [|x y k' j H F IH]; intros c F2; inversion F2; subst; constructor; auto. eapply eqv_trans; eauto.
Qed.
Lemma sorted_leqv : forall si l, leqv l (sorted_nodes si l).
Proof.
  unfold sorted_nodes. induction si as [|s si IH]; intro l; cbn [fold_left]; [apply leqv_refl|]. eapply leqv_trans; [|apply IH]. cbv zeta.
  assert (E1 : leqv l (map (sort_node (fst s) (is_asc (snd s))) l)). { exists l. split; auto. clear. induction l as [|n l IH]; cbn [map]; constructor; auto. apply sort_node_eqv. }
  assert (P : forall (g : snode -> snode -> bool) m, leqv m (ssort g m)). { intros g m. exists (ssort g m). split; [apply ssort_perm|]. induction (ssort g m); constructor; auto using eqv_refl. }
  destruct (snd s); auto; eapply leqv_trans; eauto.
Qed.
Lemma leqv_labs l m : leqv l m -> Permutation (map sn_lab l) (map sn_lab m).
Proof. intros (k & P & F). eapply perm_trans; [apply Permutation_map; exact P|]. clear P. induction F as [|x y k m (E & _) F IH]; cbn [map]; auto. rewrite E. auto. Qed.
Lemma F2_in_l {A B} (R : A -> B -> Prop) l m x : Forall2 R l m -> In x l -> exists y, In y m /\ R x y.
Proof. intros F. induction F as [|a b l m H F IH]; intros []; [subst; exists b; split; [left|]; auto|]. destruct (IH H0) as (y & Hy & Hr). exists y. split; [right|]; auto. Qed.
Lemma F2_in_r {A B} (R : A -> B -> Prop) l m y : Forall2 R l m -> In y m -> exists x, In x l /\ R x y.
Proof. intros F. induction F as [|a b l m H F IH]; intros []; [subst; exists a; split; [left|]; auto|]. destruct (IH H0) as (x & Hx & Hr). exists x. split; [right|]; auto. Qed.
Lemma leqv_in_r l m y : leqv l m -> In y m -> exists x, In x l /\ eqv x y.
Proof. intros (k & P & F) H. destruct (F2_in_r _ _ _ _ F H) as (x & Hx & E). exists x. split; auto. apply (Permutation_in _ (Permutation_sym P) Hx). Qed.
Lemma leqv_in_l l m x : leqv l m -> In x l -> exists y, In y m /\ eqv x y.
Proof. intros (k & P & F) H. apply (Permutation_in _ P) in H. apply (F2_in_l _ _ _ _ F H). Qed.
(* depth *)
Lemma fold_max {A} (g : A -> nat) : forall l m, (m <= fold_left (fun m k => Nat.max m (g k)) l m)%nat /\ (forall x, In x l -> (g x <= fold_left (fun m k => Nat.max m (g k)) l m)%nat).
Proof.
  induction l as [|y l IH]; intro m; cbn [fold_left]; [split; [lia|intros x []]|]. destruct (IH (Nat.max m (g y))) as (I1 & I2). split; [lia|]. intros x [<-|Hx]; [lia|auto].
Qed.
Lemma kid_depth n k : In k (sn_kids n) -> (depth k < depth n)%nat.
Proof. destruct n as [l rs ks]. cbn [sn_kids depth]. intro H. pose proof (proj2 (fold_max depth ks 0) k H). lia. Qed.
Lemma fdepth_kids n : S (forest_depth (sn_kids n)) = depth n. Proof. destruct n. reflexivity. Qed.
Lemma fdepth_in f n : In n f -> (depth n <= forest_depth f)%nat. Proof. apply (proj2 (fold_max depth f 0)). Qed.
(* every node of the tree is printed, at its path; nothing else is *)
Lemma porder_sound : forall fuel pre si f p n', In (p, n') (porder fuel pre si f) -> uniq f -> exists p0 n, p = pre ++ p0 /\ p0 <> [] /\ node_at p0 f = Some n /\ eqv n n'.
Proof.
  induction fuel as [|fu IH]; intros pre si f p n' H U; [destruct H|]. cbn [porder] in H. apply in_flat_map in H. destruct H as (m & Hm & H). destruct (leqv_in_r _ _ m (sorted_leqv si f) Hm) as (m0 & H0 & (E1 & E2 & E3)).
  assert (Fm : fnd (sn_lab m) f = Some m0).
  { destruct (in_split m0 f H0) as (l1 & l2 & Ef). rewrite Ef in *. apply fnd_mid; auto. intros k Hk Ek. destruct U as (U & _). rewrite map_app in U. cbn [map] in U. apply NoDup_remove_2 in U. apply U. apply in_or_app. left. rewrite E1, <- Ek. apply in_map. auto. }
  destruct H as [H|H].
  - injection H as <- <-. exists [sn_lab m], m0. rewrite node_at_cons, Fm. repeat split; auto. discriminate.
  - rewrite <- E2 in H. destruct (IH _ _ _ _ _ H) as (p0 & n & Ep & Np & Hn & He).
    { apply uniq_kids. destruct U as (_ & U). rewrite Forall_forall in U. auto. }
    exists (sn_lab m :: p0), n. rewrite node_at_cons, Fm. split; [rewrite Ep, <- app_assoc; reflexivity|]. split; [discriminate|]. destruct p0; [congruence|]. auto.
Qed.
Lemma porder_complete : forall p0 fuel pre si f n, node_at p0 f = Some n -> (forest_depth f <= fuel)%nat -> exists n', In (pre ++ p0, n') (porder fuel pre si f) /\ eqv n n'.
Proof.
  induction p0 as [|x p0 IH]; intros fuel pre si f n H L; [discriminate|]. rewrite node_at_cons in H. destruct (fnd x f) as [m|] eqn:E; [|discriminate]. unfold fnd in E. apply find_some in E. destruct E as (Em & El). apply lab_eqb_eq in El.
  pose proof (fdepth_in f m Em) as D. assert (D0 : (0 < depth m)%nat) by (destruct m; cbn [depth]; lia). destruct fuel as [|fu]; [lia|]. cbn [porder].
  destruct (leqv_in_l _ _ m (sorted_leqv si f) Em) as (m' & Hm' & (E1 & E2 & E3)).
  destruct p0 as [|y p0].
  - injection H as <-. exists m'. split; [|repeat split; auto]. apply in_flat_map. exists m'. split; auto. left. rewrite <- E1, El. reflexivity.
  - destruct (IH fu (pre ++ [x]) si (sn_kids m) n H) as (n' & I1 & I2); [pose proof (fdepth_kids m); lia|]. exists n'. split; auto. apply in_flat_map. exists m'. split; auto. right. rewrite <- E1, El, <- E2. rewrite <- app_assoc in I1. exact I1.
Qed.
Lemma porder_pre : forall fuel pre si f p n, In (p, n) (porder fuel pre si f) -> exists x t, p = pre ++ x :: t.
Proof.
  induction fuel as [|fu IH]; intros pre si f p n H; [destruct H|]. cbn [porder] in H. apply in_flat_map in H. destruct H as (m & _ & [H|H]); [injection H as <- _; exists (sn_lab m), []; auto|].
  destruct (IH _ _ _ _ _ H) as (x & t & ->). exists (sn_lab m), (x :: t). rewrite <- app_assoc. reflexivity.
Qed.
Lemma nodup_app' {A} (l m : list A) : NoDup l -> NoDup m -> (forall x, In x l -> ~ In x m) -> NoDup (l ++ m).
Proof. induction l as [|a l IH]; intros H1 H2 H3; auto. inversion H1; subst. cbn [app]. constructor; [intro K; apply in_app_or in K; destruct K; auto; apply (H3 a); [left|]; auto|]. apply IH; auto. intros x Hx. apply H3. right. auto. Qed.
Lemma porder_nodup : forall fuel pre si f, uniq f -> NoDup (map fst (porder fuel pre si f)).
Proof.
  induction fuel as [|fu IH]; intros pre si f U; [constructor|]. cbn [porder].
  assert (U1 : NoDup (map sn_lab (sorted_nodes si f))) by (eapply Permutation_NoDup; [apply leqv_labs; apply sorted_leqv|apply U]).
  assert (U2 : Forall (fun n => uniq (sn_kids n)) (sorted_nodes si f)).
  { apply Forall_forall. intros m Hm. destruct (leqv_in_r _ _ m (sorted_leqv si f) Hm) as (m0 & H0 & (_ & E2 & _)). rewrite <- E2. apply uniq_kids. destruct U as (_ & U). rewrite Forall_forall in U. auto. }
  induction (sorted_nodes si f) as [|n ns IHn]; [constructor|]. cbn [flat_map]. rewrite map_app. inversion U1 as [|? ? N1 N2]; inversion U2 as [|? ? V1 V2]; subst. apply nodup_app'; auto.
  - cbn [map fst]. constructor; auto. intro K. apply in_map_iff in K. destruct K as ((p, m) & E & K). cbn [fst] in E. destruct (porder_pre _ _ _ _ _ _ K) as (x & t & Ep). rewrite Ep in E. apply (f_equal (@length label)) in E. rewrite !app_length in E. cbn [length] in E. lia.
  - intros p Hp K. assert (Hp' : exists t, p = pre ++ sn_lab n :: t).
    { cbn [map fst] in Hp. destruct Hp as [<-|Hp]; [exists []; auto|]. apply in_map_iff in Hp. destruct Hp as ((p', m) & <- & Hp). destruct (porder_pre _ _ _ _ _ _ Hp) as (x & t & Ep). exists (x :: t). cbn [fst]. rewrite Ep, <- app_assoc. reflexivity. }
    destruct Hp' as (t & ->). apply in_map_iff in K. destruct K as ((p', m) & E & K). cbn [fst] in E. apply in_flat_map in K. destruct K as (k & Hk & K).
    assert (Ek : exists t', p' = pre ++ sn_lab k :: t'). { destruct K as [K|K]; [injection K as <- _; exists []; auto|]. destruct (porder_pre _ _ _ _ _ _ K) as (x & t' & Ep). exists (x :: t'). rewrite Ep, <- app_assoc. reflexivity. }
    destruct Ek as (t' & Ek). rewrite Ek in E. apply app_inv_head in E. injection E as E _. apply N1. rewrite <- E. apply in_map. auto.
Qed.
(* the line of a node's parent is the nearest line above it with smaller indentation *)
Lemma flat_split {A B} (g : A -> list B) : forall l pre x post, flat_map g l = pre ++ x :: post -> exists l1 a l2 p1 p2, l = l1 ++ a :: l2 /\ g a = p1 ++ x :: p2 /\ pre = flat_map g l1 ++ p1.
Proof.
  induction l as [|a l IH]; intros pre x post E; cbn [flat_map] in E; [destruct pre; discriminate|].
  destruct (Nat.lt_ge_cases (length pre) (length (g a))) as [L|L].
  - exists [], a, l. assert (X : exists p2, g a = pre ++ x :: p2).
    { revert E L. generalize (flat_map g l). intros r E L. revert pre E L. induction (g a) as [|y ga IHg]; intros pre E L; [cbn [length] in L; lia|]. destruct pre as [|z pre]; cbn [app] in E; [injection E as -> _; exists ga; auto|]. injection E as -> E. destruct (IHg pre E) as (p2 & ->); [cbn [length] in L; lia|]. exists p2. auto. }
    destruct X as (p2 & X). exists pre, p2. auto.
  - assert (X : exists pre', pre = g a ++ pre' /\ flat_map g l = pre' ++ x :: post).
    { revert E L. generalize (flat_map g l). intros r E L. revert pre E L. induction (g a) as [|y ga IHg]; intros pre E L; [exists pre; auto|]. destruct pre as [|z pre]; cbn [length] in L; [lia|]. cbn [app] in E. injection E as -> E. destruct (IHg pre E ltac:(lia)) as (pre' & -> & E'). exists pre'. auto. }
    destruct X as (pre' & -> & E'). destruct (IH _ _ _ E') as (l1 & b & l2 & p1 & p2 & -> & Eg & ->). exists (a :: l1), b, l2, p1, p2. cbn [flat_map]. rewrite <- app_assoc. auto.
Qed.
Lemma porder_parent : forall fuel pre si f before p n after, porder fuel pre si f = before ++ (p, n) :: after ->
  exists p0 x, p = p0 ++ [x] /\ (p0 = pre \/ exists b1 m b2, before = b1 ++ (p0, m) :: b2 /\ Forall (fun y => (length p0 < length (fst y))%nat) b2).
Proof.
  induction fuel as [|fu IH]; intros pre si f before p n after E; [destruct before; discriminate|]. cbn [porder] in E. apply flat_split in E. destruct E as (l1 & a & l2 & p1 & p2 & _ & Eg & ->).
  destruct p1 as [|z p1]; cbn [app] in Eg.
  - injection Eg as <- _ _. exists pre, (sn_lab a). auto.
  - injection Eg as <- Eg. destruct (IH _ _ _ _ _ _ _ Eg) as (p0 & x & -> & [->|(b1 & m & b2 & -> & Fb)]).
    + exists (pre ++ [sn_lab a]), x. split; auto. right. exists (flat_map (fun n => (pre ++ [sn_lab n], n) :: porder fu (pre ++ [sn_lab n]) si (sn_kids n)) l1), a, p1. split; auto.
      apply Forall_forall. intros (p', m') Hy. assert (Hin : In (p', m') (porder fu (pre ++ [sn_lab a]) si (sn_kids a))) by (rewrite Eg; apply in_or_app; auto). destruct (porder_pre _ _ _ _ _ _ Hin) as (y & t & ->). cbn [fst]. rewrite !app_length. cbn [length]. lia.
    + exists p0, x. split; auto. right. exists (flat_map (fun n => (pre ++ [sn_lab n], n) :: porder fu (pre ++ [sn_lab n]) si (sn_kids n)) l1 ++ (pre ++ [sn_lab a], a) :: b1), m, b2. split; auto. rewrite <- app_assoc. reflexivity.
Qed.
