(* Proofs about text layout and stable sorting (FmtModel) *)
From Coq Require Import Permutation Sorted QArith.
From Verif Require Import Base VariantModel VariantSpec VariantOrderProofs NamesModel TextModel TreeModel CaliFileModel AggModel FilterModel FilterSpec FilterProofs FmtModel.
Open Scope N_scope.

(* ---------------- padding ---------------- *)
Lemma skipn_repeat {A} (x : A) n m : skipn n (repeat x m) = repeat x (m - n).
Proof. revert m. induction n as [|n IH]; intros [|m]; cbn [skipn repeat Nat.sub]; auto. Qed.
Lemma blanks_spec : forall f s, (s <= f)%nat -> (0 < s)%nat -> blanks f s = repeat sp s.
Proof.
  induction f as [|f IH]; intros s H H0; [lia|]. cbn [blanks]. destruct (Nat.ltb_spec 80 s).
  - rewrite IH by lia. rewrite <- repeat_app. f_equal. lia.
  - rewrite skipn_repeat. f_equal. lia.
Qed.
Lemma pad_right_spec str w : (length str <= w)%nat -> pad_right str w = str ++ repeat sp (S w - length str).
Proof. intro H. unfold pad_right. destruct (Nat.ltb_spec w (length str)); [lia|]. f_equal. apply blanks_spec; lia. Qed.
Lemma pad_left_spec str w : (length str <= w)%nat -> pad_left str w = repeat sp (w - length str) ++ str ++ [sp].
Proof.
  intro H. unfold pad_left. destruct (Nat.ltb_spec (length str) w); [rewrite blanks_spec by lia; reflexivity|]. replace (w - length str)%nat with 0%nat by lia. reflexivity.
Qed.
Lemma clamp_fits str w : (length str <= w)%nat -> clamp str w = str.
Proof. intro H. unfold clamp. destruct (Nat.leb_spec (length str) w); auto. lia. Qed.
Lemma clamp_length str w : (length (clamp str w) <= w)%nat.
Proof.
  unfold clamp. destruct (Nat.leb_spec (length str) w); auto. destruct (Nat.ltb_spec w 4); [rewrite firstn_length; lia|].
  rewrite !app_length, firstn_length, skipn_length. cbn [length]. pose proof (Nat.div_mod w 2). assert (w mod 2 < 2)%nat by (apply Nat.mod_upper_bound; lia). lia.
Qed.
(* a shortened text keeps its first and last characters *)
Lemma clamp_ends str w : (4 <= w < length str)%nat -> exists a m z, str = a ++ m ++ z /\ clamp str w = a ++ [126; 126] ++ z /\ length a = (w / 2 - 1)%nat /\ length z = (w / 2 - 1)%nat.
Proof.
  intro H. unfold clamp. destruct (Nat.leb_spec (length str) w); [lia|]. destruct (Nat.ltb_spec w 4); [lia|].
  pose proof (Nat.div_mod w 2). assert (w mod 2 < 2)%nat by (apply Nat.mod_upper_bound; lia). set (k := (w / 2 - 1)%nat) in *.
  exists (firstn k str), (firstn (length str - k - k) (skipn k str)), (skipn (length str - k) str). split; [|split; [reflexivity|split]].
  - rewrite <- (firstn_skipn k str) at 1. f_equal. rewrite <- (firstn_skipn (length str - k - k) (skipn k str)) at 1. f_equal.
    assert (E : forall (l : bytes) i j, skipn i (skipn j l) = skipn (i + j) l). { intros l i j. revert l. induction j as [|j IH]; intro l; [rewrite Nat.add_0_r; reflexivity|]. destruct l as [|x l]; [rewrite !skipn_nil; reflexivity|]. cbn [skipn]. rewrite IH. replace (i + S j)%nat with (S (i + j)) by lia. reflexivity. }
    rewrite E. f_equal. lia.
  - rewrite firstn_length. lia.
  - rewrite skipn_length. lia.
Qed.

(* ---------------- stable sorting ---------------- *)
Section SORT.
Context {A : Type}.
Variable cmp : A -> A -> comparison.
Variable lt : A -> A -> bool.
Variable D : A -> Prop.
Hypothesis Hlt : forall a b, D a -> D b -> lt a b = match cmp a b with Lt => true | _ => false end.
Hypothesis Hanti : forall a b, D a -> D b -> cmp b a = CompOpp (cmp a b).
Hypothesis Heq : forall a b c, D a -> D b -> D c -> cmp a b = Eq -> cmp a c = cmp b c.
Hypothesis Htrans : forall a b c, D a -> D b -> D c -> cmp a b = Lt -> cmp b c = Lt -> cmp a c = Lt.

Lemma sinsert_perm x l : Permutation (x :: l) (sinsert lt x l).
Proof. induction l as [|y l IH]; cbn [sinsert]; auto. destruct (lt y x); auto. apply perm_trans with (y :: x :: l); [apply perm_swap|constructor; auto]. Qed.
Lemma ssort_perm l : Permutation l (ssort lt l).
Proof. induction l as [|x l IH]; cbn [ssort]; auto. apply perm_trans with (x :: ssort lt l); [constructor; auto|apply sinsert_perm]. Qed.
Lemma sinsert_in x l y : In y (sinsert lt x l) -> y = x \/ In y l.
Proof. intro H. apply (Permutation_in _ (Permutation_sym (sinsert_perm x l))) in H. destruct H; auto. Qed.
Lemma ssort_in l y : In y (ssort lt l) <-> In y l.
Proof. split; apply Permutation_in; [apply Permutation_sym|]; apply ssort_perm. Qed.
(* sorting a list that is ordered by P gives one ordered by the key first and P among equal keys *)
Variable P : A -> A -> Prop.
Definition lexp (a b : A) : Prop := cmp a b = Lt \/ (cmp a b = Eq /\ P a b).
Lemma lexp_step a b c : D a -> D b -> D c -> cmp a b <> Gt -> P a c -> lexp b c -> lexp a c.
Proof.
  intros Da Db Dc N1 Pac L. assert (K : cmp a c <> Gt).
  { destruct (cmp a b) eqn:E1; [| |congruence].
    - rewrite (Heq a b c Da Db Dc E1). destruct L as [->|(-> & _)]; discriminate.
    - destruct L as [L|(L & _)]; [rewrite (Htrans a b c Da Db Dc E1 L); discriminate|].
      assert (L' : cmp c b = Eq) by (rewrite (Hanti b c Db Dc), L; reflexivity).
      rewrite (Hanti c a Dc Da), (Heq c b a Dc Db Da L'), (Hanti a b Da Db), E1. discriminate. }
  unfold lexp. destruct (cmp a c); [right; auto|left; auto|congruence].
Qed.
Lemma sinsert_sorted x l : D x -> Forall D l -> Forall (P x) l -> StronglySorted lexp l -> StronglySorted lexp (sinsert lt x l).
Proof.
  intros Dx Dl Px S. induction S as [|y l S IH HF]; cbn [sinsert]; [repeat constructor|].
  inversion Dl as [|? ? Dy Dl']; inversion Px as [|? ? Pxy Px']; subst. rewrite Hlt by auto.
  assert (G : cmp x y <> Gt -> Forall (lexp x) l).
  { intro Nx. rewrite Forall_forall in *. intros z Hz. apply (lexp_step x y z); auto. }
  destruct (cmp y x) eqn:E.
  - constructor; [constructor; auto|]. constructor; [right; split; auto; rewrite (Hanti y x) by auto; rewrite E; reflexivity|].
    apply G. rewrite (Hanti y x) by auto. rewrite E. discriminate.
  - constructor; [apply IH; auto|]. rewrite Forall_forall in HF |- *. intros z Hz. destruct (sinsert_in x l z Hz) as [->|Hz']; [left; auto|auto].
  - constructor; [constructor; auto|]. constructor; [left; rewrite (Hanti y x) by auto; rewrite E; reflexivity|].
    apply G. rewrite (Hanti y x) by auto. rewrite E. discriminate.
Qed.
Lemma ssort_sorted l : Forall D l -> StronglySorted P l -> StronglySorted lexp (ssort lt l).
Proof.
  intros Dl S. induction S as [|x l S IH HF]; cbn [ssort]; [constructor|]. inversion Dl; subst. apply sinsert_sorted; auto.
  - apply Forall_forall. intros y Hy. apply (proj1 (ssort_in l y)) in Hy. revert y Hy. apply Forall_forall. auto.
  - apply Forall_forall. intros y Hy. apply (proj1 (ssort_in l y)) in Hy. revert y Hy. apply Forall_forall. auto.
Qed.
(* elements of equal keys keep their order *)
Lemma sinsert_stable x l z : D x -> D z -> Forall D l ->
  filter (fun y => match cmp z y with Eq => true | _ => false end) (sinsert lt x l) = filter (fun y => match cmp z y with Eq => true | _ => false end) (x :: l).
Proof.
  intros Dx Dz Dl. induction l as [|y l IH]; cbn [sinsert]; auto. inversion Dl; subst. rewrite Hlt by auto. destruct (cmp y x) eqn:E; auto.
  cbn [filter]. rewrite IH by auto. cbn [filter]. destruct (cmp z y) eqn:E1, (cmp z x) eqn:E2; auto.
  rewrite (Heq z y x Dz) in E2; auto. congruence.
Qed.
Lemma ssort_stable l z : D z -> Forall D l ->
  filter (fun y => match cmp z y with Eq => true | _ => false end) (ssort lt l) = filter (fun y => match cmp z y with Eq => true | _ => false end) l.
Proof.
  intros Dz Dl. induction Dl as [|x l Dx Dl IH]; cbn [ssort]; auto. rewrite sinsert_stable; auto; [cbn [filter]; rewrite IH; reflexivity|].
  apply Forall_forall. intros y Hy. apply (proj1 (ssort_in l y)) in Hy. revert y Hy. apply Forall_forall. auto.
Qed.
End SORT.

(* ---------------- the order of values ---------------- *)
Lemma dorder_eq a b c : a <> DNan -> b <> DNan -> c <> DNan -> dorder a b = Eq -> dorder a c = dorder b c.
Proof.
  intros Ha Hb Hc E. destruct a as [|sa|na ma ea], b as [|sb|nb mb eb]; try contradiction; cbn [dorder] in E.
  - destruct sa, sb; try discriminate; destruct c; auto.
  - destruct sa; discriminate.
  - destruct sb; discriminate.
  - destruct c as [|sc|nc mc ec]; [contradiction|reflexivity|]. cbn [dorder]. apply Qeq_alt in E. rewrite E. reflexivity.
Qed.
Lemma vorder_eq_l a b c : not_nan a -> not_nan b -> not_nan c -> vorder a b = Eq -> vorder a c = vorder b c.
Proof.
  intros Ha Hb Hc E. destruct (vorder_eq a b E) as [->|(x & y & -> & ->)]; auto. cbn [vorder not_nan] in *. destruct c; auto. apply dorder_eq; auto.
Qed.
Lemma vorder_eq_r a b c : not_nan a -> not_nan b -> not_nan c -> vorder a b = Eq -> vorder c a = vorder c b.
Proof. intros Ha Hb Hc E. rewrite (vorder_antisym a c), (vorder_antisym b c) by auto. f_equal. apply vorder_eq_l; auto. Qed.
