(* Proofs about LET operators (FilterModel) *)
From Verif Require Import Base VariantModel VariantSpec VariantOrderProofs NamesModel NamesProps TextModel TreeModel TreeProofs CaliFileModel CaliFileProofs2 CaliFileProofs4 ArithSpec FloatModel AggModel AggSpec AggProofs2 AggProofs3 FilterModel FilterSpec FilterProofs.
Open Scope N_scope.

Lemma find_rev_spec {A} (f : A -> bool) p x : find f (rev p) = Some x <-> exists p1 p2, p = p1 ++ x :: p2 /\ f x = true /\ Forall (fun y => f y = false) p2.
Proof.
  induction p as [|y p IH] using rev_ind.
  - cbn. split; [discriminate|]. intros (p1 & p2 & E & _). destruct p1; discriminate.
  - rewrite rev_app_distr. cbn [rev app find]. destruct (f y) eqn:E.
    + split.
      * intro H. injection H as <-. exists p, []. auto.
      * intros (p1 & p2 & H & Hx & Hf). destruct p2 as [|z p2 _] using rev_ind.
        -- apply app_inj_tail in H as (_ & ->). reflexivity.
        -- rewrite app_comm_cons, app_assoc in H. apply app_inj_tail in H as (_ & ->). rewrite Forall_app in Hf. destruct Hf as (_ & Hf). apply Forall_cons_iff in Hf as (Hf & _). congruence.
    + rewrite IH. split.
      * intros (p1 & p2 & -> & Hx & Hf). exists p1, (p2 ++ [y]). rewrite <- app_assoc. split; [reflexivity|]. split; [exact Hx|]. rewrite Forall_app. split; [exact Hf|]. constructor; [exact E|constructor].
      * intros (p1 & p2 & H & Hx & Hf). destruct p2 as [|z p2 _] using rev_ind.
        -- apply app_inj_tail in H as (_ & ->). congruence.
        -- rewrite app_comm_cons, app_assoc in H. apply app_inj_tail in H as (-> & ->). exists p1, p2. rewrite Forall_app in Hf. destruct Hf as (Hf & _). auto.
Qed.
Lemma find_attr_spec p a v : (match find (fun x => fst x =? a) (rev p) with Some x => Some (snd x) | None => None end) = Some v <-> innermost p a v.
Proof.
  unfold innermost. split.
  - destruct (find _ (rev p)) as [(b, w)|] eqn:E; [|discriminate]. cbn [snd]. intro H. injection H as <-. apply find_rev_spec in E as (p1 & p2 & -> & Hx & Hf). cbn [fst] in Hx. apply N.eqb_eq in Hx. subst b.
    exists p1, p2. split; [reflexivity|]. rewrite in_map_iff. intros ((b, w') & Eb & Hi). cbn [fst] in Eb. subst b. rewrite Forall_forall in Hf. specialize (Hf _ Hi). cbn [fst] in Hf. rewrite N.eqb_refl in Hf. discriminate.
  - intros (p1 & p2 & -> & Hn). assert (E : find (fun x => fst x =? a) (rev (p1 ++ (a, v) :: p2)) = Some (a, v)).
    { apply find_rev_spec. exists p1, p2. split; [reflexivity|]. split; [apply N.eqb_refl|]. apply Forall_forall. intros (b, w) Hi. cbn [fst]. apply N.eqb_neq. intros ->. apply Hn. apply in_map_iff. exists (a, w). auto. }
    rewrite E. reflexivity.
Qed.
Lemma fnd_innermost a p v : fnd a p = Some v <-> innermost p a v.
Proof. apply find_attr_spec. Qed.
Lemma innermost_in p a v : innermost p a v -> In (a, v) p.
Proof. intros (p1 & p2 & -> & _). apply in_elt. Qed.

(* the first entry of the wanted type *)
Lemma leaf_value_spec ty f (R : entry -> value -> Prop) rec : (forall e v, In e rec -> f e = Some v <-> R e v) -> forall v, leaf_value ty f rec = Some v <-> first_typed ty R rec v.
Proof.
  induction rec as [|e rec IH]; intros H v; cbn [leaf_value].
  - split; [discriminate|]. intros (_ & pre & e & post & E & _). destruct pre; discriminate.
  - assert (IH' := IH ltac:(intros e' w Hi; apply H; right; exact Hi) v). clear IH.
    assert (Skip : (forall w, f e = Some w -> val_type w <> ty) -> leaf_value ty f rec = Some v <-> first_typed ty R (e :: rec) v).
    { intro Hn. rewrite IH'. unfold first_typed. split.
      - intros (Ht & pre & e' & post & -> & Hf & Hp). split; [exact Ht|]. exists (e :: pre), e', post. split; [reflexivity|]. split; [exact Hf|]. intros x w [<-|Hx] Hw; [apply Hn; apply H; [left; reflexivity|exact Hw]|exact (Hp x w Hx Hw)].
      - intros (Ht & pre & e' & post & E & Hf & Hp). split; [exact Ht|]. destruct pre as [|x pre]; cbn [app] in E; injection E as -> ->.
        + exfalso. apply (Hn v); [apply H; [left; reflexivity|exact Hf]|exact Ht].
        + exists pre, e', post. split; [reflexivity|]. split; [exact Hf|]. intros x' w Hx. apply Hp. right. exact Hx. }
    destruct (f e) as [w|] eqn:E; [destruct (N.eqb_spec (val_type w) ty) as [T|T]|].
    + split.
      * intro Q. injection Q as <-. split; [exact T|]. exists [], e, rec. split; [reflexivity|]. split; [apply H; [left; reflexivity|exact E]|]. intros ? ? [].
      * intros (Ht & pre & e' & post & Eq & Hf & Hp). destruct pre as [|x pre]; cbn [app] in Eq; injection Eq as Q1 Q2; [subst e' post|subst x].
        -- apply H in Hf; [|left; reflexivity]. congruence.
        -- exfalso. apply (Hp e w); [left; reflexivity|apply H; [left; reflexivity|exact E]|exact T].
    + apply Skip. intros w' Q. injection Q as <-. exact T.
    + apply Skip. intros w' Q. discriminate.
Qed.

Lemma nz_match {T} v (x : T) (f : value -> T) : v <> VInv ->
  match v with VInv => x | VUsr s => f (VUsr s) | VInt z => f (VInt z) | VUint n => f (VUint n) | VStr s => f (VStr s) | VAddr n => f (VAddr n) | VDouble b => f (VDouble b) | VBool b => f (VBool b) | VType t => f (VType t) | VPtr p => f (VPtr p) end = f v.
Proof. destruct v; congruence. Qed.
Section D.
Variable d : mdb.
Hypothesis Hw : wf d.
Hypothesis Hs : size_ok d.

Lemma get_attr_is d' s a : wf d' -> get_attr d' s = Some a -> is_attr d' a = true.
Proof. clear d Hw Hs. intros Hw E. destruct (nm_some d' (proj2 Hw) s a E) as (n & Hn & H8 & _). unfold is_attr. rewrite Hn, H8. reflexivity. Qed.
Lemma ref_not_attr i a : entry_ok d (ERef i) -> is_attr d a = true -> i <> a.
Proof.
  intros (Hlt & H8) Ha ->. destruct (npath_ex d a (proj1 Hw) Hs Hlt) as (p & Hp). specialize (H8 p Hp). unfold is_attr in Ha. destruct (dnode d a) as [n|] eqn:E; [|discriminate]. apply N.eqb_eq in Ha.
  inversion Hp as [Q|j m l Hj Hm Hl]; subst; [rewrite dnode_inv in E by exact Hs; discriminate|]. rewrite E in Hm. injection Hm as <-. rewrite Forall_app in H8. destruct H8 as (_ & H8). apply Forall_cons_iff in H8 as (H8 & _). cbn [fst] in H8. contradiction.
Qed.
Lemma entry_lt e : entry_ok d e -> entry_node e < N.of_nat (length (d_nodes d)).
Proof. destruct e as [i|a v]; cbn [entry_ok entry_node]; [intros (H & _); exact H|apply is_attr_lt]. Qed.
Lemma e_value_spec e a v : entry_ok d e -> is_attr d a = true -> v <> VInv -> e_value d e a = v <-> entry_value d e a v.
Proof.
  intros He Ha Hv. unfold e_value. assert (Hlt := entry_lt e He). destruct (npath_ex d (entry_node e) (proj1 Hw) Hs Hlt) as (p & Hp).
  rewrite (climb_ok d (entry_node e) p a (proj1 Hw) Hs Hp Hlt). destruct (N.eqb_spec (entry_node e) a) as [E|E].
  - destruct e as [i|b w]; cbn [entry_node e_val] in *; [exfalso; exact (ref_not_attr i a He Ha E)|]. subst b. split; [intros ->; constructor|]. intro H. inversion H; subst; [reflexivity|congruence].
  - split.
    + intro H. assert (F : fnd a p = Some v) by (destruct (fnd a p); congruence). apply fnd_innermost in F. destruct e as [i|b w]; cbn [entry_node] in *; [exact (ev_ref d i p a v Hp F)|exact (ev_meta d b w p a v E Hp F)].
    + intro H. destruct e as [i|b w]; cbn [entry_node] in *; inversion H; subst; try congruence.
      * match goal with H1 : npath d i ?q, H2 : innermost ?q a v |- _ => rewrite (npath_fun d i p Hp q H1); apply fnd_innermost in H2; rewrite H2; reflexivity end.
      * match goal with H1 : npath d b ?q, H2 : innermost ?q a v |- _ => rewrite (npath_fun d b p Hp q H1); apply fnd_innermost in H2; rewrite H2; reflexivity end.
Qed.
Lemma first_value_spec rec a v : Forall (entry_ok d) rec -> is_attr d a = true -> v <> VInv ->
  first_value d rec a = v <-> exists pre e post, rec = pre ++ e :: post /\ entry_value d e a v /\ forall e' w, In e' pre -> entry_value d e' a w -> w = VInv.
Proof.
  intros Hr Ha Hv. induction rec as [|e rec IH]; cbn [first_value].
  - split; [congruence|]. intros (pre & e & post & E & _). destruct pre; discriminate.
  - apply Forall_cons_iff in Hr as (He & Hr). specialize (IH Hr).
    destruct (value_eq_dec (e_value d e a) VInv) as [E|E].
    + rewrite E, IH. assert (Hn : forall w, entry_value d e a w -> w = VInv).
      { intros w Hw'. destruct (value_eq_dec w VInv) as [->|Hne]; [reflexivity|]. apply e_value_spec in Hw'; [congruence|exact He|exact Ha|exact Hne]. }
      split.
      * intros (pre & e' & post & -> & H1 & H2). exists (e :: pre), e', post. split; [reflexivity|]. split; [exact H1|]. intros x w [<-|Hx]; [apply Hn|exact (H2 x w Hx)].
      * intros (pre & e' & post & Eq & H1 & H2). destruct pre as [|x pre]; cbn [app] in Eq; injection Eq as -> ->; [apply Hn in H1; congruence|].
        exists pre, e', post. split; [reflexivity|]. split; [exact H1|]. intros y w Hy. apply H2. right. exact Hy.
    + rewrite (nz_match (e_value d e a) (first_value d rec a) (fun v => v) E). cbv beta.
      split.
      * intros <-. exists [], e, rec. split; [reflexivity|]. split; [apply e_value_spec; auto|]. intros ? ? [].
      * intros (pre & e' & post & Eq & H1 & H2). destruct pre as [|x pre]; cbn [app] in Eq; injection Eq as Q1 Q2; [subst e' post; apply e_value_spec in H1; auto|subst x].
        exfalso. apply E. apply (H2 e); [left; reflexivity|]. apply e_value_spec; auto.
Qed.
Lemma get_value_spec rec s v : Forall (entry_ok d) rec -> v <> VInv -> get_value d s rec = v <-> record_value d rec s v.
Proof.
  intros Hr Hv. unfold get_value, record_value. destruct (get_attr d s) as [a|] eqn:E.
  - rewrite (first_value_spec rec a v Hr (get_attr_is d s a Hw E) Hv). split.
    + intros (pre & e & post & H). split; [exact Hv|]. exists a, pre, e, post. split; [reflexivity|exact H].
    + intros (_ & b & pre & e & post & Q & H). injection Q as <-. exists pre, e, post. exact H.
  - split; [congruence|]. intros (_ & b & pre & e & post & Q & _). discriminate.
Qed.
Lemma get_value_none rec s : Forall (entry_ok d) rec -> get_value d s rec = VInv <-> no_value d rec s.
Proof.
  intro Hr. unfold no_value. split.
  - intros E v H. assert (Hv := proj1 H). apply get_value_spec in H; auto. congruence.
  - intro H. destruct (value_eq_dec (get_value d s rec) VInv) as [E|E]; [exact E|]. exfalso. apply (H (get_value d s rec)). apply get_value_spec; auto.
Qed.
Lemma record_get rec s v : Forall (entry_ok d) rec -> record_value d rec s v -> get_value d s rec = v.
Proof. intros Hr H. apply get_value_spec; auto. exact (proj1 H). Qed.
Lemma get_record rec s : Forall (entry_ok d) rec -> get_value d s rec <> VInv -> record_value d rec s (get_value d s rec).
Proof. intros Hr H. apply get_value_spec; auto. Qed.

Lemma first_of_spec xs rec v : Forall (entry_ok d) rec -> (exists x, first_of d xs rec = Some (x, v)) <-> exists pre x post, xs = pre ++ x :: post /\ Forall (no_value d rec) pre /\ record_value d rec x v.
Proof.
  intro Hr. induction xs as [|x xs IH]; cbn [first_of].
  - split; [intros (x & E); discriminate|]. intros (pre & x & post & E & _). destruct pre; discriminate.
  - destruct (value_eq_dec (get_value d x rec) VInv) as [E|E].
    + rewrite E, IH. assert (Hn := proj1 (get_value_none rec x Hr) E). split.
      * intros (pre & y & post & -> & H1 & H2). exists (x :: pre), y, post. split; [reflexivity|]. split; [constructor; assumption|exact H2].
      * intros (pre & y & post & Eq & H1 & H2). destruct pre as [|z pre]; cbn [app] in Eq; injection Eq as -> ->; [exfalso; exact (Hn v H2)|]. apply Forall_cons_iff in H1 as (_ & H1). exists pre, y, post. auto.
    + rewrite (nz_match (get_value d x rec) (first_of d xs rec) (fun v => Some (x, v)) E). cbv beta.
      split.
      * intros (y & Q). injection Q as <- <-. exists [], x, xs. split; [reflexivity|]. split; [constructor|]. apply get_record; auto.
      * intros (pre & y & post & Eq & H1 & H2). destruct pre as [|z pre]; cbn [app] in Eq; injection Eq as Q1 Q2; [subst y post|subst z].
        -- exists x. rewrite (record_get rec x v Hr H2). reflexivity.
        -- apply Forall_cons_iff in H1 as (H1 & _). exfalso. apply E. apply (proj2 (get_value_none rec x Hr)). exact H1.
Qed.
Definition oval (v : value) : option value := match v with VInv => None | _ => Some v end.
Lemma oval_none v : oval v = None <-> v = VInv. Proof. destruct v; cbn; split; congruence. Qed.
Lemma oval_some v w : oval v = Some w <-> v = w /\ w <> VInv. Proof. destruct v; cbn; split; intros H; try (injection H as <-; split; [reflexivity|discriminate]); try (destruct H as (<- & H); try reflexivity; congruence). discriminate. Qed.
Lemma sum_fold rec xs : forall s, fold_left (fun s x => match get_value d x rec with VInv => s | v => vadd s v end) xs s =
  fold_left vadd (flat_map (fun ov => match ov with Some v => [v] | None => [] end) (map (fun x => oval (get_value d x rec)) xs)) s.
Proof.
  induction xs as [|x xs IH]; intro s; cbn [fold_left map flat_map]; [reflexivity|]. rewrite IH, fold_left_app. f_equal. destruct (get_value d x rec); reflexivity.
Qed.
Lemma sum_ovals rec xs vs : Forall (entry_ok d) rec -> Forall2 (fun x ov => match ov with Some v => record_value d rec x v | None => no_value d rec x end) xs vs <-> vs = map (fun x => oval (get_value d x rec)) xs.
Proof.
  intro Hr. revert vs. induction xs as [|x xs IH]; intro vs; cbn [map]; split.
  - intro H. inversion H. reflexivity.
  - intros ->. constructor.
  - intro H. inversion H as [|? ov ? vs' H1 H2]; subst. f_equal; [|apply IH; exact H2]. symmetry. destruct ov as [v|]; [apply oval_some; split; [exact (record_get rec x v Hr H1)|exact (proj1 H1)]|apply oval_none; apply get_value_none; assumption].
  - intros ->. constructor; [|apply IH; reflexivity]. destruct (oval (get_value d x rec)) eqn:E; [apply oval_some in E as (E & Hv); apply get_value_spec; auto|apply oval_none in E; apply get_value_none; assumption].
Qed.
(* leaf regions and own values *)
Lemma path_entry_spec e v : entry_ok d e -> path_entry d e = Some v <-> leaf_region d e v.
Proof.
  intro He. unfold leaf_region. destruct e as [i|a w]; cbn [path_entry].
  - destruct He as (Hlt & _). destruct (npath_ex d i (proj1 Hw) Hs Hlt) as (p & Hp). rewrite (node_path_ok d i p (proj1 Hw) Hs Hp (lt_not_inv d Hs i Hlt)). split.
    + destruct (find _ (rev p)) as [(a, w)|] eqn:E; [|discriminate]. cbn [snd]. intro Q. injection Q as <-. apply find_rev_spec in E as (p1 & p2 & -> & H1 & H2). cbn [fst] in H1. exists i, (p1 ++ (a, w) :: p2), p1, a, p2. auto 6.
    + intros (j & q & p1 & a & p2 & Q & Hq & -> & H1 & H2). injection Q as <-. rewrite (npath_fun d i p Hp _ Hq).
      assert (E : find (fun x => is_nested d (fst x)) (rev (p1 ++ (a, v) :: p2)) = Some (a, v)) by (apply find_rev_spec; exists p1, p2; auto). rewrite E. reflexivity.
  - split; [discriminate|]. intros (j & q & p1 & b & p2 & Q & _). discriminate.
Qed.
Lemma get_entry_spec e a v : entry_ok d e -> is_attr d a = true -> get_entry_of d e a = Some v <-> own_value d a e v.
Proof.
  intros He Ha. unfold own_value, get_entry_of. destruct e as [i|b w]; cbn [entry_node e_val].
  - assert (Hne := ref_not_attr i a He Ha). rewrite (proj2 (N.eqb_neq i a) Hne). destruct He as (Hlt & _). destruct (npath_ex d i (proj1 Hw) Hs Hlt) as (p & Hp). rewrite (node_path_ok d i p (proj1 Hw) Hs Hp (lt_not_inv d Hs i Hlt)).
    rewrite find_attr_spec. split.
    + intro H. right. exists i, p. auto.
    + intros [Q|(j & q & Q & Hq & H)]; [discriminate|]. injection Q as <-. rewrite (npath_fun d i p Hp q Hq). exact H.
  - destruct (N.eqb_spec b a) as [->|E].
    + split; [intro Q; injection Q as ->; auto|]. intros [Q|(j & q & Q & _)]; [injection Q as ->; reflexivity|discriminate].
    + split; [discriminate|]. intros [Q|(j & q & Q & _)]; [injection Q as -> ->; congruence|discriminate].
Qed.
End D.
