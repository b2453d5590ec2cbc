(* C79: the expand formatter *)
From Coq Require Import Sorted Permutation String.
From Verif Require Import Base VariantModel VariantSpec NamesModel NamesProps TextModel TreeModel CaliFileModel AggModel FilterModel RConfigModel FmtModel FmtProofs JsonModel TreeFmtProps2 ExpandModel ExpandSpec.
Open Scope N_scope.
Open Scope list_scope.

Lemma flat_map_ext_in {A B} (f g : A -> list B) l : (forall a, In a l -> f a = g a) -> flat_map f l = flat_map g l.
Proof. induction l as [|x l IH]; intro H; cbn; auto. rewrite H by (left; auto). f_equal. apply IH. intros. apply H. right; auto. Qed.
(* ---- sorting by attribute ---- *)
Definition klt (x y : N * value) : bool := fst x <? fst y.
Lemma ins_filter a x l : filter (fun y : N * value => fst y =? a) (sinsert klt x l) = filter (fun y => fst y =? a) (x :: l).
Proof.
  induction l as [|y l IH]; [reflexivity|]. cbn [sinsert]. destruct (klt y x) eqn:E; [|reflexivity]. unfold klt in E. apply N.ltb_lt in E.
  cbn [filter] in *. rewrite IH. destruct (N.eqb_spec (fst y) a); destruct (N.eqb_spec (fst x) a); auto. lia.
Qed.
Lemma sort_filter a l : filter (fun y : N * value => fst y =? a) (ssort klt l) = filter (fun y => fst y =? a) l.
Proof. induction l as [|x l IH]; [reflexivity|]. cbn [ssort]. rewrite ins_filter. cbn [filter]. rewrite IH. reflexivity. Qed.
Lemma ins_sorted x l : StronglySorted (fun a b : N * value => fst a <= fst b) l -> StronglySorted (fun a b => fst a <= fst b) (sinsert klt x l).
Proof.
  induction 1 as [|y l Hs IH Hy]; cbn; [repeat constructor|]. destruct (klt y x) eqn:E; unfold klt in E.
  - apply N.ltb_lt in E. constructor; auto. apply Forall_forall. intros z Hz. apply sinsert_in in Hz as [->|Hz]; [lia|]. rewrite Forall_forall in Hy; auto.
  - apply N.ltb_ge in E. constructor; [constructor; auto|]. constructor; auto. rewrite Forall_forall in *. intros z Hz. specialize (Hy z Hz). lia.
Qed.
Lemma sort_sorted l : StronglySorted (fun a b : N * value => fst a <= fst b) (ssort klt l).
Proof. induction l; cbn; [constructor|apply ins_sorted; auto]. Qed.
Lemma ssort_app_one {A} (R : A -> A -> Prop) l x : StronglySorted R l -> Forall (fun y => R y x) l -> StronglySorted R (l ++ [x]).
Proof.
  induction 1 as [|y l Hs IH Hy]; intro F; cbn; [repeat constructor|]. inversion F; subst. constructor; auto. apply Forall_app. auto.
Qed.
Lemma sorted_rev {A} (R : A -> A -> Prop) l : StronglySorted R l -> StronglySorted (fun a b => R b a) (rev l).
Proof.
  induction 1 as [|y l Hs IH Hy]; cbn; [constructor|]. apply ssort_app_one; auto. apply Forall_rev. exact Hy.
Qed.
(* a list sorted by descending keys is made of one block per key *)
Lemma blocks l : StronglySorted (fun a b : N * value => fst b <= fst a) l -> exists ids, StronglySorted (fun a b => b < a) ids /\
  (forall a, In a ids <-> In a (map fst l)) /\ l = flat_map (fun a => filter (fun y => fst y =? a) l) ids.
Proof.
  induction 1 as [|x l Hs (ids & I1 & I2 & I3) Hx]; [exists []; repeat split; auto; constructor|].
  assert (Hge : forall a, In a ids -> a <= fst x). { intros a Ha. apply I2 in Ha. apply in_map_iff in Ha as (y & <- & Hy). rewrite Forall_forall in Hx. apply Hx; auto. }
  destruct ids as [|b ids].
  - assert (l = []) by (rewrite I3; reflexivity). subst l. exists [fst x]. split; [repeat constructor|]. split; [cbn; tauto|]. cbn. rewrite N.eqb_refl. reflexivity.
  - inversion I1 as [|? ? I4 I5]; subst. destruct (N.eqb_spec (fst x) b).
    + exists (b :: ids). split; auto. split.
      * intro a. cbn [map]. cbn [In]. rewrite e. specialize (I2 a). cbn [In] in I2. rewrite <- I2. tauto.
      * cbn [flat_map filter]. rewrite e, N.eqb_refl. cbn. f_equal. cbn [flat_map] in I3. etransitivity; [exact I3|]. f_equal.
        apply flat_map_ext_in. intros a Ha. rewrite Forall_forall in I5. specialize (I5 a Ha). destruct (N.eqb_spec b a); [lia|]. reflexivity.
    + assert (b < fst x) by (specialize (Hge b (or_introl eq_refl)); lia). exists (fst x :: b :: ids). split.
      * constructor; auto. constructor; auto. rewrite Forall_forall in *. intros a Ha. specialize (I5 a Ha). lia.
      * split; [intro a; cbn [map]; specialize (I2 a); cbn [In] in *; rewrite <- I2; tauto|].
        cbn [flat_map]. cbn [filter]. rewrite N.eqb_refl. cbn [app]. f_equal.
        assert (Nx : filter (fun y : N * value => fst y =? fst x) l = []).
        { destruct (filter (fun y : N * value => fst y =? fst x) l) as [|z r] eqn:E; auto. assert (Hz : In z (filter (fun y : N * value => fst y =? fst x) l)) by (rewrite E; left; auto).
          apply filter_In in Hz as (Hz & Ez). apply N.eqb_eq in Ez. assert (In (fst x) (b :: ids)) by (apply I2; rewrite <- Ez; apply in_map; auto).
          destruct H0 as [H0|H0]; [lia|]. rewrite Forall_forall in I5. specialize (I5 _ H0). lia. }
        rewrite Nx. cbn [app]. cbn [flat_map] in I3. etransitivity; [exact I3|].
        assert (Z : forall a, In a (b :: ids) -> filter (fun y => fst y =? a) l = filter (fun y => fst y =? a) (x :: l)).
        { intros a Ha. cbn [filter]. destruct (N.eqb_spec (fst x) a); auto. subst a. destruct Ha as [Ha|Ha]; [lia|]. rewrite Forall_forall in I5. specialize (I5 _ Ha). lia. }
        pose proof (Z b (or_introl eq_refl)) as Zb. cbn [filter] in Zb. rewrite <- Zb. f_equal. apply flat_map_ext_in. intros a Ha. apply (Z a (or_intror Ha)).
Qed.

(* ---- texts ---- *)
Fixpoint joinw (c : N) (l : list bytes) : bytes := match l with [] => [] | [x] => x | x :: r => x ++ c :: joinw c r end.
Definition ftext (f : bytes * list bytes) : bytes := fst f ++ 61 :: joinw 47 (snd f).
Lemma pieces_plain c s : ~ In c s -> pieces c s = [s].
Proof. induction s as [|x s IH]; cbn; auto. intro H. destruct (N.eqb_spec x c); [subst; exfalso; apply H; auto|]. rewrite IH by auto. reflexivity. Qed.
Lemma pieces_app c s t : ~ In c s -> pieces c (s ++ c :: t) = s :: pieces c t.
Proof.
  induction s as [|x s IH]; cbn; [rewrite N.eqb_refl; auto|]. intro H. destruct (N.eqb_spec x c); [subst; exfalso; apply H; auto|]. rewrite IH by auto. reflexivity.
Qed.
Lemma pieces_join c l : l <> [] -> Forall (fun s => ~ In c s) l -> pieces c (joinw c l) = l.
Proof.
  intros Hl H. induction H as [|x l Hx H IH]; [congruence|]. destruct l as [|y l]; [apply pieces_plain; auto|].
  change (joinw c (x :: y :: l)) with (x ++ c :: joinw c (y :: l)). rewrite pieces_app by auto. f_equal. apply IH. discriminate.
Qed.
Lemma field_text f : clear_name (fst f) -> snd f <> [] -> Forall clear_value (snd f) -> field (ftext f) = Some f.
Proof.
  destruct f as [n v]. cbn [fst snd]. intros (_ & Hn & _) Hv Hf. unfold ftext. cbn [fst snd].
  assert (E : pieces 47 (joinw 47 v) = v) by (apply pieces_join; auto; eapply Forall_impl; [|exact Hf]; intros a (_ & H & _); auto).
  induction n as [|x n IH]; cbn; [rewrite E; auto|]. destruct (N.eqb_spec x 61); [subst; exfalso; apply Hn; left; auto|]. rewrite IH; auto. intro; apply Hn; right; auto.
Qed.
Lemma in_joinw x c l : In x (joinw c l) -> x = c \/ exists s, In s l /\ In x s.
Proof.
  induction l as [|y l IH]; cbn; [tauto|]. destruct l as [|z l]; [intro; right; exists y; auto|]. intro H. apply in_app_iff in H as [H|[H|H]]; [right; exists y; auto|auto|].
  destruct (IH H) as [->|(s & H1 & H2)]; auto. right. exists s. auto.
Qed.
Definition fine (f : bytes * list bytes) : Prop := clear_name (fst f) /\ snd f <> [] /\ Forall clear_value (snd f).
Lemma ftext_no f x : fine f -> x = 44 \/ x = 10 -> ~ In x (ftext f).
Proof.
  intros ((H1 & H2 & H3) & _ & H4) Hx Hi. unfold ftext in Hi. apply in_app_iff in Hi as [Hi|[Hi|Hi]].
  - destruct Hx; subst; auto.
  - destruct Hx; subst; discriminate.
  - apply in_joinw in Hi as [->|(s & Hs & Hi)]; [destruct Hx; discriminate|]. rewrite Forall_forall in H4. destruct (H4 s Hs) as (A & B & C). destruct Hx; subst; auto.
Qed.
Lemma line_read fs : fs <> [] -> Forall fine fs -> line_fields (joinw 44 (map ftext fs)) = map Some fs.
Proof.
  intros Hf H. unfold line_fields. rewrite pieces_join.
  - rewrite map_map. apply map_ext_in. intros f Hi. rewrite Forall_forall in H. destruct (H f Hi) as (A & B & C). apply field_text; auto.
  - intro E. apply Hf. destruct fs; [auto|discriminate].
  - apply Forall_map. eapply Forall_impl; [|exact H]. intros f Hi. apply ftext_no; auto.
Qed.
Lemma lines_read l : Forall (fun s => ~ In 10 s) l -> text_lines (flat_map (fun s => s ++ [10]) l) = l.
Proof.
  intro H. unfold text_lines. assert (E : pieces 10 (flat_map (fun s => s ++ [10]) l) = l ++ [[]]).
  { induction H as [|s l Hs H IH]; cbn; auto. rewrite <- app_assoc. cbn. rewrite pieces_app by auto. rewrite IH. reflexivity. }
  rewrite E. apply removelast_last.
Qed.

(* ---- the formatter ---- *)
Section E.
Variable vtext : value -> bytes.
Variable d : mdb.
Variable q : xspec.
Notation xlabel := (xlabel d q).
Notation xemit := (xemit vtext d q).
Lemma sel_iff a : xsel d q a = true <-> x_selects d (xs_sel q) a.
Proof.
  unfold xsel, x_selects. destruct (xs_sel q) as [|s l]; [intuition|]. rewrite existsb_exists. split.
  - intros (x & Hx & E). apply beqb_eq in E. subst x. auto.
  - intros [H|H]; [discriminate|]. exists (xname d a). split; auto. apply beqb_eq. auto.
Qed.
(* the separator before the n-th field *)
Definition comma (n : nat) : bytes := if (n =? 0)%nat then [] else [44].
Lemma emit_same a vs rest n : xemit (Some a) n (map (pair a) vs ++ rest) = (flat_map (fun v => 47 :: vtext v) vs ++ fst (xemit (Some a) n rest), snd (xemit (Some a) n rest)).
Proof.
  induction vs as [|v vs IH]; cbn [map app flat_map]; [destruct (xemit (Some a) n rest); auto|]. cbn [ExpandModel.xemit]. rewrite N.eqb_refl, IH. cbn. rewrite <- app_assoc. reflexivity.
Qed.
Lemma emit_new p a r n : (match p with Some b => a <> b | None => True end) -> forall v, xemit p n ((a, v) :: r) = (comma n ++ xlabel a ++ 61 :: vtext v ++ fst (xemit (Some a) (S n) r), snd (xemit (Some a) (S n) r)).
Proof.
  intros H v. cbn [ExpandModel.xemit]. replace (match p with Some b => a =? b | None => false end) with false; [destruct (xemit (Some a) (S n) r); reflexivity|].
  destruct p as [b|]; auto. symmetry. apply N.eqb_neq. auto.
Qed.
Lemma joinw_cons v vs : joinw 47 (map vtext (v :: vs)) = vtext v ++ flat_map (fun v => 47 :: vtext v) vs.
Proof.
  revert v. induction vs as [|w vs IH]; intro v; cbn; [rewrite app_nil_r; auto|]. f_equal. f_equal. exact (IH w).
Qed.
Fixpoint tail_text (n : nat) (fs : list (bytes * list bytes)) : bytes := match fs with [] => [] | f :: r => comma n ++ ftext f ++ tail_text (S n) r end.
Lemma emit_blocks vals ids : StronglySorted (fun a b => b < a) ids -> (forall a, In a ids -> vals a <> []) ->
  forall p n, (match p with Some b => Forall (fun a => a < b) ids | None => True end) ->
  xemit p n (flat_map (fun a => map (pair a) (vals a)) ids) = (tail_text n (map (fun a => (xlabel a, map vtext (vals a))) ids), (n + length ids)%nat).
Proof.
  induction 1 as [|a ids Hs IH Ha]; intros Hv p n Hp; [cbn; rewrite Nat.add_0_r; auto|].
  cbn [flat_map]. destruct (vals a) as [|v vs] eqn:Ev; [destruct (Hv a (or_introl eq_refl) Ev)|]. cbn [map app].
  rewrite emit_new by (destruct p as [b|]; auto; inversion Hp; subst; lia). rewrite emit_same, IH; [|intros; apply Hv; right; auto|exact Ha]. cbn [fst snd].
  f_equal; [|cbn; lia]. rewrite Ev. cbn [tail_text]. f_equal. unfold ftext. cbn [fst snd]. change (vtext v :: map vtext vs) with (map vtext (v :: vs)). rewrite joinw_cons. rewrite <- !app_assoc. cbn [app]. rewrite <- !app_assoc. reflexivity.
Qed.
Lemma tail_app n a b : tail_text n (a ++ b) = tail_text n a ++ tail_text (n + length a) b.
Proof.
  revert n. induction a as [|f a IH]; intro n; cbn [tail_text app length]; [rewrite Nat.add_0_r; auto|]. rewrite IH. replace (S n + length a)%nat with (n + S (length a))%nat by lia. rewrite <- !app_assoc. reflexivity.
Qed.
Lemma filter_rev' {A} (f : A -> bool) l : filter f (rev l) = rev (filter f l).
Proof. induction l as [|x l IH]; cbn; auto. rewrite filter_app, IH. cbn. destruct (f x); cbn; auto. rewrite app_nil_r; auto. Qed.
Lemma filter_pairs a (l : list (N * value)) : filter (fun y => fst y =? a) l = map (pair a) (map snd (filter (fun y => fst y =? a) l)).
Proof. induction l as [|[b v] l IH]; cbn; auto. destruct (N.eqb_spec b a); cbn; auto. subst. f_equal; auto. Qed.
Lemma entry_text e : exists fs, shows vtext d (x_selects d (xs_sel q)) xlabel e fs /\ Forall (fun f => snd f <> []) fs /\
  forall s, xentry vtext d q s e = (fst s ++ tail_text (snd s) fs, (snd s + length fs)%nat).
Proof.
  destruct e as [i|a v].
  - set (path := node_path d i). set (sp := filter (fun x => xsel d q (fst x)) path).
    destruct (blocks (rev (ssort klt sp))) as (ids & I1 & I2 & I3). { apply (sorted_rev (fun a b : N * value => fst a <= fst b)). apply sort_sorted. }
    assert (B : forall a, xsel d q a = true -> filter (fun y : N * value => fst y =? a) (rev (ssort klt sp)) = map (pair a) (values_of d i a)).
    { intros a Ha. rewrite filter_rev', sort_filter, <- filter_rev'. unfold values_of. fold path. rewrite <- filter_pairs. rewrite !filter_rev'. f_equal.
      unfold sp. clear -Ha. induction path as [|x l IH]; cbn; auto. destruct (xsel d q (fst x)) eqn:Es; cbn; destruct (N.eqb_spec (fst x) a); rewrite ?IH; auto. congruence. }
    assert (Ids : forall a, In a ids <-> xsel d q a = true /\ In a (map fst path)).
    { intro a. rewrite I2. rewrite !in_map_iff. split.
      - intros (x & <- & Hx). apply in_rev in Hx. apply (proj1 (ssort_in klt _ _)) in Hx. apply filter_In in Hx as (H1 & H2). split; auto. exists x. auto.
      - intros (Hs & x & <- & Hx). exists x. split; auto. apply in_rev. rewrite rev_involutive. apply (proj2 (ssort_in klt _ _)). apply filter_In. auto. }
    exists (map (fun a => (xlabel a, map vtext (values_of d i a))) ids). split; [|split].
    + apply sh_ref; auto. intro a. rewrite Ids, sel_iff. reflexivity.
    + apply Forall_map, Forall_forall. intros a Ha. cbn. apply Ids in Ha as (_ & Ha). apply in_map_iff in Ha as (x & Ex & Hx). unfold values_of. fold path.
      assert (In (snd x) (map snd (filter (fun y : N * value => fst y =? a) (rev path)))). { apply in_map. apply filter_In. split; [apply in_rev; rewrite rev_involutive; auto|]. subst. apply N.eqb_refl. }
      destruct (map snd _); [destruct H|discriminate].
    + intro s. unfold xentry. fold path. fold sp. fold klt.
      assert (E : rev (ssort klt sp) = flat_map (fun a => map (pair a) (values_of d i a)) ids).
      { etransitivity; [exact I3|]. apply flat_map_ext_in. intros a Ha. apply B. apply Ids; auto. }
      change (ssort (fun x y : N * value => fst x <? fst y) sp) with (ssort klt sp). rewrite E, (emit_blocks (values_of d i) ids I1).
      * rewrite map_length. reflexivity.
      * intros a Ha E0. apply Ids in Ha as (Hs & Ha). specialize (B a Hs). rewrite E0 in B. cbn in B. apply in_map_iff in Ha as (x & Ex & Hx).
        assert (In x (filter (fun y : N * value => fst y =? a) (rev (ssort klt sp)))); [|rewrite B in H; exact H]. apply filter_In. split; [|subst; apply N.eqb_refl].
        apply in_rev. rewrite rev_involutive. apply (proj2 (ssort_in klt _ _)). apply filter_In. subst; auto.
      * exact Logic.I.
  - destruct (xsel d q a) eqn:Es.
    + exists [(xlabel a, [vtext v])]. split; [apply sh_imm; apply sel_iff; auto|]. split; [repeat constructor; discriminate|]. intro s. cbn. rewrite Es. unfold ftext. cbn. rewrite app_nil_r, Nat.add_1_r. reflexivity.
    + exists []. split; [apply sh_not; rewrite <- sel_iff; congruence|]. split; [constructor|]. intro s. cbn. rewrite Es, app_nil_r, Nat.add_0_r. destruct s; auto.
Qed.
Lemma tail_join fs : tail_text 0 fs = joinw 44 (map ftext fs).
Proof.
  destruct fs as [|f fs]; [reflexivity|]. cbn [tail_text comma]. change (comma 0) with (@nil N). cbn [app].
  assert (G : forall fs f n, ftext f ++ tail_text (S n) fs = joinw 44 (map ftext (f :: fs))); [|apply G].
  clear. induction fs as [|g fs IH]; intros f n; [cbn; rewrite app_nil_r; auto|]. cbn [tail_text]. change (comma (S n)) with [44]. change (joinw 44 (map ftext (f :: g :: fs))) with (ftext f ++ 44 :: joinw 44 (map ftext (g :: fs))).
  rewrite <- (IH g (S n)). reflexivity.
Qed.
Lemma rec_text rec : exists fs, rec_shows vtext d (x_selects d (xs_sel q)) xlabel rec fs /\ Forall (fun f => snd f <> []) fs /\
  xprint vtext d q rec = match fs with [] => [] | _ => joinw 44 (map ftext fs) ++ [10] end.
Proof.
  assert (G : forall s, exists l, Forall2 (shows vtext d (x_selects d (xs_sel q)) xlabel) rec l /\ Forall (fun f => snd f <> []) (concat l) /\
    fold_left (xentry vtext d q) rec s = (fst s ++ tail_text (snd s) (concat l), (snd s + length (concat l))%nat)).
  { induction rec as [|e rec IH]; intro s.
    - exists []. split; [constructor|]. split; [constructor|]. cbn. rewrite app_nil_r, Nat.add_0_r. destruct s; auto.
    - destruct (entry_text e) as (fs & H1 & H2 & H3). cbn [fold_left]. destruct (IH (xentry vtext d q s e)) as (l & L1 & L2 & L3). exists (fs :: l). split; [constructor; auto|].
      split; [cbn; apply Forall_app; auto|]. rewrite L3, H3. cbn [fst snd concat]. rewrite tail_app, app_length, <- !app_assoc. f_equal. lia. }
  destruct (G ([], 0%nat)) as (l & L1 & L2 & L3). exists (concat l). split; [exists l; auto|]. split; auto. unfold xprint. rewrite L3. cbn [fst snd app Nat.add].
  destruct (concat l) as [|f fs]; [reflexivity|]. rewrite <- tail_join. reflexivity.
Qed.

Lemma sorted_det (l : list N) : StronglySorted (fun a b => b < a) l -> forall l', StronglySorted (fun a b => b < a) l' -> (forall a, In a l <-> In a l') -> l = l'.
Proof.
  induction 1 as [|x l Hs IH Hx]; intros l' H' Hi.
  - destruct l' as [|y l']; auto. destruct (proj2 (Hi y) (or_introl eq_refl)).
  - inversion H' as [|y l1 H1 H2]; subst; [destruct (proj1 (Hi x) (or_introl eq_refl))|]. rewrite Forall_forall in Hx, H2.
    assert (x = y). { destruct (proj1 (Hi x) (or_introl eq_refl)) as [E|E]; auto. destruct (proj2 (Hi y) (or_introl eq_refl)) as [E'|E']; auto. specialize (Hx y E'). specialize (H2 x E). lia. }
    subst y. f_equal. apply IH; auto. intro a. split; intro Ha.
    + destruct (proj1 (Hi a) (or_intror Ha)); auto. subst. specialize (Hx a Ha). lia.
    + destruct (proj2 (Hi a) (or_intror Ha)); auto. subst. specialize (H2 a Ha). lia.
Qed.
Lemma shows_det sel lab e fs fs' : shows vtext d sel lab e fs -> shows vtext d sel lab e fs' -> fs = fs'.
Proof.
  intros H H'. destruct H as [a v Hs|a v Hs|i ids H1 H2]; [inversion H'; subst; auto; tauto|inversion H'; subst; auto; tauto|]. inversion H' as [| |i' ids' H3 H4]; subst i'. f_equal. apply sorted_det; auto. intro a. rewrite H2, H4. reflexivity.
Qed.
Lemma rec_shows_det sel lab rec fs fs' : rec_shows vtext d sel lab rec fs -> rec_shows vtext d sel lab rec fs' -> fs = fs'.
Proof.
  intros (l & H & ->) (l' & H' & ->). f_equal. revert l' H'. induction H as [|e fs rec l He H IH]; intros l' H'; inversion H'; subst; auto. f_equal; auto. eapply shows_det; eauto.
Qed.
(* every record has exactly one list of fields *)
Theorem C79_fields : forall rec, exists fs, rec_shows vtext d (x_selects d (xs_sel q)) xlabel rec fs /\ forall fs', rec_shows vtext d (x_selects d (xs_sel q)) xlabel rec fs' -> fs' = fs.
Proof. intro rec. destruct (rec_text rec) as (fs & H & _). exists fs. split; auto. intros fs' H'. eapply rec_shows_det; eauto. Qed.
(* reading the output back gives, for every record in order, exactly its fields; records without selected attributes have
   no line.  For names and values without the characters the text uses as separators *)
Theorem C79_output : forall recs fss, Forall2 (rec_shows vtext d (x_selects d (xs_sel q)) xlabel) recs fss ->
  (forall fs f, In fs fss -> In f fs -> clear_name (fst f) /\ Forall clear_value (snd f)) ->
  read_text (expand_output vtext d q recs) = map (map Some) (filter (fun fs => negb (is_empty fs)) fss).
Proof.
  intros recs fss HF Hc. assert (G : Forall2 (fun rec fs => rec_shows vtext d (x_selects d (xs_sel q)) xlabel rec fs /\ Forall (fun f => snd f <> []) fs /\
     xprint vtext d q rec = match fs with [] => [] | _ => joinw 44 (map ftext fs) ++ [10] end) recs fss).
  { clear Hc. induction HF as [|rec fs recs fss HR HF IH]; constructor; auto. destruct (rec_text rec) as (fs' & H1 & H2 & H3). assert (fs' = fs) by (eapply rec_shows_det; eauto). subst. auto. }
  assert (E : expand_output vtext d q recs = flat_map (fun s => s ++ [10]) (map (fun fs => joinw 44 (map ftext fs)) (filter (fun fs => negb (is_empty fs)) fss))).
  { unfold expand_output. clear Hc HF. induction G as [|rec fs recs fss (_ & _ & E) G IH]; [reflexivity|]. cbn [flat_map filter]. rewrite E, IH. destruct fs; reflexivity. }
  assert (F : Forall (fun fs => fs <> [] /\ Forall fine fs) (filter (fun fs => negb (is_empty fs)) fss)).
  { apply Forall_forall. intros fs Hi. apply filter_In in Hi as (Hi & Hne). split; [destruct fs; [discriminate|discriminate]|]. apply Forall_forall. intros f Hf. destruct (Hc fs f Hi Hf) as (A & B).
    split; auto. split; auto. clear -G Hi Hf. induction G as [|rec fs' recs fss (_ & H & _) G IH]; [destruct Hi|]. destruct Hi as [->|Hi]; [rewrite Forall_forall in H; exact (H f Hf)|auto]. }
  unfold read_text. rewrite E, lines_read, map_map.
  - apply map_ext_in. intros fs Hi. rewrite Forall_forall in F. destruct (F fs Hi) as (A & B). apply line_read; auto.
  - apply Forall_map. eapply Forall_impl; [|exact F]. intros fs (_ & B) Hi. apply in_joinw in Hi as [Hi|(s & Hs & Hi)]; [discriminate|].
    apply in_map_iff in Hs as (f & <- & Hf). rewrite Forall_forall in B. exact (ftext_no f 10 (B f Hf) (or_intror eq_refl) Hi).
Qed.
End E.

(* ---- a case: a selected path attribute with several values, an immediate value with an alias ---- *)
Definition xq : xspec := mkxs [] [(e_tm, bs "Time")].
Definition xout : list (list (bytes * list bytes)) := [[(bs "function", map bs ["main"; "foo"; "inner"]%string); (bs "Time", [bs "50"])]; [(bs "function", map bs ["main"; "bar"]%string); (bs "Time", [bs "20"])];
   [(bs "function", [bs "main"]); (bs "Time", [bs "5"])]; [(bs "function", map bs ["main"; "foo"]%string); (bs "Time", [bs "10"])]; [(bs "function", map bs ["main"; "bar"]%string); (bs "Time", [bs "30"])]].
Example C79_case : expand_output e_text edb xq erecs = flat_map (fun s => bs s ++ [10]) ["function=main/foo/inner,Time=50"; "function=main/bar,Time=20"; "function=main,Time=5"; "function=main/foo,Time=10"; "function=main/bar,Time=30"]%string /\
  Forall2 (rec_shows e_text edb (x_selects edb (xs_sel xq)) (xlabel edb xq)) erecs xout /\
  (forall fs f, In fs xout -> In f fs -> clear_name (fst f) /\ Forall clear_value (snd f)) /\
  read_text (expand_output e_text edb xq erecs) = map (map Some) xout.
Proof.
  split; [vm_compute; reflexivity|]. split; [|split].
  - assert (G : forall i z l, node_path edb i = map (fun s => (ea e_fn, VStr (bs s))) (rev l) -> l <> [] -> 
      rec_shows e_text edb (x_selects edb (xs_sel xq)) (xlabel edb xq) [ERef i; EImm (ea e_tm) (VInt z)] [(bs "function", map bs l); (bs "Time", [e_text (VInt z)])]).
    { intros i z l Hp Hl. exists [[(bs "function", map bs l)]; [(bs "Time", [e_text (VInt z)])]]. split; [|reflexivity]. constructor; [|constructor; [|constructor]].
      - replace [(bs "function", map bs l)] with (map (fun a => (xlabel edb xq a, map e_text (values_of edb i a))) [ea e_fn]).
        + apply sh_ref; [repeat constructor|]. intro a. rewrite Hp, map_map. cbn [fst]. cbn [In]. unfold x_selects. cbn [xs_sel xq]. split.
          * intros [<-|[]]. split; [auto|]. apply in_map_iff. destruct l as [|s l]; [congruence|]. exists s. split; [reflexivity|]. apply in_rev. rewrite rev_involutive. left; auto.
          * intros (_ & H). apply in_map_iff in H as (s & <- & _). auto.
        + cbn [map]. replace (xlabel edb xq (ea e_fn)) with (bs "function") by (vm_compute; reflexivity). f_equal. f_equal. unfold values_of. rewrite Hp, <- map_rev, rev_involutive.
          clear. generalize (ea e_fn). intro n. induction l as [|s l IH]; cbn; auto. rewrite N.eqb_refl. cbn. f_equal. exact IH.
      - replace (bs "Time") with (xlabel edb xq (ea e_tm)) by (vm_compute; reflexivity). apply sh_imm. left. reflexivity. }
    unfold xout, erecs.
    repeat (constructor; [match goal with |- rec_shows _ _ _ _ [ERef ?i; EImm _ (VInt ?z)] [(_, ?l); _] => first [apply (G i z ["main"; "foo"; "inner"]%string)|apply (G i z ["main"; "bar"]%string)|apply (G i z ["main"]%string)|apply (G i z ["main"; "foo"]%string)] end; [vm_compute; reflexivity|discriminate]|]). constructor.
  - assert (E : forallb (forallb (fun f => forallb (fun c => negb ((c =? 44) || (c =? 61) || (c =? 10))) (fst f) && forallb (forallb (fun c => negb ((c =? 44) || (c =? 47) || (c =? 10)))) (snd f))) xout = true) by (vm_compute; reflexivity).
    intros fs f H1 H2. rewrite forallb_forall in E. specialize (E fs H1). rewrite forallb_forall in E. specialize (E f H2). apply andb_true_iff in E as (E1 & E2). rewrite forallb_forall in E1, E2. split.
    + repeat split; intro Hi; specialize (E1 _ Hi); discriminate E1.
    + apply Forall_forall. intros s Hs. specialize (E2 s Hs). rewrite forallb_forall in E2. repeat split; intro Hi; specialize (E2 _ Hi); discriminate E2.
  - vm_compute. reflexivity.
Qed.
(* Finding: nothing is escaped, so different records have the same line: a region "a/b" and "b" within "a"; an attribute
   whose value is the text of another field. *)
Definition xedb : mdb := Eval vm_compute in snd (make_tree_entry (snd (make_tree_entry edb (fp ["a"; "b"]%string) ROOT)) (fp ["a/b"]%string) ROOT).
Definition xen (l : list string) : N := fst (make_tree_entry xedb (fp l) ROOT).
Theorem C79_separators_refuted : exists r r' s s',
  map snd (node_path xedb r) = map (fun x => VStr (bs x)) ["b"; "a"]%string /\ map snd (node_path xedb r') = [VStr (bs "a/b")] /\
  expand_output e_text xedb xq [[ERef r]] = expand_output e_text xedb xq [[ERef r']] /\
  s = [EImm (ea e_fn) (VStr (bs "x,Time=5"))] /\ s' = [EImm (ea e_fn) (VStr (bs "x")); EImm (ea e_tm) (VInt 5)] /\
  expand_output e_text xedb xq [s] = expand_output e_text xedb xq [s'].
Proof. exists (xen ["a"; "b"]%string), (xen ["a/b"]%string). do 2 eexists. split; [vm_compute; reflexivity|]. split; [vm_compute; reflexivity|]. split; [vm_compute; reflexivity|]. split; [reflexivity|]. split; [reflexivity|]. vm_compute. reflexivity. Qed.
Print Assumptions C79_fields.
Print Assumptions C79_output.
