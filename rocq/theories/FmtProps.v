(* C53: the table formatter *)
From Coq Require Import Permutation Sorted.
From Verif Require Import Base VariantModel VariantSpec VariantOrderProofs NamesModel TextModel TreeModel CaliFileModel AggModel FilterModel FilterSpec FilterProofs FmtModel FmtProofs.

Section T.
Variable vtext : value -> bytes.
Variable dparse : bytes -> option N.
Variable d : mdb.
Variable q : tspec.
Notation resolve := (resolve d).
Notation update_col := (update_col vtext d q).
Notation update_columns := (update_columns vtext d q).
Notation col_cell := (col_cell vtext d).
Notation cell := (cell vtext d).
Notation tstep := (tstep vtext d q).
Notation treach := (treach vtext d q).
Notation rec_attrs := (rec_attrs d).
Notation display_name := (display_name vtext d q).
Notation column_width := (column_width q).
Notation auto_column := (auto_column q).

(* ---------------- invariants ---------------- *)
(* attributes that get a column of their own: not hidden, not global *)
Definition visible (a : N) : bool := is_attr d a && negb (is_hidden d a) && negb (is_global d a).
Definition own_col (a : N) (c : column) : bool := is_snone (co_ord c) && has_attr a c.
Definition covered (cols : list column) (rec : list entry) : Prop :=
  auto_column = true -> forall a, In a (rec_attrs rec) -> visible a = true -> existsb (own_col a) cols = true.
Definition rowok (cols : list column) (rec : list entry) (row : list bytes) : Prop :=
  (length row <= length cols)%nat /\ covered cols rec /\ (forall c col, nth_error cols c = Some col -> nth c row [] = col_cell rec (resolve col)).

Lemma resolve_idem c : resolve (resolve c) = resolve c.
Proof. unfold FmtModel.resolve. destruct (co_attr c) as [a|] eqn:E; [rewrite E; reflexivity|]. cbn [co_attr co_name co_disp co_width co_print co_ord]. destruct (get_attr d (co_name c)); reflexivity. Qed.
Lemma resolve_shape c : co_name (resolve c) = co_name c /\ co_disp (resolve c) = co_disp c /\ co_width (resolve c) = co_width c /\ co_print (resolve c) = co_print c /\ co_ord (resolve c) = co_ord c.
Proof. unfold FmtModel.resolve. destruct (co_attr c); auto 10. Qed.
Lemma own_resolve a c : own_col a c = true -> own_col a (resolve c) = true.
Proof. unfold own_col, has_attr, FmtModel.resolve. destruct (co_attr c) as [x|] eqn:E; [rewrite E; auto|]. rewrite andb_false_r. discriminate. Qed.
(* what changes the column list: resolving names, widening, and appending new columns for attributes without one *)
Inductive grows : list column -> list column -> Prop :=
| gr_refl l : grows l l
| gr_resolve l : grows l (map resolve l)
| gr_widen l ws : grows l (widen_all l ws)
| gr_app l c a : co_attr c = Some a -> visible a = true -> existsb (own_col a) l = false -> auto_column = true -> co_ord c = SNone -> grows l (l ++ [c])
| gr_trans a b c : grows a b -> grows b c -> grows a c.
Lemma update_col_grows l a : auto_column = true -> grows l (update_col l a).
Proof.
  intro Ha. unfold FmtModel.update_col. fold (own_col a). change (fun c => is_snone (co_ord c) && has_attr a c) with (own_col a). destruct (existsb (own_col a) l) eqn:E; [constructor|].
  destruct (is_attr d a) eqn:V1; cbn [negb orb]; [|constructor]. destruct (is_hidden d a) eqn:V2; cbn [orb]; [constructor|]. destruct (is_global d a) eqn:V3; [constructor|].
  apply gr_app with a; auto. unfold visible. rewrite V1, V2, V3. reflexivity.
Qed.
Lemma fold_grows : forall l cols, auto_column = true -> grows cols (fold_left update_col l cols).
Proof. induction l as [|a l IH]; intros cols Ha; cbn [fold_left]; [constructor|]. eapply gr_trans; [apply update_col_grows; auto|apply IH; auto]. Qed.
Lemma update_columns_grows cols rec : grows cols (update_columns cols rec).
Proof. unfold FmtModel.update_columns. destruct auto_column eqn:Ha; [|constructor]. eapply gr_trans; [apply fold_grows; auto|constructor]. Qed.
Lemma update_col_covers l a : visible a = true -> existsb (own_col a) (update_col l a) = true.
Proof.
  intro V. unfold visible in V. apply andb_true_iff in V. destruct V as (V & V3). apply andb_true_iff in V. destruct V as (V1 & V2). apply negb_true_iff in V2, V3.
  unfold FmtModel.update_col. change (fun c => is_snone (co_ord c) && has_attr a c) with (own_col a). destruct (existsb (own_col a) l) eqn:E; auto.
  rewrite V1, V2, V3. cbn [negb orb]. rewrite existsb_app. unfold own_col at 2. cbn [existsb co_ord is_snone andb has_attr co_attr]. rewrite N.eqb_refl. apply orb_true_r.
Qed.
Lemma widen_own a c w : own_col a (widen c w) = own_col a c. Proof. reflexivity. Qed.
Lemma widen_all_own a : forall l ws, existsb (own_col a) (widen_all l ws) = existsb (own_col a) l.
Proof. induction l as [|c l IH]; intros [|w ws]; cbn [widen_all existsb]; auto. rewrite IH. reflexivity. Qed.
Lemma grows_own a l l' : grows l l' -> existsb (own_col a) l = true -> existsb (own_col a) l' = true.
Proof.
  induction 1 as [l|l|l ws|l c b H1 H2 H3 H4 H5|x y z G1 IH1 G2 IH2]; intro H; auto.
  - apply existsb_exists in H. destruct H as (c & H1 & H2). apply existsb_exists. exists (resolve c). split; [apply in_map; auto|apply own_resolve; auto].
  - rewrite widen_all_own. auto.
  - rewrite existsb_app, H. reflexivity.
Qed.
Lemma fold_covers : forall l cols a, auto_column = true -> visible a = true -> In a l -> existsb (own_col a) (fold_left update_col l cols) = true.
Proof.
  induction l as [|b l IH]; intros cols a Ha V H; [destruct H|]. cbn [fold_left]. destruct H as [->|H]; [|apply IH; auto].
  apply (grows_own a (update_col cols a)); [apply fold_grows; auto|apply update_col_covers; auto].
Qed.
Lemma update_columns_covers cols rec : covered (update_columns cols rec) rec.
Proof.
  intros Ha a Hin V. unfold FmtModel.update_columns. rewrite Ha. apply (grows_own a (fold_left update_col (rec_attrs rec) cols)); [constructor|apply fold_covers; auto].
Qed.
Lemma grows_covered l l' rec : grows l l' -> covered l rec -> covered l' rec.
Proof. intros G C Ha a Hin V. apply (grows_own a l l' G). apply C; auto. Qed.
Lemma grows_length l l' : grows l l' -> (length l <= length l')%nat.
Proof.
  induction 1 as [l|l|l ws|l c b H1 H2 H3 H4 H5|x y z G1 IH1 G2 IH2]; auto.
  - rewrite map_length. auto.
  - revert ws. induction l as [|c l IH]; intros [|w ws]; cbn [widen_all length]; auto. apply le_n_S. apply IH.
  - rewrite app_length. lia.
  - lia.
Qed.
(* values of an attribute that does not occur in the record are empty *)
Lemma ref_text_none a : forall l str, ~ In a (map fst l) -> fold_left (fun str (x : N * value) => if fst x =? a then vtext (snd x) ++ (match str with [] => [] | _ => [FmtModel.slash] end) ++ str else str) l str = str.
Proof. induction l as [|x l IH]; intros str H; cbn [fold_left]; auto. destruct (N.eqb_spec (fst x) a); [exfalso; apply H; left; auto|]. apply IH. intro K. apply H. right. auto. Qed.
Lemma cell_none a : forall rec, ~ In a (rec_attrs rec) -> cell a rec = [].
Proof.
  induction rec as [|[i|b v] rec IH]; intro H; cbn [FmtModel.cell]; auto; unfold FmtModel.rec_attrs in *; cbn [flat_map] in H; rewrite in_app_iff in H.
  - unfold ref_text. rewrite ref_text_none by tauto. apply IH. tauto.
  - destruct (N.eqb_spec b a); [exfalso; apply H; left; left; auto|]. apply IH. tauto.
Qed.
Lemma nth_error_widen : forall l ws c col, nth_error (widen_all l ws) c = Some col -> exists col0, nth_error l c = Some col0 /\ co_attr col = co_attr col0 /\ co_name col = co_name col0 /\ col = widen col0 (nth c ws 0%nat) \/ nth_error l c = Some col.
Proof.
  induction l as [|x l IH]; intros [|w ws] c col H; cbn [widen_all] in H; try (exists col; right; exact H).
  destruct c as [|c]; cbn [nth_error] in *; [injection H as <-; exists x; left; auto|]. apply IH in H. destruct H as (c0 & H). exists c0. destruct H as [H|H]; [left; exact H|right; exact H].
Qed.
Lemma cell_widen rec c w : col_cell rec (resolve (widen c w)) = col_cell rec (resolve c).
Proof. unfold FmtModel.col_cell, FmtModel.resolve, widen. cbn [co_attr co_name]. destruct (co_attr c) eqn:E; cbn [co_attr]; [rewrite E|]; reflexivity. Qed.
Lemma grows_row l l' : grows l l' -> forall rec row, rowok l rec row -> rowok l' rec row.
Proof.
  induction 1 as [l|l|l ws|l c b H1 H2 H3 H4 H5|x y z G1 IH1 G2 IH2]; intros rec row R; auto; destruct R as (R1 & R2 & R3).
  - split; [rewrite map_length; auto|split; [eapply grows_covered; eauto; constructor|]]. intros c col E. rewrite nth_error_map in E. destruct (nth_error l c) as [col0|] eqn:E0; [|discriminate]. injection E as <-. rewrite resolve_idem. auto.
  - split; [pose proof (grows_length l (widen_all l ws) (gr_widen l ws)); lia|split; [eapply grows_covered; eauto; constructor|]]. intros c col E. apply nth_error_widen in E. destruct E as (c0 & [(E & _ & _ & ->)|E]); auto. rewrite cell_widen. auto.
  - split; [rewrite app_length; lia|]. assert (C : covered (l ++ [c]) rec) by (eapply grows_covered; eauto; apply gr_app with b; auto). split; auto. intros i col E.
    destruct (Nat.lt_ge_cases i (length l)) as [L|L]; [rewrite nth_error_app1 in E by auto; auto|]. rewrite nth_error_app2 in E by auto.
    destruct (i - length l)%nat as [|k] eqn:K; cbn [nth_error] in E; [injection E as <-|destruct k; discriminate]. rewrite nth_overflow by lia.
    unfold FmtModel.resolve. rewrite H1. unfold FmtModel.col_cell. rewrite H1. symmetry. apply cell_none. intro Hin. specialize (R2 H4 b Hin H2). congruence.
Qed.
Lemma new_row cols rec : rowok (update_columns cols rec) rec (map (col_cell rec) (update_columns cols rec)).
Proof.
  split; [rewrite map_length; auto|split; [apply update_columns_covers|]]. intros c col E. change ([] : bytes) with (col_cell rec (mkcol [] [] 0 None false SNone)). rewrite map_nth.
  rewrite (nth_error_nth _ _ _ E). f_equal. unfold FmtModel.update_columns in E. rewrite nth_error_map in E. destruct (nth_error _ c); [|discriminate]. injection E as <-. symmetry. apply resolve_idem.
Qed.

(* widths *)
Definition wmax (b : list (list nat)) (c : nat) : nat := fold_right (fun ws m => Nat.max (nth c ws 0%nat) m) 0%nat b.
Lemma wmax_mid p ws r c : wmax (p ++ ws :: r) c = Nat.max (nth c ws 0%nat) (wmax (p ++ r) c).
Proof. induction p as [|x p IH]; cbn [app wmax fold_right]; auto. fold (wmax (p ++ ws :: r) c). fold (wmax (p ++ r) c). rewrite IH. lia. Qed.
Definition wcol (cols : list column) (c : nat) : nat := match nth_error cols c with Some col => co_width col | None => 0%nat end.
Lemma grows_width l l' : grows l l' -> forall c, (wcol l c <= wcol l' c)%nat.
Proof.
  unfold wcol. induction 1 as [l|l|l ws|l x b H1 H2 H3 H4 H5|x y z G1 IH1 G2 IH2]; intro c; auto.
  - rewrite nth_error_map. destruct (nth_error l c) as [col|]; cbn [option_map]; auto. pose proof (resolve_shape col) as (_ & _ & -> & _). auto.
  - revert ws c. induction l as [|x l IH]; intros [|w ws] [|c]; cbn [widen_all nth_error]; auto. cbn [widen co_width]. lia.
  - destruct (Nat.lt_ge_cases c (length l)) as [L|L]; [rewrite nth_error_app1 by auto; auto|]. rewrite (proj2 (nth_error_None l c)) by auto. lia.
  - specialize (IH1 c). specialize (IH2 c). lia.
Qed.
Lemma widen_width : forall l ws c, (c < length l)%nat -> wcol (widen_all l ws) c = Nat.max (wcol l c) (nth c ws 0%nat).
Proof.
  unfold wcol. induction l as [|x l IH]; intros [|w ws] c H; cbn [length] in H; [lia|lia| |].
  - cbn [widen_all]. replace (nth c [] 0%nat) with 0%nat by (destruct c; reflexivity). destruct (nth_error (x :: l) c); lia.
  - destruct c as [|c]; cbn [widen_all nth_error nth]; [reflexivity|]. apply IH. lia.
Qed.

(* sort columns are columns of the initial configuration; the list never gets shorter *)
Definition lenok (cols : list column) : Prop := (length (cols_init q) <= length cols)%nat /\ (forall c col, nth_error cols c = Some col -> co_ord col <> SNone -> (c < length (cols_init q))%nat).
Lemma grows_lenok l l' : grows l l' -> lenok l -> lenok l'.
Proof.
  induction 1 as [l|l|l ws|l c b H1 H2 H3 H4 H5|x y z G1 IH1 G2 IH2]; intros L; auto; destruct L as (L1 & L2).
  - split; [rewrite map_length; auto|]. intros c col E. rewrite nth_error_map in E. destruct (nth_error l c) as [c0|] eqn:E0; [|discriminate]. injection E as <-. pose proof (resolve_shape c0) as (_ & _ & _ & _ & ->). eauto.
  - split; [pose proof (grows_length l (widen_all l ws) (gr_widen l ws)); lia|]. intros c col E. apply nth_error_widen in E. destruct E as (c0 & [(E & _ & _ & ->)|E]); [cbn [widen co_ord]|]; eauto.
  - split; [rewrite app_length; lia|]. intros i col E N. destruct (Nat.lt_ge_cases i (length l)) as [K|K]; [rewrite nth_error_app1 in E by auto; eauto|].
    rewrite nth_error_app2 in E by auto. destruct (i - length l)%nat as [|k]; cbn [nth_error] in E; [injection E as <-; contradiction|destruct k; discriminate].
Qed.
Record tinv (recs : list (list entry)) (s : tstate) : Prop := mkti {
  ti_rows : exists ra rb all, Permutation recs (ra ++ rb) /\ Forall2 (rowok (tb_cols s)) ra (map fst (tb_a s)) /\ Forall2 (rowok (tb_cols s)) rb all /\ tb_rows s = filter (fun r => negb (forallb is_nil r)) all;
  ti_wa : Forall (fun p => forall c, (length (nth c (fst p) []) <= nth c (snd p) 0)%nat) (tb_a s);
  ti_wr : Forall (fun row => forall c, (length (nth c row []) <= Nat.max (wcol (tb_cols s) c) (wmax (tb_b s) c))%nat) (tb_rows s);
  ti_len : lenok (tb_cols s) /\ Forall (fun p => (length (cols_init q) <= length (fst p))%nat) (tb_a s) /\ Forall (fun r => (length (cols_init q) <= length r)%nat) (tb_rows s);
  ti_res : recs <> [] -> Forall (fun c => resolve c = c) (tb_cols s) }.
Lemma F2_imp {A B} (R S : A -> B -> Prop) l m : (forall a b, R a b -> S a b) -> Forall2 R l m -> Forall2 S l m.
Proof. intros H F. induction F; constructor; auto. Qed.
Lemma F2_mid {A B} (R : A -> B -> Prop) : forall p (x : B) r l, Forall2 R l (p ++ x :: r) -> exists l1 y l2, l = l1 ++ y :: l2 /\ R y x /\ Forall2 R (l1 ++ l2) (p ++ r).
Proof.
  induction p as [|z p IH]; intros x r l H; cbn [app] in H; inversion H as [|y z' l' m' H1 H2]; subst; [exists [], y, l'; auto|].
  destruct (IH x r l' H2) as (l1 & w & l2 & -> & Hw & Hl). exists (y :: l1), w, l2. repeat split; auto. cbn [app]. constructor; auto.
Qed.
Lemma comb_width rec cols c : (length (nth c (map (col_cell rec) cols) []) <= nth c (map (fun p => Nat.max (co_width (fst p)) (length (snd p))) (combine cols (map (col_cell rec) cols))) 0)%nat.
Proof. revert c. induction cols as [|x cols IH]; intros [|c]; cbn [map combine nth length fst snd]; auto; lia. Qed.
Lemma widen_resolved l ws : Forall (fun c => resolve c = c) l -> Forall (fun c => resolve c = c) (widen_all l ws).
Proof.
  revert ws. induction l as [|c l IH]; intros [|w ws] H; cbn [widen_all]; auto. inversion H as [|? ? Hc Hl]; subst. constructor; [|apply IH; auto].
  unfold FmtModel.resolve, widen in *. cbn [co_attr co_name co_disp co_width co_print co_ord]. destruct (co_attr c) eqn:E; auto. rewrite <- Hc in E. cbn [co_attr] in E. rewrite E. reflexivity.
Qed.
Lemma t_inv recs s : treach recs s -> tinv recs s.
Proof.
  induction 1 as [|s rec s' recs H IH S|s s' recs H IH S].
  - split; [exists [], [], []; repeat split; constructor|constructor|constructor| |congruence]. split; [|split; constructor]. split; [auto|]. intros c col E _. apply nth_error_Some. change (nth_error (cols_init q) c = Some col) in E. rewrite E. discriminate.
  - inversion S as [s0 rec0 cols row E0 E1 E2|  |]; subst. destruct IH as [(ra & rb & all & I1 & I2 & I3 & I4) Ia Ir (L1 & L2 & L3) Is]. pose proof (update_columns_grows (tb_cols s) rec) as G. split; cbn [tb_cols tb_rows tb_a tb_b].
    + exists (rec :: ra), rb, all. split; [|split; [|split; [|exact I4]]].
      * eapply perm_trans; [apply Permutation_sym; apply Permutation_cons_append|]. cbn [app]. constructor. auto.
      * cbn [map fst]. constructor; [apply new_row|]. eapply F2_imp; [|exact I2]. intros. eapply grows_row; eauto.
      * eapply F2_imp; [|exact I3]. intros. eapply grows_row; eauto.
    + constructor; auto. cbn [fst snd]. intro c. apply comb_width.
    + eapply Forall_impl; [|exact Ir]. cbv beta. intros r Hr c. specialize (Hr c). pose proof (grows_width _ _ G c). fold cols in H0. lia.
    + assert (L : lenok cols) by (eapply grows_lenok; eauto). split; auto. split; auto. constructor; auto. cbn [fst]. unfold row. rewrite map_length. apply L.
    + intros _. apply Forall_forall. intros c Hc. unfold cols, FmtModel.update_columns in Hc. apply in_map_iff in Hc. destruct Hc as (c0 & <- & _). apply resolve_idem.
  - destruct IH as [(ra & rb & all & I1 & I2 & I3 & I4) Ia Ir (L1 & L2 & L3) Is]. inversion S as [|s0 p row ws r E|s0 p ws r E]; subst; split; cbn [tb_cols tb_rows tb_a tb_b]; auto.
    + rewrite E, map_app in I2. cbn [map fst] in I2. apply F2_mid in I2. destruct I2 as (l1 & y & l2 & -> & Hy & HF). rewrite <- map_app in HF.
      exists (l1 ++ l2), (rb ++ [y]), (all ++ [row]). split; [|split; [exact HF|split; [apply Forall2_app; auto|]]].
      * eapply perm_trans; [exact I1|]. rewrite <- !app_assoc. cbn [app]. apply Permutation_app_head. rewrite app_assoc. apply Permutation_cons_append.
      * rewrite filter_app. cbn [filter]. rewrite I4. destruct (forallb is_nil row); cbn [negb]; auto. rewrite app_nil_r. reflexivity.
    + rewrite E in Ia. apply Forall_app in Ia. destruct Ia as (Ia1 & Ia2). inversion Ia2; subst. apply Forall_app. auto.
    + rewrite E in Ia. apply Forall_app in Ia. destruct Ia as (Ia1 & Ia2). inversion Ia2 as [|? ? Iw]; subst. cbn [fst snd] in Iw.
      assert (K : Forall (fun row => forall c, (length (nth c row []) <= Nat.max (wcol (tb_cols s) c) (wmax (ws :: tb_b s) c))%nat) (tb_rows s)).
      { eapply Forall_impl; [|exact Ir]. cbv beta. intros r0 Hr c. specialize (Hr c). cbn [wmax fold_right]. fold (wmax (tb_b s) c). lia. }
      destruct (forallb is_nil row); auto. apply Forall_app. split; auto. constructor; auto. intro c. specialize (Iw c). cbn [wmax fold_right]. lia.
    + rewrite E in L2. apply Forall_app in L2. destruct L2 as (K1 & K2). inversion K2; subst. split; auto. split; [apply Forall_app; auto|]. destruct (forallb is_nil row); auto. apply Forall_app. auto.
    + exists ra, rb, all. split; auto. pose proof (gr_widen (tb_cols s) ws) as G. split; [|split; auto]; eapply F2_imp; try (exact I2 || exact I3); intros; eapply grows_row; eauto.
    + apply Forall_forall. intros row Hrow c. pose proof (proj1 (Forall_forall _ _) Ir row Hrow c) as K. rewrite E, wmax_mid in K.
      destruct (Nat.lt_ge_cases c (length (tb_cols s))) as [L|L]; [rewrite widen_width by auto; lia|].
      rewrite I4 in Hrow. apply filter_In in Hrow. destruct Hrow as (Hin & _). assert (length row <= length (tb_cols s))%nat.
      { clear - Hin I3. induction I3 as [|? ? ? ? H1 ? IH]; [destruct Hin|]. destruct Hin as [<-|Hin]; [apply H1|auto]. }
      rewrite nth_overflow by lia. cbn [length]. lia.
    + split; auto. eapply grows_lenok; eauto. constructor.
    + intro Hr. apply widen_resolved. auto.
Qed.

(* ---------------- columns ---------------- *)
Definition shape (c : column) : bytes * bytes * option N * bool * sord := (co_name c, co_disp c, co_attr (resolve c), co_print c, co_ord c).
Definition ashape (a : N) : bytes * bytes * option N * bool * sord := (attr_name d a, display_name a, Some a, true, SNone).
Definition sort_ok : Prop := Forall (fun x => snd x <> SNone) (ts_sort q).
Definition colinv (recs : list (list entry)) (pre : list N) (cols : list column) : Prop :=
  exists autos, map shape cols = map shape (cols_init q) ++ map ashape autos /\ NoDup autos /\ (auto_column = false -> autos = []) /\
    (forall a, In a autos -> visible a = true /\ (In a pre \/ exists rec, In rec recs /\ In a (rec_attrs rec))).
Lemma shape_resolve c : shape (resolve c) = shape c.
Proof. unfold shape. pose proof (resolve_shape c) as (-> & -> & _ & -> & ->). rewrite resolve_idem. reflexivity. Qed.
Lemma shape_widen c w : shape (widen c w) = shape c.
Proof. unfold shape, FmtModel.resolve, widen. cbn [co_attr co_name co_disp co_print co_ord]. destruct (co_attr c) eqn:E; cbn [co_attr]; rewrite ?E; reflexivity. Qed.
Lemma shapes_resolve l : map shape (map resolve l) = map shape l.
Proof. rewrite map_map. apply map_ext. apply shape_resolve. Qed.
Lemma shapes_widen : forall l ws, map shape (widen_all l ws) = map shape l.
Proof. induction l as [|c l IH]; intros [|w ws]; cbn [widen_all map]; auto. rewrite IH, shape_widen. reflexivity. Qed.
Lemma own_shape a cols autos : sort_ok -> auto_column = true -> map shape cols = map shape (cols_init q) ++ map ashape autos -> In a autos ->
  Forall (fun c => co_ord c = SNone -> resolve c = c) cols -> existsb (own_col a) cols = true.
Proof.
  intros S A E Hin HR. assert (K : In (ashape a) (map shape cols)) by (rewrite E; apply in_or_app; right; apply in_map; auto).
  apply in_map_iff in K. destruct K as (c & K1 & K2). apply existsb_exists. exists c. split; auto. unfold shape, ashape in K1. injection K1 as _ _ K3 _ K5.
  unfold own_col, has_attr. rewrite K5. cbn [is_snone andb]. rewrite Forall_forall in HR. rewrite <- (HR c K2 K5), K3. apply N.eqb_refl.
Qed.
Lemma colinv_step recs : sort_ok -> forall l pre cols, auto_column = true -> colinv recs pre cols -> Forall (fun c => co_ord c = SNone -> resolve c = c) cols ->
  colinv recs (pre ++ l) (fold_left update_col l cols) /\ Forall (fun c => co_ord c = SNone -> resolve c = c) (fold_left update_col l cols).
Proof.
  intros S. induction l as [|a l IH]; intros pre cols A C HR; cbn [fold_left]; [rewrite app_nil_r; auto|].
  replace (pre ++ a :: l) with ((pre ++ [a]) ++ l) by (rewrite <- app_assoc; reflexivity).
  assert (W : colinv recs (pre ++ [a]) cols).
  { destruct C as (autos & C1 & C2 & C3 & C4). exists autos. repeat split; auto; destruct (C4 _ H) as (V & [K|K]); auto. left. apply in_or_app. auto. }
  apply IH; auto; unfold FmtModel.update_col; change (fun c => is_snone (co_ord c) && has_attr a c) with (own_col a).
  - destruct (existsb (own_col a) cols) eqn:E; auto. destruct (is_attr d a) eqn:V1; cbn [negb orb]; auto. destruct (is_hidden d a) eqn:V2; cbn [orb]; auto. destruct (is_global d a) eqn:V3; auto.
    destruct C as (autos & C1 & C2 & C3 & C4). exists (autos ++ [a]). split; [|split; [|split; [intro; congruence|]]].
    + rewrite !map_app, C1, <- app_assoc. reflexivity.
    + apply (Permutation_NoDup (Permutation_cons_append autos a)). constructor; auto. intro Hin. rewrite (own_shape a cols autos S A C1 Hin HR) in E. discriminate.
    + intros b Hb. apply in_app_or in Hb. destruct Hb as [Hb|[<-|[]]]; [destruct (C4 b Hb) as (V & [K|K]); split; auto; left; apply in_or_app; auto|].
      split; [unfold visible; rewrite V1, V2, V3; reflexivity|]. left. apply in_or_app. right. left. reflexivity.
  - destruct (existsb (own_col a) cols); auto. destruct (negb (is_attr d a) || is_hidden d a || is_global d a); auto. apply Forall_app. split; auto.
Qed.
Lemma init_unsorted : sort_ok -> auto_column = true -> Forall (fun c => co_ord c = SNone -> resolve c = c) (cols_init q).
Proof.
  intros S A. unfold cols_init, FmtModel.auto_column in *. destruct (ts_sel q); [discriminate|]. rewrite app_nil_r. unfold sort_ok in S. apply Forall_forall. intros c Hc Ho. apply in_map_iff in Hc. destruct Hc as (x & <- & Hx). cbn [co_ord] in Ho.
  rewrite Forall_forall in S. exfalso. apply (S x Hx Ho).
Qed.
Lemma colinv_reach recs s : sort_ok -> treach recs s -> colinv recs [] (tb_cols s) /\ (auto_column = true -> Forall (fun c => co_ord c = SNone -> resolve c = c) (tb_cols s)) /\ Forall (covered (tb_cols s)) recs.
Proof.
  intros S. induction 1 as [|s rec s' recs H IH St|s s' recs H IH St].
  - split; [|split; [apply init_unsorted; auto|constructor]]. exists []. rewrite app_nil_r. repeat split; auto; try constructor; destruct H.
  - assert (Ecol : tb_cols s' = update_columns (tb_cols s) rec) by (inversion St; subst; reflexivity). rewrite Ecol. clear St Ecol. destruct IH as (C & HR & HC). split; [|split].
    + unfold FmtModel.update_columns. destruct auto_column eqn:A.
      * destruct (colinv_step recs S (rec_attrs rec) [] (tb_cols s) A C (HR eq_refl)) as ((autos & C1 & C2 & C3 & C4) & _). exists autos. rewrite shapes_resolve. split; auto. split; auto. split; auto. intros a Ha. destruct (C4 a Ha) as (V & K). split; auto. right.
        destruct K as [K|(r & K1 & K2)]; [exists rec|exists r]; split; auto; apply in_or_app; [right; left|left]; auto.
      * destruct C as (autos & C1 & C2 & C3 & C4). exists autos. rewrite shapes_resolve. rewrite A in *. repeat split; auto; rewrite (C3 eq_refl) in *; try destruct H0.
    + intros _. unfold FmtModel.update_columns. apply Forall_forall. intros c Hc _. apply in_map_iff in Hc. destruct Hc as (c0 & <- & _). apply resolve_idem.
    + apply Forall_app. split; [|repeat constructor; apply update_columns_covers]. eapply Forall_impl; [|exact HC]. intros r Hr. eapply grows_covered; eauto. apply update_columns_grows.
  - destruct IH as (C & HR & HC). inversion St; subst; cbn [tb_cols]; auto. split; [|split].
    + destruct C as (autos & C1 & C2). exists autos. rewrite shapes_widen. auto.
    + intro A. specialize (HR A). clear - HR. revert ws HR. induction (tb_cols s) as [|c l IH]; intros [|w ws] HR; cbn [widen_all]; auto. inversion HR as [|? ? Hc Hl]; subst. constructor; auto.
      cbn [widen co_ord]. intro Ho. specialize (Hc Ho). unfold FmtModel.resolve, widen in *. cbn [co_attr co_name co_disp co_width co_print co_ord]. destruct (co_attr c) eqn:E; auto. rewrite <- Hc in E. cbn [co_attr] in E. rewrite E. reflexivity.
    + eapply Forall_impl; [|exact HC]. intros rc Hr. eapply grows_covered; eauto. constructor.
Qed.

(* ---------------- theorems ---------------- *)
Definition quiescent (s : tstate) : Prop := tb_a s = [] /\ tb_b s = [].
Notation table_rows := (table_rows dparse d).
Notation row_line := (row_line d q).
Notation field := (field d q).
Lemma is_nil_iff b : is_nil b = true <-> b = []. Proof. destruct b; split; auto; discriminate. Qed.
Lemma shown_iff cols rec row : rowok cols rec row -> Forall (fun c => resolve c = c) cols -> negb (forallb is_nil row) = existsb (fun c => negb (is_nil (col_cell rec c))) cols.
Proof.
  intros (R1 & R2 & R3) HR. destruct (existsb _ cols) eqn:E.
  - apply existsb_exists in E. destruct E as (col & E1 & E2). apply In_nth_error in E1. destruct E1 as (c & E1). pose proof (R3 c col E1) as K. rewrite (proj1 (Forall_forall _ _) HR col) in K by (eapply nth_error_In; eauto).
    apply negb_true_iff. destruct (forallb is_nil row) eqn:F; auto. rewrite forallb_forall in F. rewrite <- K in E2. destruct (Nat.lt_ge_cases c (length row)) as [L|L].
    + rewrite (F (nth c row [])) in E2; [discriminate|apply nth_In; auto].
    + rewrite nth_overflow in E2 by auto. discriminate.
  - apply negb_false_iff. apply forallb_forall. intros x Hx. apply (In_nth row x ([] : bytes)) in Hx. destruct Hx as (c & L & <-). destruct (nth_error cols c) as [col|] eqn:Ec; [|apply nth_error_None in Ec; lia].
    rewrite (R3 c col Ec), (proj1 (Forall_forall _ _) HR col) by (eapply nth_error_In; eauto). destruct (is_nil (col_cell rec col)) eqn:Nn; auto. rewrite <- E. apply existsb_exists. exists col. split; [eapply nth_error_In; eauto|]. rewrite Nn. reflexivity.
Qed.
(* Whatever number of threads add records, in whatever order their steps interleave: the table has
   exactly one row for each record that has a value in some column, and its cells are the record's values *)
Theorem C53_rows_complete recs s : treach recs s -> quiescent s ->
  exists shown, Permutation shown (filter (fun rec => existsb (fun c => negb (is_nil (col_cell rec c))) (tb_cols s)) recs) /\
    Forall2 (fun rec row => forall c col, nth_error (tb_cols s) c = Some col -> nth c row [] = col_cell rec col) shown (tb_rows s).
Proof.
  intros H (Qa & _). destruct (t_inv recs s H) as [(ra & rb & all & I1 & I2 & I3 & I4) _ _ _ Is]. rewrite Qa in I2. inversion I2; subst. cbn [app] in I1.
  destruct recs as [|rec0 recs]; [apply Permutation_nil in I1; subst rb; inversion I3; subst; rewrite I4; exists []; split; constructor|]. specialize (Is ltac:(discriminate)).
  exists (filter (fun rec => existsb (fun c => negb (is_nil (col_cell rec c))) (tb_cols s)) rb). split.
  - assert (P : forall l m, Permutation l m -> Permutation (filter (fun rec => existsb (fun c => negb (is_nil (col_cell rec c))) (tb_cols s)) l) (filter (fun rec => existsb (fun c => negb (is_nil (col_cell rec c))) (tb_cols s)) m)).
    { induction 1 as [|x l m P IH|x y l|l m n P1 IH1 P2 IH2]; cbn [filter]; auto; [destruct (existsb _ _); auto| |eapply perm_trans; eauto].
      destruct (existsb (fun c => negb (is_nil (col_cell x c))) (tb_cols s)), (existsb (fun c => negb (is_nil (col_cell y c))) (tb_cols s)); auto. apply perm_swap. }
    apply P. apply Permutation_sym. exact I1.
  - rewrite I4. clear - I3 Is. induction I3 as [|rec row rb all R F IH]; cbn [filter]; [constructor|]. rewrite (shown_iff _ _ _ R Is). destruct (existsb _ (tb_cols s)); auto. constructor; auto.
    intros c col E. destruct R as (_ & _ & R3). transitivity (col_cell rec (resolve col)); [exact (R3 c col E)|]. f_equal. apply (proj1 (Forall_forall _ _) Is col). eapply nth_error_In; eauto.
Qed.

(* the value shown: an immediate entry's value; a reference entry's values from the outermost to the innermost, with slashes *)
Definition joined (l : list bytes) : bytes := match l with [] => [] | x :: r => x ++ flat_map (fun t => FmtModel.slash :: t) r end.
Definition path_texts (a : N) (i : N) : list bytes := map (fun x => vtext (snd x)) (filter (fun x => fst x =? a) (rev (node_path d i))).
Lemma joined_cons x l : joined (x :: l) = x ++ match l with [] => [] | _ => FmtModel.slash :: joined l end.
Proof. destruct l; reflexivity. Qed.
Lemma joined_ne l : Forall (fun t => t <> []) l -> l <> [] -> joined l <> [].
Proof. destruct l as [|x l]; [congruence|]. intros H _. inversion H; subst. destruct x; [congruence|]. discriminate. Qed.
Lemma ref_text_joined a i : Forall (fun t => t <> []) (path_texts a i) -> ref_text vtext d a i = joined (path_texts a i).
Proof.
  unfold ref_text, path_texts. rewrite <- fold_left_rev_right. generalize (rev (node_path d i)). clear. intro l. induction l as [|x l IH]; [reflexivity|]. cbn [fold_right filter]. intro H.
  destruct (fst x =? a) eqn:E; [|apply IH; auto]. cbn [map] in *. inversion H as [|? ? Hx Hl]; subst. rewrite (IH Hl), joined_cons. f_equal.
  destruct (map (fun x => vtext (snd x)) (filter (fun x => fst x =? a) l)) as [|y r] eqn:E2; [reflexivity|]. destruct (joined (y :: r)) eqn:E3; [exfalso; eapply joined_ne; eauto; discriminate|reflexivity].
Qed.
Theorem C53_cell_values a pre : ~ In a (rec_attrs pre) ->
  (forall v post, cell a (pre ++ EImm a v :: post) = vtext v) /\
  (forall i post, path_texts a i <> [] -> Forall (fun t => t <> []) (path_texts a i) -> cell a (pre ++ ERef i :: post) = joined (path_texts a i)) /\
  cell a pre = [].
Proof.
  intro H. split; [|split; [|apply cell_none; auto]].
  - intros v post. induction pre as [|[i|b w] pre IH]; cbn [app FmtModel.cell]; [rewrite N.eqb_refl; reflexivity| |]; unfold FmtModel.rec_attrs in *; cbn [flat_map] in H; rewrite in_app_iff in H.
    + unfold ref_text. rewrite ref_text_none by tauto. apply IH. tauto.
    + destruct (N.eqb_spec b a); [exfalso; apply H; left; left; auto|]. apply IH. tauto.
  - intros i post N1 N2. induction pre as [|[j|b w] pre IH]; cbn [app FmtModel.cell]; [|unfold FmtModel.rec_attrs in *; cbn [flat_map] in H; rewrite in_app_iff in H|unfold FmtModel.rec_attrs in *; cbn [flat_map] in H; rewrite in_app_iff in H].
    + rewrite ref_text_joined by auto. destruct (joined (path_texts a i)) eqn:E; auto. exfalso. eapply joined_ne; eauto.
    + unfold ref_text at 1. rewrite ref_text_none by tauto. apply IH. tauto.
    + destruct (N.eqb_spec b a); [exfalso; apply H; left; left; auto|]. apply IH. tauto.
Qed.

(* With a SELECT list the printed columns are that list, in its order and under its aliases *)
Theorem C53_select_columns recs s l : sort_ok -> treach recs s -> recs <> [] -> ts_sel q = Some l ->
  map (fun c => (co_name c, co_disp c, co_attr c)) (filter co_print (tb_cols s)) =
  map (fun x => (x, match lookup_alias (ts_alias q) x with Some a => a | None => x end, get_attr d x)) l.
Proof.
  intros So H Hne El. destruct (colinv_reach recs s So H) as ((autos & C1 & _ & C3 & _) & _ & _). destruct (t_inv recs s H) as [_ _ _ _ Is]. specialize (Is Hne).
  rewrite C3 in C1 by (unfold FmtModel.auto_column; rewrite El; reflexivity). rewrite app_nil_r in C1.
  transitivity (map (fun x => fst (fst x)) (filter (fun x => snd (fst x)) (map shape (tb_cols s)))).
  - clear - Is. induction (tb_cols s) as [|c l0 IH]; cbn [filter map]; auto. inversion Is as [|? ? Hc Hl]; subst. assert (Es : shape c = (co_name c, co_disp c, co_attr c, co_print c, co_ord c)) by (unfold shape; rewrite Hc; reflexivity). rewrite Es. cbn [fst snd]. destruct (co_print c); cbn [map fst]; rewrite IH by auto; reflexivity.
  - rewrite C1. unfold cols_init. rewrite El, map_app, filter_app, map_app. assert (E0 : forall k : list (bytes * sord), filter (fun x => snd (fst x)) (map shape (map (fun s => mkcol (fst s) (fst s) (length (fst s)) None false (snd s)) k)) = []) by (induction k; cbn [map filter]; auto).
    rewrite E0. cbn [map app]. clear. induction l as [|x l IH]; cbn [map filter]; auto. unfold shape at 1. cbn [co_name co_disp co_print co_ord snd fst FmtModel.resolve co_attr map]. rewrite IH. reflexivity.
Qed.
(* Without one there is one printed column for each attribute in the records that is not hidden or global, and no other *)
Theorem C53_auto_columns recs s : sort_ok -> treach recs s -> ts_sel q = None ->
  exists autos, NoDup autos /\ (forall a, In a autos <-> visible a = true /\ exists rec, In rec recs /\ In a (rec_attrs rec)) /\
    map shape (filter co_print (tb_cols s)) = map (fun a => (attr_name d a, display_name a, Some a, true, SNone)) autos.
Proof.
  intros So H El. destruct (colinv_reach recs s So H) as ((autos & C1 & C2 & _ & C4) & HR & HC). assert (A : auto_column = true) by (unfold FmtModel.auto_column; rewrite El; reflexivity).
  exists autos. split; auto. split.
  - intro a. split; [intro Ha; destruct (C4 a Ha) as (V & [[]|K]); auto|]. intros (V & rec & Hr & Ha). rewrite Forall_forall in HC. specialize (HC rec Hr A a Ha V). apply existsb_exists in HC. destruct HC as (c & Hc & Ho).
    assert (K : In (shape c) (map shape (tb_cols s))) by (apply in_map; auto). rewrite C1 in K. unfold own_col in Ho. apply andb_true_iff in Ho. destruct Ho as (Ho1 & Ho2). apply in_app_or in K. destruct K as [K|K].
    + exfalso. unfold cols_init in K. rewrite El, app_nil_r in K. apply in_map_iff in K. destruct K as (c' & K1 & K2). apply in_map_iff in K2. destruct K2 as (x & <- & Hx). unfold shape in K1. injection K1 as _ _ _ _ K5. cbn [co_ord] in K5. rewrite <- K5 in Ho1. unfold sort_ok in So. rewrite Forall_forall in So. specialize (So x Hx). destruct (snd x); [congruence|discriminate|discriminate].
    + apply in_map_iff in K. destruct K as (b & K1 & K2). unfold shape, ashape in K1. injection K1 as _ _ K3 _ _. unfold has_attr in Ho2. unfold FmtModel.resolve in K3. destruct (co_attr c) as [x|] eqn:Ex; [|discriminate]. rewrite Ex in K3. injection K3 as K3. apply N.eqb_eq in Ho2. subst. auto.
  - transitivity (filter (fun x => snd (fst x)) (map shape (tb_cols s))); [clear; induction (tb_cols s) as [|c l IH]; cbn [filter map]; auto; unfold shape at 2; cbn [fst snd]; destruct (co_print c); cbn [map]; rewrite IH; reflexivity|].
    rewrite C1, filter_app. unfold cols_init. rewrite El, app_nil_r. assert (E0 : forall k : list (bytes * sord), filter (fun x => snd (fst x)) (map shape (map (fun s => mkcol (fst s) (fst s) (length (fst s)) None false (snd s)) k)) = []) by (induction k; cbn [map filter]; auto).
    rewrite E0. cbn [app]. clear. induction autos as [|a l IH]; cbn [map filter]; auto. unfold ashape at 1. cbn [fst snd]. rewrite IH. reflexivity.
Qed.

(* ---------------- layout ---------------- *)
Lemma sort_rows_perm : forall cols c rows, Permutation rows (sort_rows dparse d cols c rows).
Proof. induction cols as [|col cols IH]; intros c rows; cbn [sort_rows]; auto. eapply perm_trans; [|apply IH]. destruct (is_snone (co_ord col)); auto. apply ssort_perm. Qed.
Definition offset (cols : list column) (c : nat) : nat := fold_right (fun col n => if co_print col then S (column_width (co_width col)) + n else n)%nat 0%nat (firstn c cols).
Lemma field_length col x : length (field col x) = S (column_width (co_width col)).
Proof.
  unfold FmtModel.field. set (w := column_width (co_width col)). pose proof (clamp_length x w). destruct (right_aligned (col_type d col)); [rewrite pad_left_spec by auto|rewrite pad_right_spec by auto]; rewrite !app_length, repeat_length; cbn [length]; lia.
Qed.
Lemma head_length col : length (pad_right (clamp (co_disp col) (column_width (co_width col))) (column_width (co_width col))) = S (column_width (co_width col)).
Proof. set (w := column_width (co_width col)). pose proof (clamp_length (co_disp col) w). rewrite pad_right_spec by auto. rewrite app_length, repeat_length. lia. Qed.
Lemma width_fits w (x : bytes) : (length x <= w)%nat -> (ts_max q <= 0)%Z \/ (Z.of_nat (length x) <= ts_max q)%Z -> (length x <= column_width w)%nat.
Proof. intros H1 H2. unfold FmtModel.column_width. destruct (Z.ltb_spec 0 (ts_max q)); lia. Qed.
Lemma firstn_exact {A} (l r : list A) n : n = length l -> firstn n (l ++ r) = l. Proof. intros ->. apply firstn_app_exact. Qed.
Lemma flat_at {A} (f : A -> list N) : forall (l : list A) c x rest, nth_error l c = Some x -> exists pre post, flat_map f l ++ rest = pre ++ f x ++ post /\ length pre = length (flat_map f (firstn c l)).
Proof.
  induction l as [|y l IH]; intros c x rest E; [destruct c; discriminate|]. destruct c as [|c]; cbn [nth_error] in E.
  - injection E as ->. exists [], (flat_map f l ++ rest). cbn [flat_map firstn app]. rewrite <- app_assoc. auto.
  - destruct (IH c x rest E) as (pre & post & E1 & E2). exists (f y ++ pre), post. cbn [flat_map firstn]. rewrite <- !app_assoc, E1, !app_length, E2. auto.
Qed.
Lemma firstn_combine {A B} : forall c (l : list A) (m : list B), firstn c (combine l m) = combine (firstn c l) (firstn c m).
Proof. induction c as [|c IH]; intros [|x l] [|y m]; cbn [firstn combine]; auto. rewrite IH. reflexivity. Qed.
Lemma nth_error_combine {A B} : forall (l : list A) (m : list B) c x y, nth_error l c = Some x -> nth_error m c = Some y -> nth_error (combine l m) c = Some (x, y).
Proof. induction l as [|a l IH]; intros m c x y H1 H2; [destruct c; discriminate|]. destruct m as [|b m]; [destruct c; discriminate|]. destruct c; cbn [nth_error combine] in *; [congruence|auto]. Qed.
Lemma offset_row : forall cols row c, (c <= length row)%nat -> (c <= length cols)%nat -> length (flat_map (fun p => if co_print (fst p) then field (fst p) (snd p) else []) (firstn c (combine cols row))) = offset cols c.
Proof.
  intros cols row c. rewrite firstn_combine. unfold offset. revert cols row. induction c as [|c IH]; intros [|col cols] [|x row] H1 H2; cbn [length] in *; try lia; try reflexivity.
  cbn [firstn combine flat_map fold_right fst snd]. rewrite app_length, IH by lia. destruct (co_print col); [rewrite field_length|]; cbn [length]; lia.
Qed.
Lemma offset_head : forall cols c, length (flat_map (fun c => if co_print c then let w := column_width (co_width c) in pad_right (clamp (co_disp c) w) w else []) (firstn c cols)) = offset cols c.
Proof.
  intros cols c. unfold offset. revert cols. induction c as [|c IH]; intros [|col cols]; cbn [firstn flat_map fold_right]; auto. rewrite app_length, IH. destruct (co_print col); [cbv zeta; rewrite head_length|]; cbn [length]; lia.
Qed.
(* In every line of the output the text of column c starts at the same place, under the column's name,
   and takes the same room; numbers are flush right, other texts flush left; a text is complete unless
   it is longer than the column-width limit *)
Theorem C53_layout recs s row c col x : treach recs s -> quiescent s -> In row (table_rows s) -> nth_error (tb_cols s) c = Some col -> co_print col = true -> nth_error row c = Some x ->
  let w := column_width (co_width col) in
  (exists k, firstn (S w) (skipn (offset (tb_cols s) c) (row_line (tb_cols s) row)) = repeat sp k ++ clamp x w ++ repeat sp (S w - k - length (clamp x w)) /\
     k = (if right_aligned (col_type d col) then w - length (clamp x w) else 0)%nat) /\
  firstn (S w) (skipn (offset (tb_cols s) c) (header q (tb_cols s))) = clamp (co_disp col) w ++ repeat sp (S w - length (clamp (co_disp col) w)) /\
  ((ts_max q <= 0)%Z \/ (Z.of_nat (length x) <= ts_max q)%Z -> clamp x w = x).
Proof.
  intros H (Qa & Qb) Hin Ec Hp Ex w. pose proof (clamp_length x w) as CL. pose proof (clamp_length (co_disp col) w) as CD.
  assert (Lc : (c < length (tb_cols s))%nat) by (apply nth_error_Some; rewrite Ec; discriminate). assert (Lr : (c < length row)%nat) by (apply nth_error_Some; rewrite Ex; discriminate).
  split; [|split].
  - exists (if right_aligned (col_type d col) then w - length (clamp x w) else 0)%nat. split; [|reflexivity].
    pose proof (nth_error_combine _ _ c col x Ec Ex) as Ep. unfold FmtModel.row_line.
    destruct (flat_at (fun p => if co_print (fst p) then field (fst p) (snd p) else []) (combine (tb_cols s) row) c (col, x) [c_nl] Ep) as (pre & post & E1 & E2).
    rewrite offset_row in E2 by lia. rewrite E1. cbn [fst snd]. rewrite Hp. rewrite <- E2. rewrite skipn_app_exact. rewrite firstn_exact by (symmetry; apply field_length).
    unfold FmtModel.field. fold w. destruct (right_aligned (col_type d col)); [rewrite pad_left_spec by auto|rewrite pad_right_spec by auto].
    + f_equal. f_equal. replace (S w - (w - length (clamp x w)) - length (clamp x w))%nat with 1%nat by lia. reflexivity.
    + rewrite Nat.sub_0_r. reflexivity.
  - destruct (flat_at (fun c => if co_print c then let w := column_width (co_width c) in pad_right (clamp (co_disp c) w) w else []) (tb_cols s) c col [c_nl] Ec) as (pre & post & E1 & E2).
    rewrite offset_head in E2. match type of E1 with _ = ?R => assert (Eh : header q (tb_cols s) = R) by exact E1 end. rewrite Eh, <- E2, skipn_app_exact, Hp. cbv zeta. fold w. rewrite firstn_exact by (symmetry; apply head_length). apply pad_right_spec. auto.
  - intro Hm. apply clamp_fits. apply width_fits; auto. destruct (t_inv recs s H) as [_ _ Iw _ _]. rewrite Qb in Iw.
    pose proof (Permutation_in _ (Permutation_sym (sort_rows_perm (tb_cols s) 0 (tb_rows s))) Hin) as Hin'. pose proof (proj1 (Forall_forall _ _) Iw row Hin' c) as K. cbn [wmax fold_right] in K. unfold wcol in K. rewrite Ec in K. rewrite (nth_error_nth _ _ [] Ex) in K. lia.
Qed.

(* ---------------- order ---------------- *)
Definition colkey (c : nat) (col : column) (row : list bytes) : value := from_string dparse (col_type d col) (nth c row []).
Definition colcmp (c : nat) (col : column) (l r : list bytes) : comparison :=
  match co_ord col with SNone => Eq | SAsc => vorder (colkey c col l) (colkey c col r) | SDesc => vorder (colkey c col r) (colkey c col l) end.
(* the last ORDER BY attribute counts most; earlier ones decide among rows that are equal there *)
Fixpoint rowcmp (cols : list column) (c : nat) (l r : list bytes) : comparison :=
  match cols with [] => Eq | col :: rest => match rowcmp rest (S c) l r with Eq => colcmp c col l r | x => x end end.
(* the keys are values that can be compared exactly (C09) *)
Definition keys_ok (cols : list column) (c : nat) (rows : list (list bytes)) : Prop :=
  forall i col, nth_error cols i = Some col -> co_ord col <> SNone -> forall l r, In l rows -> In r rows ->
    in_range (colkey (c + i) col l) /\ not_nan (colkey (c + i) col l) /\ cmp_exact (colkey (c + i) col l) (colkey (c + i) col r).
Definition long (cols : list column) (c : nat) (rows : list (list bytes)) : Prop :=
  forall i col, nth_error cols i = Some col -> co_ord col <> SNone -> forall l, In l rows -> (c + i < length l)%nat.
Section COL.
Variable c : nat. Variable col : column. Variable rows : list (list bytes).
Hypothesis Ho : co_ord col <> SNone.
Hypothesis Hl : forall l, In l rows -> (c < length l)%nat.
Hypothesis Hk : forall l r, In l rows -> In r rows -> in_range (colkey c col l) /\ not_nan (colkey c col l) /\ cmp_exact (colkey c col l) (colkey c col r).
Lemma col_lt a b : In a rows -> In b rows -> row_lt dparse d c col a b = match colcmp c col a b with Lt => true | _ => false end.
Proof.
  intros Ha Hb. unfold row_lt, colcmp. rewrite (nth_error_nth' a [] (Hl a Ha)), (nth_error_nth' b [] (Hl b Hb)). cbv zeta. fold (colkey c col a). fold (colkey c col b).
  destruct (Hk a b Ha Hb) as (Ra & Na & Ex), (Hk b a Hb Ha) as (Rb & Nb & _). destruct (co_ord col); [congruence| |].
  - destruct (vltb (colkey c col a) (colkey c col b)) eqn:E; [apply vltb_order in E; auto; rewrite E; auto|]. destruct (vorder (colkey c col a) (colkey c col b)) eqn:E2; auto. apply (vltb_order _ _ Ra Rb Ex) in E2. congruence.
  - rewrite (vorder_antisym (colkey c col a) (colkey c col b)) by auto. destruct (vgtb (colkey c col a) (colkey c col b)) eqn:E; [apply vgtb_order in E; auto; rewrite E; auto|]. destruct (vorder (colkey c col a) (colkey c col b)) eqn:E2; auto. apply (vgtb_order _ _ Ra Rb Ex) in E2. congruence.
Qed.
Lemma col_anti a b : In a rows -> In b rows -> colcmp c col b a = CompOpp (colcmp c col a b).
Proof. intros Ha Hb. destruct (Hk a a Ha Ha) as (_ & Na & _), (Hk b b Hb Hb) as (_ & Nb & _). unfold colcmp. destruct (co_ord col); auto; apply vorder_antisym; auto. Qed.
Lemma col_eq a b x : In a rows -> In b rows -> In x rows -> colcmp c col a b = Eq -> colcmp c col a x = colcmp c col b x.
Proof.
  intros Ha Hb Hx. destruct (Hk a a Ha Ha) as (_ & Na & _), (Hk b b Hb Hb) as (_ & Nb & _), (Hk x x Hx Hx) as (_ & Nx & _). unfold colcmp. destruct (co_ord col); auto; intro E; [apply vorder_eq_l; auto|].
  symmetry. apply vorder_eq_r; auto.
Qed.
Lemma col_trans a b x : In a rows -> In b rows -> In x rows -> colcmp c col a b = Lt -> colcmp c col b x = Lt -> colcmp c col a x = Lt.
Proof.
  intros Ha Hb Hx. destruct (Hk a a Ha Ha) as (_ & Na & _), (Hk b b Hb Hb) as (_ & Nb & _), (Hk x x Hx Hx) as (_ & Nx & _). unfold colcmp. destruct (co_ord col); try discriminate; intros E1 E2; [apply vorder_trans with (colkey c col b); auto|].
  apply vorder_trans with (colkey c col b); auto.
Qed.
End COL.
Lemma sort_rows_spec : forall cols c rows P, long cols c rows -> keys_ok cols c rows -> StronglySorted P rows ->
  StronglySorted (fun a b => rowcmp cols c a b = Lt \/ (rowcmp cols c a b = Eq /\ P a b)) (sort_rows dparse d cols c rows) /\
  (forall z, In z rows -> filter (fun y => match rowcmp cols c z y with Eq => true | _ => false end) (sort_rows dparse d cols c rows) = filter (fun y => match rowcmp cols c z y with Eq => true | _ => false end) rows).
Proof.
  induction cols as [|col cols IH]; intros c rows P HL HK HS; cbn [sort_rows rowcmp].
  { split; [|reflexivity]. clear HL HK. induction HS as [|x l S IHS F]; constructor; auto. eapply Forall_impl; [|exact F]. auto. }
  assert (Lr : long cols (S c) rows) by (intros i x E; rewrite Nat.add_succ_comm; apply (HL (S i)); exact E).
  assert (Kr : keys_ok cols (S c) rows) by (intros i x E; rewrite Nat.add_succ_comm; apply (HK (S i)); exact E).
  destruct (is_snone (co_ord col)) eqn:So.
  - assert (E0 : forall a b, colcmp c col a b = Eq) by (intros; unfold colcmp; destruct (co_ord col); auto; discriminate).
    destruct (IH (S c) rows P Lr Kr HS) as (I1 & I2). split.
    + clear - I1 E0. induction I1 as [|x l S IHS F]; constructor; auto. eapply Forall_impl; [|exact F]. cbv beta. intros b [->|(-> & HP)]; [left|right; rewrite E0]; auto.
    + intros z Hz. assert (E1 : forall y, match match rowcmp cols (S c) z y with Eq => colcmp c col z y | x => x end with Eq => true | _ => false end = match rowcmp cols (S c) z y with Eq => true | _ => false end) by (intro y; rewrite E0; destruct (rowcmp cols (S c) z y); auto).
      erewrite filter_ext by (intro; apply E1). rewrite I2 by auto. symmetry. apply filter_ext. apply E1.
  - assert (Ho : co_ord col <> SNone) by (destruct (co_ord col); discriminate).
    assert (Hl : forall l, In l rows -> (c < length l)%nat) by (intros l Hin; specialize (HL 0%nat col eq_refl Ho l Hin); lia).
    assert (Hk : forall l r, In l rows -> In r rows -> in_range (colkey c col l) /\ not_nan (colkey c col l) /\ cmp_exact (colkey c col l) (colkey c col r)).
    { intros l r Hin Hr. pose proof (HK 0%nat col eq_refl Ho l r Hin Hr) as K. rewrite Nat.add_0_r in K. exact K. }
    set (D := fun x => In x rows). assert (FD : Forall D rows) by (apply Forall_forall; auto).
    assert (Hin' : forall x, In x (ssort (row_lt dparse d c col) rows) <-> In x rows) by (intro; apply ssort_in).
    assert (Lr' : long cols (S c) (ssort (row_lt dparse d c col) rows)) by (intros i x E N0 l Hin; apply (Lr i x E N0 l); apply Hin'; auto).
    assert (Kr' : keys_ok cols (S c) (ssort (row_lt dparse d c col) rows)) by (intros i x E N0 l r Hin Hr; apply (Kr i x E N0 l r); apply Hin'; auto).
    pose proof (ssort_sorted (colcmp c col) (row_lt dparse d c col) D (col_lt c col rows Ho Hl Hk) (col_anti c col rows Ho Hk) (col_eq c col rows Ho Hk) (col_trans c col rows Ho Hk) P rows FD HS) as S1.
    destruct (IH (S c) (ssort (row_lt dparse d c col) rows) (lexp (colcmp c col) P) Lr' Kr' S1) as (I1 & I2). split.
    + clear - I1. induction I1 as [|x l S IHS F]; constructor; auto. eapply Forall_impl; [|exact F]. cbv beta. intros b [->|(-> & [HP|(HP & HQ)])]; auto.
    + intros z Hz. specialize (I2 z (proj2 (Hin' z) Hz)). pose proof (ssort_stable (colcmp c col) (row_lt dparse d c col) D (col_lt c col rows Ho Hl Hk) (col_eq c col rows Ho Hk) rows z Hz FD) as S2.
      set (f := fun y => match rowcmp cols (S c) z y with Eq => true | _ => false end) in *. set (g := fun y => match colcmp c col z y with Eq => true | _ => false end) in *.
      assert (E1 : forall l, filter (fun y => match match rowcmp cols (S c) z y with Eq => colcmp c col z y | x => x end with Eq => true | _ => false end) l = filter g (filter f l)).
      { induction l as [|y l IHl]; cbn [filter]; auto. unfold f at 1. destruct (rowcmp cols (S c) z y); cbn [filter]; auto. fold (g y). unfold g at 1 2. destruct (colcmp c col z y); rewrite IHl; auto. }
      assert (E2 : forall l, filter g (filter f l) = filter f (filter g l)).
      { induction l as [|y l IHl]; cbn [filter]; auto. destruct (f y) eqn:F1, (g y) eqn:F2; cbn [filter]; rewrite ?F1, ?F2, IHl; auto. }
      rewrite !E1, I2, !E2, S2. reflexivity.
Qed.
(* The rows come out in the requested order, and rows with equal keys in the order they were added *)
Theorem C53_sorted recs s : treach recs s -> quiescent s -> keys_ok (tb_cols s) 0 (tb_rows s) ->
  Permutation (tb_rows s) (table_rows s) /\
  StronglySorted (fun a b => rowcmp (tb_cols s) 0 a b <> Gt) (table_rows s) /\
  (forall z, In z (tb_rows s) -> filter (fun y => match rowcmp (tb_cols s) 0 z y with Eq => true | _ => false end) (table_rows s) = filter (fun y => match rowcmp (tb_cols s) 0 z y with Eq => true | _ => false end) (tb_rows s)).
Proof.
  intros H Hq HK. destruct (t_inv recs s H) as [_ _ _ (L1 & _ & L3) _].
  assert (HL : long (tb_cols s) 0 (tb_rows s)).
  { intros i col E N0 l Hin. destruct L1 as (_ & L1). specialize (L1 i col E N0). rewrite Forall_forall in L3. specialize (L3 l Hin). lia. }
  destruct (sort_rows_spec (tb_cols s) 0 (tb_rows s) (fun _ _ => True) HL HK) as (S1 & S2).
  { clear. induction (tb_rows s); constructor; auto. apply Forall_forall. auto. }
  split; [apply sort_rows_perm|]. split; [|exact S2]. clear - S1. unfold FmtModel.table_rows. induction S1 as [|x l S IHS F]; constructor; auto. eapply Forall_impl; [|exact F]. cbv beta. intros b [->|(-> & _)]; discriminate.
Qed.
End T.
