(* C54, continued: which path and values a record has, which columns there are and how lines are laid out *)
From Coq Require Import Strings.Ascii Strings.String Permutation Sorted.
From Verif Require Import Base VariantModel VariantSpec FilterSpec FilterProofs NamesModel TextModel TreeModel CaliFileModel AggModel FilterModel RConfigModel FmtModel FmtProofs FmtProps TreeFmtModel TreeFmtProofs TreeFmtProofs2 TreeFmtProps.

Section P.
Variable vtext : value -> bytes.
Variable d : mdb.
Variable q : trspec.
Notation path := (rec_path d (is_path_attr d q)).
Notation data := (rec_data d (is_path_attr d q)).
Notation run := (run vtext d q).
Notation forest := (forest vtext d q).
Notation listing := (listing vtext d q).

(* the attribute values in a record: an entry with a node stands for the values from that node up to its root *)
Definition rec_items (rec : list entry) : list (N * value) := flat_map (fun e => match e with EImm a v => [(a, v)] | ERef i => node_path d i end) rec.
Lemma add_first_find : forall l data a, rfind a (add_first data l) = match rfind a data with Some v => Some v | None => rfind a l end.
Proof.
  induction l as [|x l IH]; intros dt a; cbn [add_first]; [destruct (rfind a dt); reflexivity|]. rewrite IH. destruct (existsb (fun y => fst y =? fst x) dt) eqn:E.
  - destruct (rfind a dt) eqn:F; auto. unfold rfind at 2. cbn [find]. destruct (N.eqb_spec (fst x) a) as [Ea|]; [|reflexivity]. exfalso. apply existsb_exists in E. destruct E as (y & Hy & Ey). apply N.eqb_eq in Ey. unfold rfind in F. destruct (find (fun z => fst z =? a) dt) eqn:G; [discriminate|]. pose proof (find_none _ _ G y Hy) as K. cbv beta in K. apply N.eqb_neq in K. congruence.
  - assert (Ex : rfind a (dt ++ [x]) = match rfind a dt with Some v => Some v | None => if fst x =? a then Some (snd x) else None end).
    { clear. unfold rfind. induction dt as [|y dt IH]; cbn [app find option_map]; [destruct (fst x =? a); reflexivity|]. destruct (fst y =? a); [reflexivity|exact IH]. }
    rewrite Ex. destruct (rfind a dt); auto. unfold rfind at 2. cbn [find]. destruct (fst x =? a); reflexivity.
Qed.
Lemma rfind_filter f a : forall l, (forall v, In (a, v) l -> f (a, v) = true) -> rfind a (filter f l) = rfind a l.
Proof.
  unfold rfind. induction l as [|(b, v) l IH]; intro H; auto. cbn [filter find fst]. destruct (N.eqb_spec b a) as [->|Hn].
  - rewrite (H v) by (left; auto). cbn [find fst]. rewrite N.eqb_refl. reflexivity.
  - destruct (f (b, v)); cbn [find fst]; [destruct (N.eqb_spec b a); [congruence|]|]; apply IH; intros w Hw; apply H; right; auto.
Qed.
(* A record's path is made of its values of path attributes: for a node reference from the root to that node,
   for several entries the later ones first.  Its value for any other attribute is the first one found. *)
Theorem C54_record_contents rec : Forall (fun x => is_attr d (fst x) = true) (rec_items rec) ->
  (forall i, rec = [ERef i] -> path rec = filter (fun x => is_path_attr d q (fst x)) (rev (node_path d i))) /\
  (forall a v, rec = [EImm a v] -> path rec = if is_path_attr d q a then [(a, v)] else []) /\
  (forall r1 r2, rec = r1 ++ r2 -> path rec = path r2 ++ path r1) /\
  (forall a, is_path_attr d q a = false -> rfind a (data rec) = option_map snd (find (fun x => fst x =? a) (rec_items rec))) /\
  (forall a, is_path_attr d q a = true -> rfind a (data rec) = None).
Proof.
  intro H. assert (Ei : items d rec = rec_items rec).
  { unfold items. fold (rec_items rec). clear - H. induction H as [|x l Hx Hl IH]; cbn [filter]; [reflexivity|]. rewrite Hx, IH. reflexivity. }
  assert (Fr : forall (f : N * value -> bool) l, filter f (rev l) = rev (filter f l)).
  { intros f l. induction l as [|x l IH]; auto. cbn [rev filter]. rewrite filter_app, IH. cbn [filter]. destruct (f x); [reflexivity|rewrite app_nil_r; reflexivity]. }
  split; [|split; [|split; [|split]]].
  - intros i ->. unfold rec_path. rewrite Ei. cbn [rec_items flat_map]. rewrite app_nil_r, Fr. reflexivity.
  - intros a v ->. unfold rec_path. rewrite Ei. cbn [rec_items flat_map app filter fst]. destruct (is_path_attr d q a); reflexivity.
  - intros r1 r2 ->. unfold rec_path, items. rewrite flat_map_app, !filter_app, rev_app_distr. reflexivity.
  - intros a Ha. unfold rec_data. rewrite add_first_find. change (rfind a []) with (None : option value). cbv iota. rewrite Ei, rfind_filter; [reflexivity|]. intros v _. cbn [fst]. rewrite Ha. reflexivity.
  - intros a Ha. unfold rec_data. rewrite add_first_find. change (rfind a []) with (None : option value). cbv iota. unfold rfind. destruct (find (fun x => fst x =? a) (filter (fun x => negb (is_path_attr d q (fst x))) (items d rec))) as [x|] eqn:E; auto.
    exfalso. apply find_some in E. destruct E as (E1 & E2). apply N.eqb_eq in E2. apply filter_In in E1. destruct E1 as (_ & E1). rewrite E2, Ha in E1. discriminate.
Qed.

(* The path attributes are those with the nested property, or the ones named in the query *)
Theorem C54_path_attributes a :
  (tr_paths q = None -> (is_path_attr d q a = true <-> Z.land (attr_props d a) 256 <> 0%Z)) /\
  (forall l, tr_paths q = Some l -> (is_path_attr d q a = true <-> exists name, In name l /\ get_attr d name = Some a)).
Proof.
  unfold is_path_attr. split.
  - intros ->. unfold is_nested. rewrite negb_true_iff, Z.eqb_neq. reflexivity.
  - intros l ->. rewrite existsb_exists. split; intros (s & H1 & H2); exists s; split; auto; [destruct (get_attr d s); [apply N.eqb_eq in H2; congruence|discriminate]|rewrite H2; apply N.eqb_refl].
Qed.

(* ---------------- column information ---------------- *)
Notation tdisplay := (tdisplay vtext d q).
Notation ci_upd := (ci_upd vtext d q).
Definition ksorted (m : cinfo) : Prop := StronglySorted N.lt (map fst m).
Lemma ci_keys x : forall m, ksorted m -> ksorted (ci_upd m x) /\ (forall a, In a (map fst (ci_upd m x)) <-> a = fst x \/ In a (map fst m)).
Proof.
  unfold ksorted. induction m as [|(a, (nm, w)) m IH]; intro S; cbn [TreeFmtModel.ci_upd].
  - cbn [map fst]. split; [repeat constructor|]. intro b. cbn [In]. intuition congruence.
  - cbn [map fst] in S. inversion S as [|? ? S1 S2]; subst. destruct (N.eqb_spec (fst x) a) as [E|E]; [cbn [map fst]; split; [auto|intro b; cbn [In]; intuition congruence]|].
    destruct (N.ltb_spec (fst x) a) as [L|L].
    + cbn [map fst]. split; [|intro b; cbn [In]; intuition congruence]. constructor; [auto|]. constructor; [auto|]. rewrite Forall_forall in *. intros b Hb. specialize (S2 b Hb). lia.
    + destruct (IH S1) as (I1 & I2). cbn [map fst]. split; [|intro b; cbn [In]; rewrite I2; tauto]. constructor; [auto|]. apply Forall_forall. intros b Hb. apply I2 in Hb. destruct Hb as [->|Hb]; [lia|]. rewrite Forall_forall in S2. auto.
Qed.
Lemma ci_find_upd x : forall m, ksorted m ->
  (length (vtext (snd x)) <= snd (ci_find (ci_upd m x) (fst x)))%nat /\
  (forall a, (snd (ci_find m a) <= snd (ci_find (ci_upd m x) a))%nat).
Proof.
  unfold ksorted. induction m as [|(a, (nm, w)) m IH]; intro S; cbn [TreeFmtModel.ci_upd].
  - cbn [ci_find]. rewrite N.eqb_refl. cbn [snd]. split; [lia|]. intro b. destruct (fst x =? b); cbn [snd]; lia.
  - cbn [map fst] in S. inversion S as [|? ? S1 S2]; subst. destruct (N.eqb_spec (fst x) a) as [E|E].
    + subst a. cbn [ci_find]. rewrite N.eqb_refl. cbn [snd]. split; [lia|]. intro b. destruct (fst x =? b); cbn [snd]; lia.
    + destruct (N.ltb_spec (fst x) a) as [L|L].
      * cbn [ci_find]. rewrite N.eqb_refl. cbn [snd]. split; [lia|]. intro b. destruct (N.eqb_spec (fst x) b) as [<-|]; cbn [snd]; [|lia]. destruct (N.eqb_spec a (fst x)); [lia|]. 
        assert (X : forall m, ~ In (fst x) (map fst m) -> ci_find m (fst x) = ([], 0%nat)). { clear. induction m as [|(k, v) m IH]; intro H; cbn [ci_find]; auto. destruct (N.eqb_spec k (fst x)) as [->|]; [exfalso; apply H; left; auto|]. apply IH. intro K. apply H. right. auto. }
        rewrite X; [cbn [snd]; lia|]. intro K. rewrite Forall_forall in S2. specialize (S2 _ K). lia.
      * destruct (IH S1) as (I1 & I2). cbn [ci_find]. destruct (N.eqb_spec a (fst x)); [congruence|]. split; auto. intro b. destruct (a =? b); auto.
Qed.
Definition info_names (m : cinfo) : Prop := Forall (fun e => fst (snd e) = tdisplay (fst e) /\ (length (tdisplay (fst e)) <= snd (snd e))%nat) m.
Lemma ci_names x : forall m, info_names m -> info_names (ci_upd m x).
Proof.
  unfold info_names. induction m as [|(a, (nm, w)) m IH]; intro H; cbn [TreeFmtModel.ci_upd]; [repeat constructor; cbn [fst snd]; lia|]. inversion H as [|? ? (H1 & H2) H3]; subst. cbn [fst snd] in *.
  destruct (fst x =? a); [constructor; auto; cbn [fst snd]; split; auto; lia|]. destruct (fst x <? a); [constructor; auto; cbn [fst snd]; split; auto; lia|]. constructor; auto.
Qed.
Lemma ci_fold : forall l m, ksorted m -> info_names m ->
  let m' := fold_left ci_upd l m in ksorted m' /\ info_names m' /\ (forall a, In a (map fst m') <-> In a (map fst l) \/ In a (map fst m)) /\
  (forall x, In x l -> (length (vtext (snd x)) <= snd (ci_find m' (fst x)))%nat) /\ (forall a, (snd (ci_find m a) <= snd (ci_find m' a))%nat).
Proof.
  induction l as [|x l IH]; intros m S Nm; cbn [fold_left].
  - split; auto. split; auto. split; [intro a; cbn [map In]; tauto|]. split; [intros x []|auto].
  - destruct (ci_keys x m S) as (K1 & K2). destruct (ci_find_upd x m S) as (F1 & F2). destruct (IH (ci_upd m x) K1 (ci_names x m Nm)) as (I1 & I2 & I3 & I4 & I5). split; auto. split; auto. split; [intro a; rewrite I3, K2; cbn [map In]; intuition congruence|].
    split; [|intro a; specialize (I5 a); specialize (F2 a); lia]. intros y [<-|Hy]; [specialize (I5 (fst x)); lia|auto].
Qed.
(* a record that is shown: one with a path *)
Definition in_tree (recs : list (list entry)) (rec : list entry) : Prop := In rec recs /\ path rec <> [].
Lemma info_inv recs : let m := ts_info (run recs) in ksorted m /\ info_names m /\ (forall a, In a (map fst m) <-> exists rec, in_tree recs rec /\ In a (map fst (data rec))) /\
  (forall rec x, in_tree recs rec -> In x (data rec) -> (length (vtext (snd x)) <= snd (ci_find m (fst x)))%nat).
Proof.
  induction recs as [|rec recs IH] using rev_ind; cbv zeta in *.
  - split; [constructor|]. split; [constructor|]. split; [intro a; split; [intros []|intros (rec & ([] & _) & _)]|intros rec x ([] & _)].
  - destruct IH as (I1 & I2 & I3 & I4). rewrite run_snoc. unfold tr_process. destruct (is_nilp (path rec)) eqn:E.
    + assert (Ep : path rec = []) by (destruct (path rec); [auto|discriminate]). assert (T : forall r, in_tree (recs ++ [rec]) r <-> in_tree recs r). { intro r. unfold in_tree. rewrite in_app_iff. cbn [In]. split; [intros ([K|[<-|[]]] & K2); [auto|congruence]|tauto]. }
      split; auto. split; auto. split; [intro a; rewrite I3; split; intros (r & T1 & T2); exists r; split; auto; apply T; auto|]. intros r x Hr. apply I4. apply T. auto.
    + assert (Ep : path rec <> []) by (destruct (path rec); [discriminate|congruence]). cbn [ts_info]. change (ts_forest (run recs)) with (forest recs). rewrite <- forest_snoc.
      assert (Rc := forest_recs vtext d q (recs ++ [rec]) (path rec) Ep). destruct Rc as [(_ & K)|(K & _)]; [exfalso; apply K; exists rec, []; rewrite app_nil_r; split; auto; apply in_or_app; right; left; auto|].
      unfold recs_at in K. destruct (node_at (path rec) (forest (recs ++ [rec]))) as [n|] eqn:En; [|discriminate]. cbn [option_map] in K. injection K as K. rewrite K.
      set (l := concat (map data (at_path d q (recs ++ [rec]) (path rec)))). destruct (ci_fold l (ts_info (run recs)) I1 I2) as (F1 & F2 & F3 & F4 & F5). split; auto. split; auto.
      assert (Hl : forall x, In x l <-> exists r, In r (recs ++ [rec]) /\ path r = path rec /\ In x (data r)).
      { intro x. unfold l. rewrite in_concat. split.
        - intros (y & Hy & Hx). apply at_in in Hy. destruct Hy as (r & R1 & R2 & R3). exists r. rewrite R3. auto.
        - intros (r & R1 & R2 & R3). exists (data r). split; auto. apply in_map. apply filter_In. split; auto. apply same_path_iff. auto. }
      assert (Hin : In rec (recs ++ [rec])) by (apply in_or_app; right; left; auto).
      split.
      * intro a. rewrite F3, I3. split.
        -- intros [K1|(r & (T1 & T2) & T3)]; [|exists r; split; [split; [apply in_or_app|]|]; auto]. apply in_map_iff in K1. destruct K1 as (x & <- & K1). apply Hl in K1. destruct K1 as (r & R1 & R2 & R3). exists r. split; [split; [auto|congruence]|apply in_map; auto].
        -- intros (r & (T1 & T2) & T3). apply in_app_or in T1. destruct T1 as [T1|[<-|[]]]; [right; exists r; split; [split|]; auto|left]. apply in_map_iff in T3. destruct T3 as (x & <- & T3). apply in_map. apply Hl. exists rec. auto.
      * intros r x (T1 & T2) Hx. apply in_app_or in T1. destruct T1 as [T1|[<-|[]]]; [|apply F4; apply Hl; exists rec; auto]. specialize (I4 r x (conj T1 T2) Hx). specialize (F5 (fst x)). lia.
Qed.
(* Without SELECT there is one column for each visible attribute of the records in the tree; with SELECT
   the columns are the known attributes of the list, in its order *)
Theorem C54_columns recs : let attrs := col_attrs d q (ts_info (run recs)) in
  (tr_sel q = LDefault -> NoDup attrs /\ forall a, In a attrs <-> is_hidden d a = false /\ is_global d a = false /\ exists rec, In rec recs /\ path rec <> [] /\ rfind a (data rec) <> None) /\
  (tr_sel q = LAll -> NoDup attrs /\ forall a, In a attrs <-> exists rec, In rec recs /\ path rec <> [] /\ rfind a (data rec) <> None) /\
  (forall l, tr_sel q = LList l -> map Some attrs = filter (fun x => match x with Some _ => true | None => false end) (map (get_attr d) l)) /\
  (tr_sel q = LNone -> attrs = []).
Proof.
  destruct (info_inv recs) as (I1 & _ & I3 & _). cbv zeta. unfold col_attrs.
  assert (Nd : NoDup (map fst (ts_info (run recs)))).
  { unfold ksorted in I1. clear - I1. induction I1 as [|a l S IH F]; constructor; auto. intro H. rewrite Forall_forall in F. specialize (F a H). lia. }
  assert (Rf : forall a (r : trec), In a (map fst r) <-> rfind a r <> None).
  { intros a r. unfold rfind. induction r as [|(b, v) r IH]; cbn [map fst In find option_map]; [split; [intros []|congruence]|]. destruct (N.eqb_spec b a) as [->|Hn]; [split; [discriminate|auto]|]. rewrite <- IH. intuition congruence. }
  assert (I3' : forall a, In a (map fst (ts_info (run recs))) <-> exists rec, In rec recs /\ path rec <> [] /\ rfind a (data rec) <> None).
  { intro a. rewrite I3. split; [intros (rec & (T1 & T2) & T3)|intros (rec & T1 & T2 & T3)]; exists rec; [rewrite <- Rf; auto|]. split; [split; auto|apply Rf; auto]. }
  split; [|split; [|split]].
  - intros ->. split; [apply NoDup_filter; auto|]. intro a. rewrite filter_In, I3', negb_true_iff, orb_false_iff. tauto.
  - intros ->. split; auto.
  - intros l ->. induction l as [|s l IH]; [reflexivity|]. cbn [flat_map map filter]. destruct (get_attr d s); cbn [app map filter]; rewrite IH; reflexivity.
  - intros ->. reflexivity.
Qed.

(* ---------------- layout ---------------- *)
(* no text is cut: there is no column-width limit or it is not reached *)
Definition unlimited (len : nat) : Prop := (tr_max q <= 0)%Z \/ (Z.of_nat len <= tr_max q)%Z.
Definition colw (m : cinfo) (a : N) : nat := tcolumn_width q (snd (ci_find m a)).
Definition numeric (a : N) : bool := tright (attr_type d a).
(* what a field of width w + 1 shows: a text and blanks *)
Definition shows (m : cinfo) (r : trec) (a : N) (f : bytes) : Prop :=
  length f = S (colw m a) /\ exists i j t, f = repeat sp i ++ t ++ repeat sp j /\ (if numeric a then j = 1%nat else i = 0%nat) /\
  match rfind a r with Some v => t = clamp (vtext v) (colw m a) | None => t = [] end.
Definition row (m : cinfo) (attrs : list N) (head : bytes) (r : trec) (line : bytes) : Prop :=
  exists fs, line = head ++ concat fs /\ Forall2 (shows m r) attrs fs.
Lemma tfield_shows m r a : shows m r a (tfield vtext d q m r a).
Proof.
  unfold shows, tfield. fold (colw m a). set (w := colw m a). set (str := match rfind a r with Some v => clamp (vtext v) w | None => [] end).
  assert (L : (length str <= w)%nat) by (unfold str; destruct (rfind a r); [apply clamp_length|cbn [length]; lia]). unfold numeric.
  assert (Es : match rfind a r with Some v => str = clamp (vtext v) w | None => str = [] end) by (unfold str; destruct (rfind a r); reflexivity). clearbody str.
  destruct (tright (attr_type d a)); [rewrite pad_left_spec by auto|rewrite pad_right_spec by auto]; (split; [rewrite !app_length, repeat_length; cbn [length]; lia|]).
  - exists (w - length str)%nat, 1%nat, str. auto.
  - exists 0%nat, (S w - length str)%nat, str. auto.
Qed.
Lemma tfields_row m attrs head r : row m attrs head r (head ++ tfields vtext d q m attrs r).
Proof. exists (map (tfield vtext d q m r) attrs). split; [unfold tfields; rewrite flat_map_concat_map; reflexivity|]. induction attrs; cbn [map]; constructor; auto. apply tfield_shows. Qed.
Lemma label_width_ge : forall k n level, (depth n <= k)%nat -> forall p m, node_at p [n] = Some m -> (2 * (level + (length p - 1)) + length (vtext (snd (sn_lab m))) <= label_width vtext level n)%nat.
Proof.
  induction k as [|k IH]; intros n level Hk p m Hp; [destruct n; cbn [depth] in Hk; lia|]. destruct p as [|x p]; [discriminate|]. rewrite node_at_cons in Hp. unfold fnd in Hp. cbn [find] in Hp. destruct (lab_eqb (sn_lab n) x); [|discriminate].
  destruct n as [l rs ks]. cbn [label_width sn_lab sn_kids] in *. pose proof (fold_max (label_width vtext (S level)) ks (2 * level + length (vtext (snd l)))) as (F1 & F2). destruct p as [|y p].
  - injection Hp as <-. cbn [sn_lab length]. lia.
  - rewrite node_at_cons in Hp. destruct (fnd y ks) as [c|] eqn:Ec; [|discriminate]. unfold fnd in Ec. apply find_some in Ec. destruct Ec as (Hc & El). pose proof (kid_depth (SNode l rs ks) c Hc) as Dc.
    assert (X : (2 * (S level + (length (y :: p) - 1)) + length (vtext (snd (sn_lab m))) <= label_width vtext (S level) c)%nat).
    { apply (IH c (S level) ltac:(lia) (y :: p) m). rewrite node_at_cons. unfold fnd. cbn [find]. rewrite El. exact Hp. }
    specialize (F2 c Hc). cbn [length] in X |- *. lia.
Qed.
Lemma path_width_ge f p m : node_at p f = Some m -> (2 * (length p - 1) + length (vtext (snd (sn_lab m))) <= path_width vtext f)%nat.
Proof.
  intro H. destruct p as [|x p]; [discriminate|]. rewrite node_at_cons in H. destruct (fnd x f) as [c|] eqn:Ec; [|discriminate]. pose proof Ec as Ec'. unfold fnd in Ec. apply find_some in Ec. destruct Ec as (Hc & El).
  unfold path_width. pose proof (proj2 (fold_max (label_width vtext 0) f 4%nat) c Hc) as F. assert (X := label_width_ge (depth c) c 0 (le_n _) (x :: p) m). rewrite node_at_cons in X. unfold fnd in X. cbn [find] in X. rewrite El in X. specialize (X H). lia.
Qed.
Lemma tcw_fits base len : (len <= base)%nat -> unlimited len -> (len <= tcolumn_width q base)%nat.
Proof. unfold tcolumn_width, unlimited. intros H [K|K]; destruct (Z.ltb_spec 0 (tr_max q)); lia. Qed.
Lemma tcw_4 base : (4 <= tcolumn_width q base)%nat. Proof. unfold tcolumn_width. lia. Qed.
Lemma indent_le pw level t : (4 <= pw)%nat -> (length t <= pw - 2 * level \/ pw <= 2 * level)%nat -> (length (indent pw level t) <= pw)%nat.
Proof. intros H4 H. unfold indent. rewrite app_length, repeat_length. destruct (Nat.leb_spec pw (2 * level)); cbn [length]; lia. Qed.
Lemma pad_right_len t w : (length t <= w)%nat -> length (pad_right t w) = S w.
Proof. intro H. rewrite pad_right_spec by auto. rewrite app_length, repeat_length. lia. Qed.

(* Every line of an entry starts with a field of width pw + 1 that shows the entry's own label, indented by
   two blanks per level (if there is room for two characters); the values of its records follow in columns of fixed width, on the same line if
   there is only one record and on one line each otherwise.  Texts are complete unless the column-width
   limit is exceeded. *)
Theorem C54_layout recs p n : let m := ts_info (run recs) in let attrs := col_attrs d q m in let pw := tcolumn_width q (path_width vtext (forest recs)) in let level := (length p - 1)%nat in
  In (p, n) (listing recs) ->
  exists L0, length L0 = S pw /\
    ((2 * level + 2 <= pw)%nat -> unlimited (2 * level + length (vtext (snd (sn_lab n)))) -> exists j, L0 = repeat sp (2 * level) ++ vtext (snd (sn_lab n)) ++ repeat sp j) /\
    match sn_recs n with
    | [] => node_lines vtext d q m attrs pw level n = [L0]
    | [r] => exists l, node_lines vtext d q m attrs pw level n = [l] /\ row m attrs L0 r l
    | rs => exists L1 ls, node_lines vtext d q m attrs pw level n = L0 :: ls /\ Forall2 (row m attrs L1) rs ls /\ ((2 * level + 3 <= pw \/ pw <= 2 * level)%nat -> length L1 = S pw)
    end.
Proof.
  cbv zeta. set (m := ts_info (run recs)). set (attrs := col_attrs d q m). set (pw := tcolumn_width q (path_width vtext (forest recs))). set (level := (length p - 1)%nat). intro Hin.
  destruct (listing_node vtext d q recs p n Hin) as (n0 & Hp & Hn & (E1 & _)). pose proof (path_width_ge (forest recs) p n0 Hn) as W. rewrite E1 in W. fold level in W. pose proof (tcw_4 (path_width vtext (forest recs))) as P4. fold pw in P4.
  exists (label_field vtext pw level (sn_lab n)). split; [|split].
  - unfold label_field. apply pad_right_len. apply indent_le; auto. left. apply clamp_length.
  - intros Hl U. pose proof (tcw_fits _ _ W U) as F. fold pw in F. assert (L : (length (vtext (snd (sn_lab n))) <= pw - 2 * level)%nat) by lia. unfold label_field. rewrite clamp_fits by auto. unfold indent.
    destruct (Nat.leb_spec pw (2 * level)) as [K|K]; [lia|]. replace (Nat.min (2 * level) (pw - 2)) with (2 * level)%nat by lia. rewrite pad_right_spec by (rewrite app_length, repeat_length; lia). rewrite <- app_assoc. eexists. reflexivity.
  - unfold node_lines. destruct (sn_recs n) as [|r [|r2 rs]]; [reflexivity| |].
    + eexists. split; [reflexivity|]. apply tfields_row.
    + exists (cont_field pw level), (map (fun r => cont_field pw level ++ tfields vtext d q m attrs r) (r :: r2 :: rs)). split; [reflexivity|]. split; [generalize (r :: r2 :: rs); intro l; induction l; cbn [map]; constructor; auto; apply tfields_row|].
      intro K. unfold cont_field. apply pad_right_len. apply indent_le; auto. cbn [length]. lia.
Qed.
(* a value shown is complete unless it is longer than the limit, and the header line has the same columns *)
Theorem C54_values_complete recs p n r a v : let m := ts_info (run recs) in In (p, n) (listing recs) -> In r (sn_recs n) -> rfind a r = Some v -> unlimited (length (vtext v)) -> clamp (vtext v) (colw m a) = vtext v.
Proof.
  cbv zeta. intros Hin Hr Hv U. apply clamp_fits. unfold colw. apply tcw_fits; auto. destruct (C54_tree vtext d q recs) as (_ & _ & T). destruct (T p n Hin) as (_ & Pm). apply (Permutation_in _ Pm) in Hr. apply at_in in Hr. destruct Hr as (rec & R1 & R2 & R3).
  destruct (listing_node vtext d q recs p n Hin) as (_ & Hp & _ & _). destruct (info_inv recs) as (_ & _ & _ & I4). unfold rfind in Hv. destruct (find (fun x => fst x =? a) r) as [x|] eqn:E; [|discriminate]. injection Hv as <-. apply find_some in E. destruct E as (E1 & E2). apply N.eqb_eq in E2. subst a. apply (I4 rec); [split; [auto|congruence]|]. rewrite R3. auto.
Qed.
Theorem C54_header recs : let m := ts_info (run recs) in let attrs := col_attrs d q m in let pw := tcolumn_width q (path_width vtext (forest recs)) in
  exists L0 fs, tr_header q m attrs pw = L0 ++ concat fs /\ (length L0 = S pw)%nat /\ Forall2 (fun a f => length f = S (colw m a) /\ (In a (map fst m) -> unlimited (length (tdisplay a)) -> exists j, f = tdisplay a ++ repeat sp j)) attrs fs.
Proof.
  cbv zeta. set (m := ts_info (run recs)). set (pw := tcolumn_width q (path_width vtext (forest recs))). unfold tr_header.
  exists (pad_right (clamp [80; 97; 116; 104] pw) pw), (map (fun a => pad_right (clamp (fst (ci_find m a)) (colw m a)) (colw m a)) (col_attrs d q m)). split; [rewrite flat_map_concat_map; reflexivity|]. split; [apply pad_right_len; apply clamp_length|].
  induction (col_attrs d q m) as [|a l IH]; cbn [map]; constructor; auto. split; [apply pad_right_len; apply clamp_length|]. intros Ha U. destruct (info_inv recs) as (_ & I2 & _). fold m in I2.
  assert (X : fst (ci_find m a) = tdisplay a /\ (length (tdisplay a) <= snd (ci_find m a))%nat).
  { clear - I2 Ha. unfold info_names in I2. induction I2 as [|(k, (nm, w)) m (H1 & H2) H3 IH]; [destruct Ha|]. cbn [ci_find fst snd map] in *. destruct (N.eqb_spec k a) as [->|Hn]; [cbn [fst snd]; auto|]. destruct Ha as [Ha|Ha]; [congruence|auto]. }
  destruct X as (X1 & X2). rewrite X1. pose proof (tcw_fits _ _ X2 U) as F. fold (colw m a) in F. rewrite clamp_fits by auto. rewrite pad_right_spec by auto. eexists. reflexivity.
Qed.
End P.

(* ---------------- examples ---------------- *)
Definition e_text (v : value) : bytes := match v with VStr s => s | VInt z => if (z <? 0)%Z then 45 :: dec (Z.to_N (- z)) else dec (Z.to_N z) | VUint n => dec n | _ => [] end.
Definition e_fn : bytes := bs "function". Definition e_tm : bytes := bs "time".
Definition edb0 : mdb := Eval vm_compute in snd (create_attribute (snd (create_attribute db_init e_fn T_STRING 256)) e_tm T_INT 1).
Definition ea (s : bytes) : N := match get_attr edb0 s with Some a => a | None => 0 end.
Definition fp (l : list string) : list (N * value) := map (fun s => (ea e_fn, VStr (bs s))) l.
Definition edb : mdb := Eval vm_compute in
  snd (make_tree_entry (snd (make_tree_entry (snd (make_tree_entry edb0 (fp ["main"; "foo"; "inner"]%string) ROOT)) (fp ["main"; "bar"]%string) ROOT)) (fp ["main"; "a"]%string) ROOT).
Definition en (l : list string) : N := fst (make_tree_entry edb (fp l) ROOT).
Definition er (l : list string) (t : option Z) : list entry := [ERef (en l)] ++ match t with Some t => [EImm (ea e_tm) (VInt t)] | None => [] end.
Definition erecs : list (list entry) := Eval vm_compute in
  [er ["main"; "foo"; "inner"]%string (Some 50%Z); er ["main"; "bar"]%string (Some 20%Z); er ["main"]%string (Some 5%Z); er ["main"; "foo"]%string (Some 10%Z); er ["main"; "bar"]%string (Some 30%Z)].
Definition espec (o : sord) : trspec := mktr None LDefault [(e_tm, o)] [(e_tm, bs "Time")] 48.
Definition lines_of (l : list string) : list bytes := map bs l.
(* the output for five records, two of them with the same path *)
Example C54_example : tr_flush e_text edb (espec SDesc) (run e_text edb (espec SDesc) erecs) = lines_of
  ["Path      Time ";
   "main         5 ";
   "  foo       10 ";
   "    inner   50 ";
   "  bar     ";
   "   |-       30 ";
   "   |-       20 "]%string.
Proof. vm_compute. reflexivity. Qed.
Example C54_example_conditions : Forall (fun rec => Forall (fun x => is_attr edb (fst x) = true) (rec_items edb rec)) erecs /\ values_ok edb (espec SDesc) (ea e_tm) erecs /\ sort_info edb (espec SDesc) = [] ++ [(ea e_tm, SDesc)] /\
  (forall rec, In rec erecs -> rec_path edb (is_path_attr edb (espec SDesc)) rec <> [] -> rfind (ea e_tm) (rec_data edb (is_path_attr edb (espec SDesc)) rec) <> None).
Proof.
  split; [|split; [|split]].
  - apply Forall_forall. intros rec Hr. apply Forall_forall. assert (E : forallb (fun rec => forallb (fun x => is_attr edb (fst x)) (rec_items edb rec)) erecs = true) by (vm_compute; reflexivity). rewrite forallb_forall in E. specialize (E rec Hr). rewrite forallb_forall in E. exact E.
  - assert (E : forallb (fun rec => match rfind (ea e_tm) (rec_data edb (is_path_attr edb (espec SDesc)) rec) with Some (VInt z) => (-1000 <=? z)%Z && (z <=? 1000)%Z | _ => false end) erecs = true) by (vm_compute; reflexivity). rewrite forallb_forall in E.
    intros r1 r2 v1 v2 H1 H2 E1 E2. pose proof (E r1 H1) as K1. pose proof (E r2 H2) as K2. rewrite E1 in K1. rewrite E2 in K2. destruct v1; try discriminate. destruct v2; try discriminate. cbn [in_range not_nan cmp_exact nonempty]. unfold s64_ok. repeat split; lia.
  - vm_compute. reflexivity.
  - intros rec Hr _. assert (E : forallb (fun rec => match rfind (ea e_tm) (rec_data edb (is_path_attr edb (espec SDesc)) rec) with Some _ => true | _ => false end) erecs = true) by (vm_compute; reflexivity). rewrite forallb_forall in E. specialize (E rec Hr). intro K. rewrite K in E. discriminate.
Qed.
(* Findings.  Ascending order is wrong when a record below has no value: here foo's only value is 10,
   bar's 7, and foo is printed first, because the minimum with a missing value is the missing value *)
Theorem C54_ascending_missing_refuted : exists recs, tr_flush e_text edb (espec SAsc) (run e_text edb (espec SAsc) recs) = lines_of
  ["Path      Time ";
   "main      ";
   "  foo       10 ";
   "    inner      ";
   "  bar        7 "]%string.
Proof. exists [er ["main"; "foo"]%string (Some 10%Z); er ["main"; "foo"; "inner"]%string None; er ["main"; "bar"]%string (Some 7%Z)]. vm_compute. reflexivity. Qed.
(* the comparison of two records without the sort attribute says "less" both ways: not a valid order for std::stable_sort *)
Theorem C54_record_order_refuted : exists a asc r1 r2, r1 <> r2 /\ rec_lt a asc r1 r2 = true /\ rec_lt a asc r2 r1 = true.
Proof. exists (ea e_tm), true, [(ea e_fn, VInt 1)], []. split; [discriminate|]. vm_compute. auto. Qed.
(* the lines of several records are shifted when the path column is narrow, and one-letter names are not fully indented *)
Theorem C54_narrow_refuted : exists recs, tr_flush e_text edb (espec SDesc) (run e_text edb (espec SDesc) recs) = lines_of
  ["Path Time ";
   "main ";
   "  a  ";
   "   |-    2 ";
   "   |-    1 "]%string.
Proof. exists [er ["main"; "a"]%string (Some 1%Z); er ["main"; "a"]%string (Some 2%Z)]. vm_compute. reflexivity. Qed.
