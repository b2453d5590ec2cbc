(* C45: snapshot records respect their capacity *)
From Verif Require Import Base SnapRecModel.

(* ---------- specification: what a user expects of a bounded list ---------- *)
Inductive sbop (E : Type) := BAppend1 (e : E) | BAppend (es : list E) | BRemove (e : E) | BReset.
Arguments BAppend1 {E}. Arguments BAppend {E}. Arguments BRemove {E}. Arguments BReset {E}.
Section Spec.
Context {E : Type} (eqb : E -> E -> bool).
(* the first entry equal to e is taken out *)
Fixpoint del_first (e : E) (l : list E) : list E :=
  match l with [] => [] | x :: r => if eqb e x then r else x :: del_first e r end.
(* contents and number of dropped entries *)
Definition spec_step (cap : nat) (s : list E * nat) (o : sbop E) : list E * nat :=
  let '(l, k) := s in
  match o with
  | BAppend1 e => if Nat.ltb (length l) cap then (l ++ [e], k) else (l, S k)
  | BAppend es => (firstn cap (l ++ es), k + (length (l ++ es) - cap))%nat
  | BRemove e => (del_first e l, k)
  | BReset => ([], O)
  end.
(* the program's operations *)
Definition sb_step (b : sbuild) (o : sbop E) : option sbuild :=
  match o with
  | BAppend1 e => sb_append1 b e
  | BAppend es => sb_append b es
  | BRemove e => sb_remove eqb b e
  | BReset => Some (sb_reset b)
  end.
Fixpoint sb_run (b : sbuild) (ops : list (sbop E)) : option sbuild :=
  match ops with [] => Some b | o :: r => match sb_step b o with Some b' => sb_run b' r | None => None end end.

(* ---------- proofs ---------- *)
Lemma skipn_skipn (l : list E) : forall x y, skipn x (skipn y l) = skipn (x + y) l.
Proof. intros x y. revert l. induction y as [|y IH]; intro l; [rewrite Nat.add_0_r; reflexivity|]. destruct l as [|a l]; [rewrite !skipn_nil; reflexivity|]. rewrite Nat.add_succ_r. cbn [skipn]. apply IH. Qed.
Lemma aset_some (l : list E) : forall i x, (i < length l)%nat -> aset l i x = Some (firstn i l ++ x :: skipn (S i) l).
Proof.
  induction l as [|y l IH]; cbn [length]; intros i x H; [lia|]. destruct i as [|i]; cbn; auto.
  rewrite IH by lia. reflexivity.
Qed.
Lemma aset_len (l : list E) : forall i x l', aset l i x = Some l' -> length l' = length l.
Proof.
  induction l as [|y l IH]; intros [|i] x l'; cbn; intro H; try discriminate; [injection H as <-; auto|].
  destruct (aset l i x) eqn:Ea; [|discriminate]. injection H as <-. cbn. f_equal. eapply IH; eauto.
Qed.
Definition sb_ok (b : @sbuild E) : Prop := (sb_len b <= sb_cap b)%nat /\ (sb_cap b <= length (sb_data b))%nat.
Lemma view_len b : sb_ok b -> length (sb_view b) = sb_len b.
Proof. intros (H1 & H2). unfold sb_view. rewrite firstn_length. lia. Qed.
Lemma append1_spec b e : sb_ok b -> exists b', sb_append1 b e = Some b' /\ sb_ok b' /\ sb_cap b' = sb_cap b /\
  (sb_view b', sb_skip b') = spec_step (sb_cap b) (sb_view b, sb_skip b) (BAppend1 e).
Proof.
  intros H. pose proof (view_len b H) as V. destruct H as (H1 & H2). unfold sb_append1. cbn [spec_step]. rewrite V.
  destruct (Nat.ltb_spec (sb_len b) (sb_cap b)).
  - rewrite aset_some by lia. eexists. split; [reflexivity|].
    assert (L : length (firstn (sb_len b) (sb_data b)) = sb_len b) by (rewrite firstn_length; lia).
    split; [split; cbn [sb_len sb_cap sb_data]; [lia|]|split; [reflexivity|]].
    + rewrite app_length, L. cbn [length]. rewrite skipn_length. lia.
    + cbn [sb_skip]. f_equal. unfold sb_view. cbn [sb_len sb_data].
      rewrite firstn_app, L. replace (S (sb_len b) - sb_len b)%nat with 1%nat by lia. rewrite firstn_firstn, Nat.min_r by lia. reflexivity.
  - eexists. split; [reflexivity|]. split; [split; cbn; lia|]. split; [reflexivity|]. reflexivity.
Qed.
Lemma copy_n_spec : forall n (src d : list E) pos, (n <= length src)%nat -> (pos + n <= length d)%nat ->
  copy_n src n d pos = Some (firstn pos d ++ firstn n src ++ skipn (pos + n) d).
Proof.
  induction n as [|n IH]; intros src d pos H1 H2; cbn [copy_n].
  - rewrite Nat.add_0_r. cbn. rewrite firstn_skipn. reflexivity.
  - destruct src as [|x r]; [cbn in H1; lia|]. cbn in H1. rewrite aset_some by lia.
    assert (L : length (firstn pos d) = pos) by (rewrite firstn_length; lia).
    rewrite IH; [|lia|rewrite app_length, L; cbn [length]; rewrite skipn_length; lia]. f_equal.
    rewrite firstn_app, L. replace (S pos - pos)%nat with 1%nat by lia. rewrite firstn_firstn, Nat.min_r by lia.
    rewrite <- app_assoc. f_equal. cbn [firstn app]. f_equal. f_equal.
    rewrite skipn_app, L. replace (S pos + n - pos)%nat with (S n) by lia. rewrite skipn_all2 by lia. cbn [app].
    change (skipn n (skipn (S pos) d) = skipn (pos + S n) d). rewrite skipn_skipn. f_equal. lia.
Qed.
Lemma append_spec b es : sb_ok b -> exists b', sb_append b es = Some b' /\ sb_ok b' /\ sb_cap b' = sb_cap b /\
  (sb_view b', sb_skip b') = spec_step (sb_cap b) (sb_view b, sb_skip b) (BAppend es).
Proof.
  intros H. pose proof (view_len b H) as V. destruct H as (H1 & H2). unfold sb_append. cbn [spec_step].
  set (c := Nat.min (length es) (sb_cap b - sb_len b)). rewrite copy_n_spec by (unfold c; lia). eexists. split; [reflexivity|].
  assert (L : length (firstn (sb_len b) (sb_data b)) = sb_len b) by (rewrite firstn_length; lia).
  split; [split; cbn [sb_len sb_cap sb_data]; [unfold c; lia|]|split; [reflexivity|]].
  - rewrite !app_length, L, skipn_length, firstn_length. unfold c. lia.
  - cbn [sb_skip]. unfold sb_view. cbn [sb_len sb_data]. rewrite app_length, L. f_equal; [|unfold c; lia].
    rewrite firstn_app, L. rewrite firstn_all2 by (rewrite L; unfold c; lia).
    rewrite (firstn_app (sb_cap b) (firstn (sb_len b) (sb_data b)) es), L. rewrite (firstn_all2 (firstn (sb_len b) (sb_data b)) (n:=sb_cap b)) by lia. f_equal.
    replace (sb_len b + c - sb_len b)%nat with c by lia.
    rewrite firstn_app, firstn_firstn, firstn_length. replace (c - Nat.min c (length es))%nat with 0%nat by (unfold c; lia). rewrite Nat.min_id. cbn [firstn]. rewrite app_nil_r.
    unfold c. destruct (Nat.min_spec (length es) (sb_cap b - sb_len b)) as [[Hm ->]|[Hm ->]]; auto.
    rewrite firstn_all, firstn_all2; auto; lia.
Qed.
Lemma shift_spec : forall fuel (d : list E) pos, (pos + fuel < length d)%nat ->
  sb_shift d fuel pos = Some (firstn pos d ++ firstn fuel (skipn (S pos) d) ++ skipn (pos + fuel) d).
Proof.
  induction fuel as [|f IH]; intros d pos H; cbn [sb_shift].
  - rewrite Nat.add_0_r. cbn. rewrite firstn_skipn. reflexivity.
  - unfold aget. destruct (nth_error d (S pos)) as [x|] eqn:Ex; [|apply nth_error_None in Ex; lia].
    rewrite aset_some by lia.
    assert (L : length (firstn pos d) = pos) by (rewrite firstn_length; lia).
    rewrite IH; [|rewrite app_length, L; cbn [length]; rewrite skipn_length; lia]. f_equal.
    rewrite firstn_app, L. replace (S pos - pos)%nat with 1%nat by lia. rewrite firstn_firstn, Nat.min_r by lia.
    rewrite <- app_assoc. f_equal. cbn [firstn app].
    assert (Sk : skipn (S pos) d = x :: skipn (S (S pos)) d).
    { clear - Ex. revert Ex. generalize (S pos) as k. intro k. revert d. induction k as [|k IHk]; intros [|y d] H; cbn in *; try discriminate; [congruence|]. exact (IHk d H). }
    remember (skipn (S (S pos)) d) as q eqn:Eq. rewrite !Sk. cbn [firstn app]. f_equal.
    rewrite !skipn_app, L. replace (S (S pos) - pos)%nat with 2%nat by lia. replace (S pos + f - pos)%nat with (S f) by lia.
    rewrite (skipn_all2 (firstn pos d) (n:=S (S pos))) by lia. rewrite (skipn_all2 (firstn pos d) (n:=S pos + f)) by lia. cbn [app]. change (skipn 2 (x :: x :: q)) with q. change (skipn (S f) (x :: x :: q)) with (skipn f (x :: q)). f_equal.
    rewrite <- Sk, skipn_skipn. f_equal. lia.
Qed.
Lemma find_spec (d : list E) e : forall fuel pos, (pos + fuel <= length d)%nat ->
  exists k f, sb_find eqb d e fuel pos = Some ((pos + k)%nat, f) /\ (k <= fuel)%nat /\ (f = true -> (k < fuel)%nat) /\ (f = false -> k = fuel) /\
    del_first e (firstn fuel (skipn pos d)) = if f then firstn k (skipn pos d) ++ firstn (fuel - S k) (skipn (S (pos + k)) d) else firstn fuel (skipn pos d).
Proof.
  induction fuel as [|fu IH]; intros pos H; cbn [sb_find].
  - exists 0%nat, false. rewrite Nat.add_0_r. repeat split; auto. discriminate.
  - unfold aget. destruct (nth_error d pos) as [x|] eqn:Ex; [|apply nth_error_None in Ex; lia].
    assert (Sk : skipn pos d = x :: skipn (S pos) d).
    { clear - Ex. revert Ex. revert d. induction pos as [|k IHk]; intros [|y d] H; cbn in *; try discriminate; [congruence|]. exact (IHk d H). }
    destruct (eqb e x) eqn:Ee.
    + exists 0%nat, true. rewrite Nat.add_0_r. split; auto. split; [lia|]. split; [lia|]. split; [discriminate|].
      rewrite Sk. cbn [firstn del_first]. rewrite Ee. cbn [app]. f_equal. lia.
    + destruct (IH (S pos)) as (k & f & E1 & E2 & E3 & E4 & E5); [lia|]. exists (S k), f.
      replace (pos + S k)%nat with (S pos + k)%nat by lia. split; auto. split; [lia|]. split; [intro; specialize (E3 H0); lia|]. split; [intro; specialize (E4 H0); lia|].
      rewrite Sk. cbn [firstn del_first]. rewrite Ee, E5. destruct f; [|reflexivity]. reflexivity.
Qed.
Lemma remove_spec b e : sb_ok b -> exists b', sb_remove eqb b e = Some b' /\ sb_ok b' /\ sb_cap b' = sb_cap b /\
  (sb_view b', sb_skip b') = spec_step (sb_cap b) (sb_view b, sb_skip b) (BRemove e).
Proof.
  intros H. pose proof (view_len b H) as V. destruct H as (H1 & H2). unfold sb_remove. cbn [spec_step].
  destruct (find_spec (sb_data b) e (sb_len b) 0) as (k & f & E1 & E2 & E3 & E4 & E5); [lia|]. rewrite E1. cbn [skipn Nat.add] in *.
  destruct f.
  - specialize (E3 eq_refl). rewrite shift_spec by lia. eexists. split; [reflexivity|].
    assert (L : length (firstn k (sb_data b)) = k) by (rewrite firstn_length; lia).
    split; [split; cbn [sb_len sb_cap sb_data]; [lia|]|split; [reflexivity|]].
    + rewrite !app_length, L, firstn_length, !skipn_length. lia.
    + cbn [sb_skip]. unfold sb_view at 2. rewrite E5. f_equal. unfold sb_view. cbn [sb_len sb_data].
      rewrite firstn_app, L. rewrite firstn_all2 by lia. f_equal.
      rewrite firstn_app, firstn_firstn, firstn_length, skipn_length.
      replace (sb_len b - 1 - k - Nat.min (sb_len b - 1 - k) (length (sb_data b) - S k))%nat with 0%nat by lia.
      cbn. rewrite app_nil_r. rewrite Nat.min_l by lia. f_equal. lia.
  - specialize (E4 eq_refl). rewrite E4, Nat.sub_diag. cbn [sb_shift]. eexists. split; [reflexivity|]. split; [split; cbn; lia|]. split; [reflexivity|].
    cbn [sb_skip]. unfold sb_view at 2. rewrite E5. reflexivity.
Qed.
Lemma step_spec b o : sb_ok b -> exists b', sb_step b o = Some b' /\ sb_ok b' /\ sb_cap b' = sb_cap b /\
  (sb_view b', sb_skip b') = spec_step (sb_cap b) (sb_view b, sb_skip b) o.
Proof.
  intro H. destruct o as [e|es|e|]; cbn [sb_step]; [apply append1_spec|apply append_spec|apply remove_spec|]; auto.
  eexists. split; [reflexivity|]. destruct H. split; [split; cbn; lia|]. split; reflexivity.
Qed.
Lemma run_spec ops : forall b, sb_ok b -> exists b', sb_run b ops = Some b' /\ sb_ok b' /\ sb_cap b' = sb_cap b /\
  (sb_view b', sb_skip b') = fold_left (spec_step (sb_cap b)) ops (sb_view b, sb_skip b).
Proof.
  induction ops as [|o r IH]; intros b H; cbn [sb_run]; [exists b; auto|].
  destruct (step_spec b o H) as (b1 & E1 & H1 & C1 & V1). rewrite E1. destruct (IH b1 H1) as (b2 & E2 & H2 & C2 & V2).
  exists b2. split; auto. split; auto. split; [congruence|]. cbn [fold_left]. rewrite <- V1, <- C1. exact V2.
Qed.

(* C45: for every sequence of append, remove and reset operations on a builder over an array of at
   least cap entries, no access is outside the array, and contents and skip count are those of
   the bounded list *)
Theorem C45_refines_bounded_list : forall cap data ops, (cap <= length data)%nat ->
  exists b, sb_run (sb_init cap data) ops = Some b /\ (sb_len b <= cap)%nat /\ length (sb_view b) = sb_len b /\
  (sb_view b, sb_skip b) = fold_left (spec_step cap) ops ([], O).
Proof.
  intros cap data ops H. destruct (run_spec ops (sb_init cap data)) as (b & E1 & H1 & C1 & V1); [split; cbn; lia|].
  exists b. split; auto. pose proof (view_len b H1). destruct H1. cbn in C1. split; [lia|]. auto.
Qed.

Definition items (o : sbop E) : list E := match o with BAppend1 e => [e] | BAppend es => es | _ => [] end.
Definition is_append (o : sbop E) : Prop := match o with BAppend1 _ | BAppend _ => True | _ => False end.
(* C45: a sequence of appends keeps the first cap entries, in order, and counts the others *)
Theorem C45_appends_keep_prefix : forall cap data ops, (cap <= length data)%nat -> Forall is_append ops ->
  exists b, sb_run (sb_init cap data) ops = Some b /\ sb_view b = firstn cap (flat_map items ops) /\
  sb_skip b = (length (flat_map items ops) - cap)%nat.
Proof.
  intros cap data ops H Ha. destruct (C45_refines_bounded_list cap data ops H) as (b & E1 & _ & _ & V). exists b. split; auto.
  assert (G : forall all, fold_left (spec_step cap) ops (firstn cap all, (length all - cap)%nat) = (firstn cap (all ++ flat_map items ops), (length (all ++ flat_map items ops) - cap)%nat)).
  { clear V E1. induction Ha as [|o ops Ho Ha IH]; intro all; cbn [fold_left flat_map]; [rewrite app_nil_r; reflexivity|].
    rewrite app_assoc. rewrite <- IH. f_equal. destruct o as [e|es|e|]; try destruct Ho; cbn [spec_step items].
    - rewrite firstn_length. destruct (Nat.ltb_spec (Nat.min cap (length all)) cap).
      + rewrite (firstn_all2 all) by lia. rewrite app_length. cbn [length]. f_equal; [rewrite firstn_all2; auto; rewrite app_length; cbn; lia|lia].
      + rewrite app_length. cbn [length]. f_equal; [|lia]. rewrite firstn_app. replace (cap - length all)%nat with 0%nat by lia. cbn. rewrite app_nil_r. reflexivity.
    - f_equal.
      + rewrite !firstn_app. rewrite firstn_firstn, Nat.min_id. f_equal. rewrite firstn_length.
        destruct (Nat.min_spec cap (length all)) as [[Hm ->]|[Hm ->]]; auto. rewrite Nat.sub_diag. replace (cap - length all)%nat with 0%nat by lia. reflexivity.
      + rewrite !app_length, firstn_length. lia. }
  specialize (G []). cbn [firstn length Nat.sub app] in G. rewrite firstn_nil in G. rewrite G in V. split; congruence.
Qed.
(* C45: nothing is dropped silently: the appended entries are the stored, the skipped and the
   removed ones; removed counts the remove calls that found their entry *)
Fixpoint removed (cap : nat) (s : list E * nat) (ops : list (sbop E)) : nat :=
  match ops with
  | [] => O
  | o :: r => (match o with BRemove e => if existsb (eqb e) (fst s) then 1 else 0 | _ => 0 end + removed cap (spec_step cap s o) r)%nat
  end.
Lemma del_first_len e l : length l = (length (del_first e l) + if existsb (eqb e) l then 1 else 0)%nat.
Proof. induction l as [|x l IH]; cbn; auto. destruct (eqb e x); cbn; lia. Qed.
Theorem C45_conservation : forall cap data ops, (cap <= length data)%nat -> (forall o, In o ops -> o <> BReset) ->
  exists b, sb_run (sb_init cap data) ops = Some b /\
  length (flat_map items ops) = (length (sb_view b) + sb_skip b + removed cap ([], O) ops)%nat.
Proof.
  intros cap data ops H Hn. destruct (C45_refines_bounded_list cap data ops H) as (b & E1 & _ & _ & V). exists b. split; auto.
  assert (G : forall s, (length (fst s) <= cap)%nat -> (length (fst s) + snd s + length (flat_map items ops) = length (fst (fold_left (spec_step cap) ops s)) + snd (fold_left (spec_step cap) ops s) + removed cap s ops)%nat).
  { clear V E1 H. induction ops as [|o r IH]; intros s Hs; cbn [fold_left flat_map removed]; [cbn; lia|].
    rewrite app_length. assert (Hr : forall o, In o r -> o <> BReset) by (intros; apply Hn; right; auto).
    destruct s as (l, k). cbn [fst snd] in *.
    assert (Hl : (length (fst (spec_step cap (l, k) o)) <= cap)%nat).
    { destruct o as [e|es|e|]; cbn [spec_step]; [destruct (Nat.ltb_spec (length l) cap); cbn; rewrite ?app_length; cbn; lia|cbn; rewrite firstn_length; lia|cbn; pose proof (del_first_len e l); lia|cbn; lia]. }
    specialize (IH Hr _ Hl). destruct o as [e|es|e|]; cbn [spec_step items] in *.
    - destruct (Nat.ltb_spec (length l) cap); cbn [fst snd length] in *; rewrite ?app_length in IH; cbn [length] in IH; lia.
    - cbn [fst snd] in *. pose proof (firstn_length cap (l ++ es)). pose proof (app_length l es). lia.
    - cbn [fst snd length] in *. pose proof (del_first_len e l). destruct (existsb (eqb e) l); lia.
    - destruct (Hn BReset); [left; auto|reflexivity]. }
  specialize (G ([], O)). rewrite <- V in G. cbn [fst snd length] in G. lia.
Qed.
End Spec.
Print Assumptions C45_refines_bounded_list.
Print Assumptions C45_appends_keep_prefix.
Print Assumptions C45_conservation.

Example C45_ex : exists b, sb_run Nat.eqb (sb_init 3 [9;9;9;9]%nat) [BAppend1 1; BAppend [2;3;4;5]; BRemove 2; BAppend1 6; BAppend1 7]%nat = Some b /\
  sb_view b = [1;3;6]%nat /\ sb_skip b = 3%nat.
Proof. eexists. split; [vm_compute; reflexivity|]. split; reflexivity. Qed.
