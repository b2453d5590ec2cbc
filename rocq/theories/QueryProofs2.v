(* Parsing the clauses *)
From Coq Require Import Strings.Ascii Strings.String.
From Verif Require Import Base TextModel ParseModel ParseSpec ParseProofs ParseProps RConfigModel FilterModel QueryModel QuerySpec QueryProofs.
Open Scope N_scope.

(* ---------- the tables ---------- *)
Lemma len1 {A} (l : list A) : (1 <= length l <= 1)%nat -> exists a, l = [a].
Proof. destruct l as [|a [|b l]]; cbn; intro; try lia. exists a. reflexivity. Qed.
Lemma len2 {A} (l : list A) : (2 <= length l <= 2)%nat -> exists a b, l = [a; b].
Proof. destruct l as [|a [|b [|c l]]]; cbn; intro; try lia. exists a, b. reflexivity. Qed.
Lemma len23 {A} (l : list A) : (2 <= length l <= 3)%nat -> exists a b r, l = a :: b :: r /\ (length r <= 1)%nat.
Proof. destruct l as [|a [|b l]]; cbn; intro; try lia. exists a, b, l. split; [reflexivity|lia]. Qed.
Lemma argc_spec d (l : list bytes) : (f_min d <= length l <= f_max d)%nat -> argc_ok d l = true.
Proof. intro H. unfold argc_ok. rewrite (proj2 (Nat.ltb_ge _ _)) by lia. rewrite (proj2 (Nat.ltb_ge _ _)) by lia. reflexivity. Qed.
Lemma agg_def w c id col : agg_call c id col -> lower w = fst c -> w <> [] /\ exists d, get_def w agg_defs = Some d /\ f_id d = id /\ argc_ok d (call_args c) = true /\ agg_column (mko d (call_args c)) = col.
Proof.
  intros (name & lo & hi & pre & n & Hin & Hf & [Hl _] & ->) W. rewrite Hf in W. split.
  { intros ->. revert W. cbn [agg_functions In] in Hin. repeat (destruct Hin as [E|Hin]; [injection E as <- <- <- <- <- <-; discriminate|]). destruct Hin. }
  unfold get_def. rewrite W. revert Hl. generalize (call_args c). intros l Hl. cbn [agg_functions In] in Hin.
  repeat (destruct Hin as [E|Hin]; [injection E as <- <- <- <- <- <-; eexists; split; [vm_compute; reflexivity|]; split; [reflexivity|]; split; [apply argc_spec; exact Hl|];
    first [destruct l; [|cbn in Hl; lia]; reflexivity | destruct (len1 l Hl) as (a & ->); cbn; rewrite ?app_nil_r; reflexivity | destruct (len2 l Hl) as (a & b & ->); cbn; rewrite ?app_nil_r; reflexivity | destruct (len23 l Hl) as (a & b & r & -> & _); cbn; rewrite ?app_nil_r; reflexivity]|]).
  destruct Hin.
Qed.
Lemma let_def w c id : let_call c id -> lower w = fst c -> exists d, get_def w let_defs = Some d /\ f_id d = id /\ argc_ok d (call_args c) = true.
Proof.
  intros (name & lo & hi & Hin & Hf & [Hl _]) W. rewrite Hf in W. unfold get_def. rewrite W. cbn [let_functions In] in Hin.
  repeat (destruct Hin as [E|Hin]; [injection E as <- <- <- <-; eexists; split; [vm_compute; reflexivity|]; split; [reflexivity|]; apply argc_spec; exact Hl|]).
  destruct Hin.
Qed.
Lemma format_def w c name id lo names : In (name, id, lo, names) formatters -> fst c = bs name -> call_ok c lo (length names) -> lower w = fst c ->
  exists d, get_def w format_defs = Some d /\ f_id d = id /\ argc_ok d (call_args c) = true /\ firstn (f_max d) (f_args d) = map bs names.
Proof.
  intros Hin Hf [Hl _] W. rewrite Hf in W. unfold get_def. rewrite W. cbn [formatters In] in Hin.
  repeat (destruct Hin as [E|Hin]; [injection E as <- <- <- <-; eexists; split; [vm_compute; reflexivity|]; split; [reflexivity|]; split; [apply argc_spec; exact Hl|reflexivity]|]).
  destruct Hin.
Qed.

(* ---------- AGGREGATE ---------- *)
Definition good (t : pst) : Prop := st_err t = false.
Definition op_of (c : fcall) (o : fop) : Prop := exists id col, agg_call c id col /\ op_is o id c /\ agg_column o = col.
Lemma agg_nonempty c id col : agg_call c id col -> ~ In [] (call_args c).
Proof. intros (? & ? & ? & ? & ? & _ & _ & [_ H] & _). exact H. Qed.
Lemma upd_q t q : st_q (upd t q) = q. Proof. reflexivity. Qed.
Lemma upd_err t q : st_err (upd t q) = st_err t. Proof. reflexivity. Qed.
Lemma upd_upd t q q' : upd (upd t q) q' = upd t q'. Proof. reflexivity. Qed.
Lemma upd_id t : upd t (st_q t) = t. Proof. destruct t; reflexivity. Qed.
Lemma follow_comma ks x r : follow ks (TChar 44 :: x ++ r). Proof. reflexivity. Qed.
(* after the last item *)
Definition ends (ks : list bytes) (r : list token) : Prop := follow ks r /\ forall r', r <> TChar 44 :: r'.
Definition more {A} (f : A -> list token) (l : list A) (r : list token) : list token := match l with [] => r | _ => TChar 44 :: commas f l ++ r end.
Lemma more_follow {A} ks (f : A -> list token) l r : ends ks r -> follow ks (more f l r).
Proof. intros [H _]. destruct l; [exact H|reflexivity]. Qed.
Lemma more_step {A} ks (f : A -> list token) l r s : ends ks r -> at_tokens (more f l r) s -> exists c s', read_char s = (c, s') /\
  match l with [] => s_good s' && (c =? 44) = false /\ at_tokens r (back c s') | _ => s_good s' && (c =? 44) = true /\ at_tokens (commas f l ++ r) s' end.
Proof.
  intros He H. destruct (next_char ks _ s H (more_follow ks f l r He)) as (c & s' & E & D & _). exists c, s'. split; [exact E|]. destruct He as [_ Hr]. destruct l as [|x l]; cbn [more] in *.
  - destruct D as [(r' & -> & _)|(_ & D1 & D2 & _)]; [exfalso; eapply Hr; reflexivity|]. split; assumption.
  - destruct D as [(r' & Er & -> & G & A1)|(D1 & _)]; [|exfalso; eapply D1; reflexivity]. injection Er as <-. rewrite G. split; [reflexivity|exact A1].
Qed.
Lemma aggregate_ok ks l : Forall (fun c => exists id col, agg_call c id col) l -> forall t s r fuel, good t -> l <> [] -> (length l <= fuel)%nat -> at_tokens (commas call_tokens l ++ r) s -> ends ks r ->
  exists ops s', aggregate_loop fuel t s = (upd t (fold_left add_agg ops (st_q t)), s') /\ Forall2 op_of l ops /\ at_tokens r s'.
Proof.
  induction 1 as [|c l (id & col & Hc) Hl IH]; intros t s r fuel Gt Hne Hf H He; [congruence|]. destruct fuel as [|f]; [cbn [length] in Hf; lia|].
  rewrite commas_cons in H. fold (more call_tokens l r) in H. destruct (call_parse ks c _ s (agg_nonempty _ _ _ Hc) H (more_follow ks _ l r He)) as (w & s1 & s2 & E1 & W & E2 & A).
  destruct (agg_def w c id col Hc W) as (Nw & d & Ed & Hid & Hargs & Hcol). cbn [aggregate_loop]. rewrite E1, E2. destruct w as [|w0 w]; [congruence|]. rewrite Ed. cbn [err_if]. rewrite Hargs.
  destruct (more_step ks call_tokens l r s2 He A) as (ch & s3 & E3 & D). rewrite E3, upd_err. rewrite Gt. cbn [negb andb].
  assert (Ho : op_of c (mko d (call_args c))) by (exists id, col; split; [exact Hc|split; [split; [exact Hid|reflexivity]|exact Hcol]]).
  destruct l as [|c2 l].
  - destruct D as [D1 D2]. rewrite D1. exists [mko d (call_args c)]. eexists. split; [reflexivity|]. split; [constructor; [exact Ho|constructor]|exact D2].
  - destruct D as [D1 D2]. rewrite D1. destruct (IH (upd t (add_agg (st_q t) (mko d (call_args c)))) s3 r f Gt ltac:(discriminate) ltac:(cbn [length] in *; lia) D2 He) as (ops & s4 & E4 & F4 & A4).
    exists (mko d (call_args c) :: ops), s4. split; [|split; [constructor; assumption|exact A4]]. refine (eq_trans E4 _). reflexivity.
Qed.
(* ---------- GROUP BY ---------- *)
Lemma groupby_ok ks l : ~ In [] l -> forall t s r fuel, good t -> l <> [] -> (length l <= fuel)%nat -> at_tokens (commas (fun w => [TWord w]) l ++ r) s -> ends ks r ->
  exists s', groupby_loop fuel t s = (upd t (fold_left add_group l (st_q t)), s') /\ at_tokens r s'.
Proof.
  induction l as [|a l IH]; intros Hn t s r fuel Gt Hne Hf H He; [congruence|]. destruct fuel as [|f]; [cbn [length] in Hf; lia|].
  rewrite commas_cons in H. fold (more (fun w => [TWord w]) l r) in H. cbn [app] in H. destruct (at_w a _ s H) as (s1 & E1 & A). cbn [groupby_loop]. rewrite E1.
  assert (Ha : a <> []) by (intros ->; apply Hn; left; reflexivity). destruct a as [|a0 a]; [congruence|].
  destruct (more_step ks _ l r s1 He A) as (ch & s3 & E3 & D). rewrite E3, upd_err. rewrite Gt. cbn [negb andb]. destruct l as [|c2 l].
  - destruct D as [D1 D2]. rewrite D1. eexists. split; [reflexivity|exact D2].
  - destruct D as [D1 D2]. rewrite D1. destruct (IH (fun D => Hn (or_intror D)) (upd t (add_group (st_q t) (a0 :: a))) s3 r f Gt ltac:(discriminate) ltac:(cbn [length] in *; lia) D2 He) as (s4 & E4 & A4).
    exists s4. split; [|exact A4]. refine (eq_trans E4 _). reflexivity.
Qed.
(* ---------- conditions ---------- *)
Lemma cond_ok_parse ks c s r : cond_ok c -> at_tokens (cond_tokens c ++ r) s -> follow ks r -> exists d s', parse_cond s = (d, false, s') /\ cond_is c d /\ c_op d <> ONone /\ at_tokens r s'.
Proof.
  intros (Ha & Hnot & Hv) H F. destruct c as [neg a ts]. cbn [cn_not cn_attr cn_test] in *. unfold cond_tokens in H. cbn [cn_not cn_attr cn_test] in H.
  assert (P : exists w0 s0 s1, read_word wseps s = (w0, s0) /\ beq (lower w0) (bs "not") = neg /\ (if neg then read_word wseps s0 else (w0, s0)) = (a, s1) /\ at_tokens (test_tokens ts ++ r) s1).
  { destruct neg; cbn [app] in H.
    - destruct (at_key _ _ s H) as (w0 & s0 & E0 & W & A). destruct (at_w a _ s0 A) as (s1 & E1 & A1). exists w0, s0, s1. rewrite W, beq_refl. auto.
    - destruct (at_w a _ s H) as (s1 & E1 & A1). exists a, s1, s1. split; [exact E1|]. split; [apply beq_false; apply Hnot; reflexivity|]. split; [reflexivity|exact A1]. }
  destruct P as (w0 & s0 & s1 & E0 & En & E1 & A1). unfold parse_cond. rewrite E0, En, E1. destruct a as [|a0 a]; [congruence|].
  assert (Cmp : forall ch v, test_tokens ts = [TChar ch; TWord v] -> isspace ch = false -> v <> [] -> exists s2 s3, read_char s1 = (ch, s2) /\ read_word wseps s2 = (v, s3) /\ at_tokens r s3).
  { intros ch v Et Hc _. rewrite Et in A1. cbn [app] in A1. destruct (at_char ch _ s1 A1 Hc) as (s2 & E2 & _ & A2 & _). destruct (at_w v r s2 A2) as (s3 & E3 & A3). exists s2, s3. auto. }
  unfold cond_is. cbn [cn_not cn_attr cn_test]. destruct ts as [|v|v|v]; cbn [test_op fst snd test_tokens] in *.
  - cbn [app] in A1. destruct (next_char ks r s1 A1 F) as (ch & s2 & E2 & _ & U & N40 & N61 & N60 & N62). rewrite E2. rewrite (proj2 (N.eqb_neq ch 61) N61), (proj2 (N.eqb_neq ch 60) N60), (proj2 (N.eqb_neq ch 62) N62).
    eexists. eexists. split; [reflexivity|]. destruct neg; (split; [reflexivity|split; [discriminate|exact U]]).
  - destruct (Cmp 61 v eq_refl eq_refl Hv) as (s2 & s3 & E2 & E3 & A3). rewrite E2. change (61 =? 61) with true. cbv iota. rewrite E3. destruct v as [|v0 v]; [congruence|]. eexists. eexists. split; [reflexivity|]. destruct neg; (split; [reflexivity|split; [discriminate|exact A3]]).
  - destruct (Cmp 60 v eq_refl eq_refl Hv) as (s2 & s3 & E2 & E3 & A3). rewrite E2. change (60 =? 61) with false. change (60 =? 60) with true. cbv iota. rewrite E3. destruct v as [|v0 v]; [congruence|]. eexists. eexists. split; [reflexivity|]. destruct neg; (split; [reflexivity|split; [discriminate|exact A3]]).
  - destruct (Cmp 62 v eq_refl eq_refl Hv) as (s2 & s3 & E2 & E3 & A3). rewrite E2. change (62 =? 61) with false. change (62 =? 60) with false. change (62 =? 62) with true. cbv iota. rewrite E3. destruct v as [|v0 v]; [congruence|]. eexists. eexists. split; [reflexivity|]. destruct neg; (split; [reflexivity|split; [discriminate|exact A3]]).
Qed.
Lemma where_ok ks l : Forall cond_ok l -> forall t s r fuel, good t -> l <> [] -> (length l <= fuel)%nat -> at_tokens (commas cond_tokens l ++ r) s -> ends ks r ->
  exists ds s', where_loop fuel t s = (upd t (fold_left add_filter ds (st_q t)), s') /\ Forall2 cond_is l ds /\ at_tokens r s'.
Proof.
  induction 1 as [|c l Hc Hl IH]; intros t s r fuel Gt Hne Hf H He; [congruence|]. destruct fuel as [|f]; [cbn [length] in Hf; lia|].
  rewrite commas_cons in H. fold (more cond_tokens l r) in H. destruct (cond_ok_parse ks c s _ Hc H (more_follow ks _ l r He)) as (d & s1 & E1 & Hd & Hop & A).
  cbn [where_loop]. rewrite E1. cbn [err_if]. rewrite Gt. destruct (more_step ks cond_tokens l r s1 He A) as (ch & s3 & E3 & D). rewrite E3.
  replace (negb match c_op d with ONone => true | _ => false end) with true by (destruct (c_op d); [congruence|reflexivity..]). cbn [negb andb]. rewrite upd_err, Gt. cbn [negb andb]. destruct l as [|c2 l].
  - destruct D as [D1 D2]. rewrite D1. exists [d]. eexists. split; [reflexivity|]. split; [constructor; [exact Hd|constructor]|exact D2].
  - destruct D as [D1 D2]. rewrite D1. destruct (IH (upd t (add_filter (st_q t) d)) s3 r f Gt ltac:(discriminate) ltac:(cbn [length] in *; lia) D2 He) as (ds & s4 & E4 & F4 & A4).
    exists (d :: ds), s4. split; [|split; [constructor; assumption|exact A4]]. refine (eq_trans E4 _). reflexivity.
Qed.
(* ---------- ORDER BY ---------- *)
Definition reached (r : list token) (kw : bytes) (s : stream) : Prop := kwpos r kw s \/ (kw = [] /\ at_tokens r s).
Definition asc_of (o : bytes * direction) : bool := match snd o with DDesc => false | _ => true end.
Definition add_ord (q : query) (o : bytes * direction) : query := add_order q (fst o) (asc_of o).
Definition sort_kws : list bytes := [bs "asc"; bs "desc"].
Lemma ends_kwpos ks r kw s : ends ks r -> kwpos r kw s -> match kw with [] => r = [] /\ at_tokens [] s | _ => exists r', r = TKey kw :: r' /\ at_tokens r' s /\ ~ In kw ks end.
Proof.
  intros [F N] H. destruct r as [|k r]; [destruct H as [-> H]; split; [reflexivity|exact H]|]. destruct k; cbn [follow] in F; try contradiction.
  - cbn [kwpos] in H. destruct H as [-> H]. destruct F as (F1 & F2 & _). destruct k as [|k0 k]; [congruence|]. exists r. split; [reflexivity|split; [exact H|exact F1]].
  - exfalso. eapply N. rewrite F. reflexivity.
Qed.
Lemma more_word {A} ks (f : A -> list token) l r s : ends ks r -> at_tokens (more f l r) s -> exists w s', read_word wseps s = (w, s') /\
  ((lower w = [] /\ at_tokens (more f l r) s') \/ (l = [] /\ lower w <> [] /\ ~ In (lower w) ks /\ kwpos r (lower w) s')).
Proof.
  intros He H. destruct (next_word ks _ s H (more_follow ks f l r He)) as (w & s' & E & P). exists w, s'. split; [exact E|]. destruct l as [|x l]; cbn [more] in *.
  - pose proof (ends_kwpos ks r (lower w) s' He P) as Q. destruct (lower w) as [|k0 k]; [left; destruct Q as [-> Q]; split; [reflexivity|exact Q]|]. right. destruct Q as (r' & -> & Q & N). split; [reflexivity|]. split; [discriminate|]. split; [exact N|exact P].
  - left. exact P.
Qed.
Lemma sort_ok l : ~ In [] (map fst l) -> forall t s r fuel, good t -> l <> [] -> (length l <= fuel)%nat -> at_tokens (commas order_tokens l ++ r) s -> ends sort_kws r ->
  exists kw s', sort_loop fuel t s = (upd t (fold_left add_ord l (st_q t)), kw, s') /\ reached r kw s'.
Proof.
  induction l as [|[a dir] l IH]; intros Hn t s r fuel Gt Hne Hf H He; [congruence|]. destruct fuel as [|f]; [cbn [length] in Hf; lia|].
  rewrite commas_cons in H. fold (more order_tokens l r) in H. unfold order_tokens in H at 1. cbn [fst snd app] in H. destruct (at_w a _ s H) as (s1 & E1 & A). cbn [sort_loop]. rewrite E1.
  assert (Ha : a <> []) by (intros ->; apply Hn; left; reflexivity). destruct a as [|a0 a]; [congruence|]. cbn [map] in Hn.
  assert (Go : forall s2, at_tokens (more order_tokens l r) s2 -> exists kw s', (let (c, s3) := read_char s2 in
      if negb (st_err t) && s_good s3 && (c =? 44) then sort_loop f (upd t (add_ord (st_q t) (a0 :: a, dir))) s3 else (upd t (add_ord (st_q t) (a0 :: a, dir)), [], back c s3))
      = (upd t (fold_left add_ord ((a0 :: a, dir) :: l) (st_q t)), kw, s') /\ reached r kw s').
  { intros s2 A2. destruct (more_step sort_kws order_tokens l r s2 He A2) as (ch & s3 & E3 & D). rewrite E3, Gt. cbn [negb andb]. destruct l as [|o2 l].
    - destruct D as [D1 D2]. rewrite D1. eexists. eexists. split; [reflexivity|]. right. split; [reflexivity|exact D2].
    - destruct D as [D1 D2]. rewrite D1. destruct (IH (fun D => Hn (or_intror D)) (upd t (add_ord (st_q t) (a0 :: a, dir))) s3 r f Gt ltac:(discriminate) ltac:(cbn [length] in *; lia) D2 He) as (kw & s4 & E4 & A4).
      exists kw, s4. split; [|exact A4]. refine (eq_trans E4 _). reflexivity. }
  destruct dir; cbn [app] in A.
  - destruct (more_word sort_kws order_tokens l r s1 He A) as (w & s2 & E2 & [[W A2]|(Hl & W & N & P)]); rewrite E2, W || rewrite E2.
    + exact (Go s2 A2).
    + subst l. replace (beq (lower w) (bs "asc")) with false by (symmetry; apply beq_false; intro Q; apply N; rewrite Q; left; reflexivity). replace (beq (lower w) (bs "desc")) with false by (symmetry; apply beq_false; intro Q; apply N; rewrite Q; right; left; reflexivity).
      cbn [orb negb]. destruct (lower w) as [|k0 k]; [congruence|]. eexists. eexists. split; [reflexivity|]. left. exact P.
  - destruct (at_key _ _ s1 A) as (w & s2 & E2 & W & A2). rewrite E2, W. exact (Go s2 A2).
  - destruct (at_key _ _ s1 A) as (w & s2 & E2 & W & A2). rewrite E2, W. exact (Go s2 A2).
Qed.

(* ---------- SELECT ---------- *)
Definition sel_kws : list bytes := [bs "as"; bs "unit"].
Definition what_tokens (x : selected) : list token := match x with SStar => [TChar 42] | SColumn a => [TName a] | SCall f l => call_tokens (f, Some l) end.
(* the effect of an item: column, operation *)
Inductive item_effect : selitem -> bytes -> query -> query -> Prop :=
| ie_star a u q : item_effect (mksi SStar a u) [] q (set_select q SelAll (q_sel q))
| ie_column n a u q : item_effect (mksi (SColumn n) a u) n q (set_select q SelList (q_sel q ++ [n]))
| ie_call f l a u o col q : op_of (f, Some l) o -> agg_column o = col ->
    item_effect (mksi (SCall f l) a u) col q (match q_ssel q with SelAll => add_agg q o | _ => set_select (add_agg q o) SelList (q_sel q ++ [col]) end).
Definition add_names (x : selitem) (col : bytes) (q : query) : query :=
  let q1 := match si_as x with Some w => add_alias q col w | None => q end in
  match si_unit x with Some w => add_unit q1 col w | None => q1 end.
Lemma at_name w r s : at_tokens (TName w :: r) s -> exists s', read_word wseps s = (w, s') /\ at_tokens r s'.
Proof. intro H. destruct (at_word (TName w) r s H) as (w' & s' & E & W & A & _); [discriminate|]. cbn [token_word] in W. subst w'. exists s'. split; [exact E|exact A]. Qed.
Lemma item_parse ks x r t s : good t -> (exists col, column_of x col) -> at_tokens (what_tokens (si_what x) ++ r) s -> follow ks r ->
  exists col q s', select_item t s = (upd t q, col, s') /\ item_effect x col (st_q t) q /\ column_of x col /\ at_tokens r s'.
Proof.
  intros Gt (col & Hcol) H F. destruct Hcol as [a u|n a u Hn|f l a u id n Hc]; cbn [si_what what_tokens] in H; unfold select_item.
  - cbn [app] in H. destruct (at_char 42 r s H eq_refl) as (s' & E & _ & A & _). rewrite E. change (42 =? 42) with true. exists []. eexists. exists s'. split; [reflexivity|]. split; [constructor|]. split; [constructor|exact A].
  - cbn [app] in H. destruct (at_word_char (TName n) r s H) as (c & s1 & E & G & A & _ & _ & N & _); [discriminate|]. rewrite E. rewrite (proj2 (N.eqb_neq c 42) (N n eq_refl)).
    destruct (at_name n r _ A) as (s2 & E2 & A2). rewrite E2. destruct (next_char ks r s2 A2 F) as (c2 & s3 & E3 & _ & U & N40 & _). rewrite E3. rewrite (proj2 (N.eqb_neq c2 40) N40). destruct n as [|n0 n]; [congruence|].
    eexists. eexists. eexists. split; [reflexivity|]. split; [constructor|]. split; [constructor; exact Hn|exact U].
  - unfold call_tokens in H. cbn [fst snd app] in H. destruct (at_word_char (TKey f) _ s H) as (c & s1 & E & G & A & _ & N & _); [discriminate|]. rewrite E.
    assert (N42 : c <> 42).
    { destruct (at_word_char (TKey f) _ s H) as (c' & s1' & E' & _); [discriminate|].
      intros ->. clear E'. destruct H as [H _]. destruct (word_inv (TKey f) _ _ H) as (w & sp & i & t' & Et & Hsp & Hw & Hi & Hs & _); [discriminate|]. destruct i as [|i0 i]; [congruence|].
      assert (i0 = 42). { rewrite (stream_eta s), Et in E. pose proof A as Ag. assert (Gs : s_good s = true). { destruct (s_good s) eqn:Gs; [reflexivity|]. unfold read_char in E. cbn [s_rest] in E. destruct (length (sp ++ (i0 :: i) ++ t')); cbn [get_nonspace] in E; unfold s_get in E; cbn [s_good] in E; injection E; intros; discriminate. }
        rewrite Gs in E. cbn [app] in E. rewrite read_char_ok in E; [injection E; auto|exact Hsp|]. apply (spells_first _ _ _ Hs). discriminate. }
      subst i0. destruct Hc as (name & lo & hi & pre & k & Hin & Hf & _). cbn [fst] in Hf. cbn [token_word] in Hw. rewrite Hf in Hw. inversion Hs; subst; try discriminate. cbn [map] in Hw. cbn [agg_functions In] in Hin. repeat (destruct Hin as [Q|Hin]; [injection Q as <- <- <- <- <- <-; discriminate|]). destruct Hin. }
    rewrite (proj2 (N.eqb_neq c 42) N42). destruct (at_key f _ _ A) as (w & s2 & E2 & W & A2). rewrite E2. assert (Hn : ~ In [] l) by (apply (agg_nonempty _ _ _ Hc)).
    assert (A2' := A2). unfold args_tokens in A2'. cbn [app] in A2'. destruct (at_char 40 _ s2 A2' eq_refl) as (s3 & E3 & _ & _ & U & _). rewrite E3. change (40 =? 40) with true.
    destruct (agg_def w (f, Some l) id n Hc W) as (Nw & d & Ed & Hid & Hargs & Hcol). destruct w as [|w0 w]; [congruence|]. rewrite Ed.
    change (TChar 40 :: (commas (fun a0 => [TArg a0]) l ++ [TChar 41]) ++ r) with (args_tokens l ++ r) in U. destruct (arglist_ok l _ r Hn U) as (s4 & E4 & A4). rewrite E4. cbn [err_if]. cbn [call_args snd] in Hargs, Hcol. rewrite Hargs.
    exists n. eexists. exists s4. rewrite Hcol. split; [reflexivity|]. split; [|split; [econstructor; exact Hc|exact A4]]. rewrite <- Hcol.
    apply (ie_call f l a u (mko d l) _ (st_q t)); [exists id, n; split; [exact Hc|split; [split; [exact Hid|reflexivity]|exact Hcol]]|reflexivity].
Qed.
