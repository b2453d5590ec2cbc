(* Parsing the clauses, continued *)
From Coq Require Import Strings.Ascii Strings.String.
From Verif Require Import Base TextModel ParseModel ParseSpec ParseProofs ParseProps RConfigModel FilterModel QueryModel QuerySpec QueryProofs QueryProofs2.
Open Scope N_scope.

Lemma kw_next ks r s : at_tokens r s -> follow ks r -> exists w s', read_word wseps s = (w, s') /\ kwpos r (lower w) s'.
Proof. apply next_word. Qed.
Lemma kwpos_not ks r kw s k : kwpos r kw s -> follow ks r -> In k ks -> k <> [] -> beq kw k = false.
Proof.
  intros H F Hk Hn. apply beq_false. intros ->. destruct r as [|x r]; [destruct H as [H _]; congruence|]. destruct x; cbn [kwpos follow] in *; try contradiction; destruct H as [H _]; try congruence. subst k0. exact (proj1 F Hk).
Qed.
Lemma as_parse ks o r t name kw s : good t -> o <> Some [] -> kwpos (opt_tokens "as" TWord o ++ r) kw s -> follow (bs "as" :: ks) r ->
  exists t' kw' s', select_as t name kw s = (t', kw', s') /\ t' = match o with Some w => upd t (add_alias (st_q t) name w) | None => t end /\ kwpos r kw' s'.
Proof.
  intros Gt Ho H F. unfold select_as. rewrite Gt. cbn [negb andb]. destruct o as [w|]; cbn [opt_tokens app] in H.
  - cbn [kwpos] in H. destruct H as [-> H]. rewrite beq_refl. destruct (at_w w r s H) as (s1 & E1 & A1). rewrite E1. destruct w as [|w0 w]; [congruence|]. destruct (next_word _ r s1 A1 F) as (k & s2 & E2 & P). rewrite E2. eexists. eexists. eexists. split; [reflexivity|split; [reflexivity|exact P]].
  - rewrite (kwpos_not _ r kw s (bs "as") H F (or_introl eq_refl)) by discriminate. eexists. eexists. eexists. split; [reflexivity|split; [reflexivity|exact H]].
Qed.
Lemma unit_parse ks o r t name kw s : good t -> o <> Some [] -> kwpos (opt_tokens "unit" TUnit o ++ r) kw s -> follow (bs "unit" :: ks) r ->
  exists t' kw' s', select_unit t name kw s = (t', kw', s') /\ t' = match o with Some w => upd t (add_unit (st_q t) name w) | None => t end /\ kwpos r kw' s'.
Proof.
  intros Gt Ho H F. unfold select_unit. rewrite Gt. cbn [negb andb]. destruct o as [w|]; cbn [opt_tokens app] in H.
  - cbn [kwpos] in H. destruct H as [-> H]. rewrite beq_refl. destruct (at_word (TUnit w) r s H) as (w' & s1 & E1 & W & A1 & _); [discriminate|]. cbn [token_word seps_of] in W, E1. subst w'. rewrite E1. destruct w as [|w0 w]; [congruence|]. destruct (next_word _ r s1 A1 F) as (k & s2 & E2 & P). rewrite E2. eexists. eexists. eexists. split; [reflexivity|split; [reflexivity|exact P]].
  - rewrite (kwpos_not _ r kw s (bs "unit") H F (or_introl eq_refl)) by discriminate. eexists. eexists. eexists. split; [reflexivity|split; [reflexivity|exact H]].
Qed.
Lemma follow_weaken ks ks' r : incl ks ks' -> follow ks' r -> follow ks r.
Proof. intros I. destruct r as [|k r]; [auto|]. destruct k; cbn; auto. intros (N & K). split; [intro D; apply N; apply I; exact D|exact K]. Qed.
Lemma follow_unit ks o r : follow (bs "unit" :: bs "as" :: ks) r -> ~ In (bs "unit") ks -> follow (bs "as" :: ks) (opt_tokens "unit" TUnit o ++ r).
Proof.
  intros H N. destruct o as [w|]; cbn [opt_tokens app]; [|eapply follow_weaken; [|exact H]; intros x Hx; right; exact Hx]. cbn [follow]. split; [|split; [discriminate|discriminate]]. intros [D|D]; [discriminate D|contradiction].
Qed.
Lemma follow_as o r : follow [] r -> follow [] (opt_tokens "as" TWord o ++ r).
Proof. intro H. destruct o; [|exact H]. cbn. split; [tauto|split; discriminate]. Qed.

(* the items of a SELECT clause, applied in order *)
Inductive sel_steps : list selitem -> list bytes -> query -> query -> Prop :=
| ss_nil q : sel_steps [] [] q q
| ss_cons x l col cols q q1 q2 : item_effect x col q q1 -> column_of x col -> sel_steps l cols (add_names x col q1) q2 -> sel_steps (x :: l) (col :: cols) q q2.
Lemma select_ok l : Forall item_ok l -> forall t s r fuel, good t -> l <> [] -> (length l <= fuel)%nat -> at_tokens (commas sel_tokens l ++ r) s -> ends [bs "unit"; bs "as"] r ->
  exists cols q kw s', select_loop fuel t s = (upd t q, kw, s') /\ sel_steps l cols (st_q t) q /\ reached r kw s'.
Proof.
  induction 1 as [|x l (Hcol & Has & Hun) Hl IH]; intros t s r fuel Gt Hne Hf H He; [congruence|]. destruct fuel as [|f]; [cbn [length] in Hf; lia|].
  rewrite commas_cons in H. fold (more sel_tokens l r) in H. unfold sel_tokens in H at 1. fold (what_tokens (si_what x)) in H. rewrite <- !app_assoc in H.
  assert (Fm : follow [bs "unit"; bs "as"] (more sel_tokens l r)) by (apply more_follow; exact He).
  assert (Fu : follow [bs "as"] (opt_tokens "unit" TUnit (si_unit x) ++ more sel_tokens l r)) by (apply (follow_unit []); [exact Fm|intros []]).
  assert (Fa : follow [] (opt_tokens "as" TWord (si_as x) ++ opt_tokens "unit" TUnit (si_unit x) ++ more sel_tokens l r)) by (apply follow_as; eapply follow_weaken; [|exact Fu]; intros z []).
  destruct (item_parse [] x _ t s Gt Hcol H Fa) as (col & q1 & s1 & E1 & He1 & Hc & A1). cbn [select_loop]. rewrite E1.
  destruct (next_word _ _ s1 A1 Fa) as (k & s2 & E2 & P2). rewrite E2.
  destruct (as_parse [] (si_as x) _ (upd t q1) col (lower k) s2 Gt Has P2 Fu) as (t2 & kw2 & s3 & E3 & Et2 & P3). rewrite E3.
  assert (Gt2 : good t2) by (rewrite Et2; destruct (si_as x); exact Gt).
  destruct (unit_parse [bs "as"] (si_unit x) _ t2 col kw2 s3 Gt2 Hun P3 Fm) as (t3 & kw3 & s4 & E4 & Et3' & P4). rewrite E4.
  assert (Et3 : t3 = upd t (add_names x col q1)) by (rewrite Et3', Et2; unfold add_names; destruct (si_as x), (si_unit x); reflexivity).
  rewrite Et3. rewrite upd_err, Gt. cbn [negb andb].
  destruct l as [|y l]; cbn [more] in P4.
  - pose proof (ends_kwpos _ r kw3 s4 He P4) as Q. destruct kw3 as [|k0 kw3].
    + destruct Q as [-> Q]. destruct (at_end_char s4 Q) as (s5 & E5 & G5 & A5 & U5). rewrite E5, G5. cbn [andb]. exists [col]. eexists. exists []. eexists. split; [reflexivity|]. split; [econstructor; [exact He1|exact Hc|constructor]|]. right. split; [reflexivity|]. unfold back. cbn. rewrite U5. exact A5.
    + exists [col]. eexists. eexists. eexists. split; [reflexivity|]. split; [econstructor; [exact He1|exact Hc|constructor]|]. left. exact P4.
  - cbn [kwpos] in P4. destruct P4 as [-> P4]. destruct (at_char 44 _ s4 P4 eq_refl) as (s5 & E5 & G5 & A5 & _). rewrite E5, G5. change (44 =? 44) with true. cbn [andb].
    destruct (IH (upd t (add_names x col q1)) s5 r f Gt ltac:(discriminate) ltac:(cbn [length] in *; lia) A5 He) as (cols & q & kw & s6 & E6 & S6 & R6).
    exists (col :: cols), q, kw, s6. split; [refine (eq_trans E6 _); reflexivity|]. split; [econstructor; [exact He1|exact Hc|exact S6]|exact R6].
Qed.

(* ---------- LET ---------- *)
Definition let_is (l : letitem) (p : pspec) : Prop :=
  p_target p = li_target l /\ (exists id, let_call (li_op l) id /\ op_is (p_op p) id (li_op l)) /\ match li_if l with Some c => cond_is c (p_cond p) | None => p_cond p = no_cond end.
Definition let_item_ok (l : letitem) : Prop := (exists id, let_call (li_op l) id) /\ match li_if l with Some c => cond_ok c | None => True end.
Lemma let_nonempty c id : let_call c id -> ~ In [] (call_args c).
Proof. intros (? & ? & ? & _ & _ & [_ H]). exact H. Qed.
Lemma let_ok l : Forall let_item_ok l -> forall t s r fuel, good t -> l <> [] -> (length l <= fuel)%nat -> NoDup (map p_target (q_pre (st_q t)) ++ map li_target l) -> at_tokens (commas let_tokens l ++ r) s -> ends [bs "if"] r ->
  exists ps kw s', let_loop fuel t s = (upd t (fold_left add_pre ps (st_q t)), kw, s') /\ Forall2 let_is l ps /\ reached r kw s'.
Proof.
  induction 1 as [|x l ((id & Hc) & Hif) Hl IH]; intros t s r fuel Gt Hne Hf Hd H He; [congruence|]. destruct fuel as [|f]; [cbn [length] in Hf; lia|].
  rewrite commas_cons in H. fold (more let_tokens l r) in H. unfold let_tokens in H at 1. cbn [app] in H. rewrite <- !app_assoc in H. destruct (at_w (li_target x) _ s H) as (s1 & E1 & A1). cbn [let_loop]. rewrite E1.
  destruct (at_char 61 _ s1 A1 eq_refl) as (s2 & E2 & _ & A2 & _). rewrite E2. change (61 =? 61) with true. cbn [negb].
  assert (Fm : follow [bs "if"] (more let_tokens l r)) by (apply more_follow; exact He).
  assert (Fi : follow [] (match li_if x with Some c => TKey (bs "if") :: cond_tokens c | None => [] end ++ more let_tokens l r)).
  { destruct (li_if x); [cbn; split; [tauto|split; discriminate]|eapply follow_weaken; [|exact Fm]; intros z []]. }
  destruct (call_parse [] (li_op x) _ s2 (let_nonempty _ _ Hc) A2 Fi) as (w & s3 & s4 & E3 & W & E4 & A4). rewrite E3. destruct (let_def w _ id Hc W) as (d & Ed & Hid & Hargs). rewrite Ed, E4. cbn [err_if]. rewrite Hargs.
  replace (existsb (fun p => beq (p_target p) (li_target x)) (q_pre (st_q t))) with false.
  2:{ symmetry. apply Bool.not_true_iff_false. intro D. apply existsb_exists in D. destruct D as (p & D1 & D2). apply beq_spec in D2. cbn [map] in Hd. apply NoDup_remove_2 in Hd. apply Hd. apply in_or_app. left. rewrite <- D2. apply in_map. exact D1. }
  cbn [andb negb err_if].
  set (p0 := fun cd => mkp (li_target x) (mko d (call_args (li_op x))) cd).
  (* the rest of the round, after the condition *)
  assert (Go : forall cd kl s6, let_is x (p0 cd) -> (kl = [] /\ at_tokens (more let_tokens l r) s6 \/ l = [] /\ kl <> [] /\ kwpos r kl s6) ->
    exists ps kw s', match kl with
       | [] => let (c2, s7) := read_char s6 in
               if negb (st_err (upd t (add_pre (st_q t) (p0 cd)))) && s_good s7 && (c2 =? 44) then let_loop f (upd t (add_pre (st_q t) (p0 cd))) s7 else (upd t (add_pre (st_q t) (p0 cd)), kl, back c2 s7)
       | _ => (upd t (add_pre (st_q t) (p0 cd)), kl, s6)
       end = (upd t (fold_left add_pre ps (st_q t)), kw, s') /\ Forall2 let_is (x :: l) ps /\ reached r kw s').
  { intros cd kl s6 Hp [[-> A6]|(-> & Nk & P6)].
    - destruct (more_step [bs "if"] let_tokens l r s6 He A6) as (ch & s7 & E7 & D). rewrite E7, upd_err, Gt. cbn [negb andb]. destruct l as [|y l].
      + destruct D as [D1 D2]. rewrite D1. exists [p0 cd]. eexists. eexists. split; [reflexivity|]. split; [constructor; [exact Hp|constructor]|]. right. split; [reflexivity|exact D2].
      + destruct D as [D1 D2]. rewrite D1. destruct (IH (upd t (add_pre (st_q t) (p0 cd))) s7 r f Gt ltac:(discriminate) ltac:(cbn [length] in *; lia)) as (ps & kw & s8 & E8 & F8 & R8); [|exact D2|exact He|].
        * rewrite upd_q. cbn [q_pre add_pre]. rewrite map_app, <- app_assoc. exact Hd.
        * exists (p0 cd :: ps), kw, s8. split; [refine (eq_trans E8 _); reflexivity|]. split; [constructor; assumption|exact R8].
    - destruct kl as [|k0 kl]; [congruence|]. exists [p0 cd]. eexists. eexists. split; [reflexivity|]. split; [constructor; [exact Hp|constructor]|]. left. exact P6. }
  unfold let_is in Go. cbn [p_target p_op p_cond p0] in Go. unfold p0 in Go.
  destruct (li_if x) as [c|] eqn:Ei.
  - cbn [app] in A4. destruct (at_key _ _ s4 A4) as (k & s5 & E5 & Wk & A5). rewrite E5, Wk, beq_refl. destruct (cond_ok_parse [bs "if"] c s5 _ Hif A5 Fm) as (cd & s6 & E6 & Hcd & _ & A6). rewrite E6. cbn [err_if]. rewrite Gt. cbv iota. rewrite upd_err, Gt. cbv iota.
    destruct (Go cd [] s6) as (ps & kw & s' & Eg & Fg & Rg); [split; [reflexivity|split; [exists id; split; [exact Hc|split; [exact Hid|reflexivity]]|exact Hcd]]|left; split; [reflexivity|exact A6]|].
    exists ps, kw, s'. rewrite upd_err, Gt in Eg. split; [exact Eg|split; [exact Fg|exact Rg]].
  - cbn [app] in A4. destruct (more_word [bs "if"] let_tokens l r s4 He A4) as (k & s5 & E5 & D). rewrite E5.
    assert (Nif : beq (lower k) (bs "if") = false). { apply beq_false. intro Q. destruct D as [[D _]|(_ & _ & D & _)]; [rewrite Q in D; discriminate D|apply D; rewrite Q; left; reflexivity]. }
    rewrite Nif. cbn [err_if]. rewrite Gt. cbv iota. rewrite upd_err, Gt. cbv iota.
    destruct (Go no_cond (lower k) s5) as (ps & kw & s' & Eg & Fg & Rg); [split; [reflexivity|split; [exists id; split; [exact Hc|split; [exact Hid|reflexivity]]|reflexivity]]| |].
    { destruct D as [D|(D1 & D2 & _ & D3)]; [left; exact D|right; auto]. }
    exists ps, kw, s'. rewrite upd_err, Gt in Eg. split; [exact Eg|split; [exact Fg|exact Rg]].
Qed.

(* ---------- FORMAT ---------- *)
Lemma open_eta s : s_open s = mks [] s true. Proof. reflexivity. Qed.
Lemma stops_eq61 sp t : spaces sp -> stops [61] (sp ++ 61 :: t).
Proof. intro H. apply stops_sep; [exact H|]. repeat split; try discriminate. left. reflexivity. Qed.
Lemma keyval_ok f a : fmtarg_text f a -> get_keyval a = match f with FKey k v => (k, v) | FValue v => ([], v) end.
Proof.
  intros [k v sp i sp1 sp2 j t Hsp Hsp1 Hsp2 Hi Hk _ Hj Hv Ht|v sp i sp1 Hsp Hsp1 Hi Hv]; unfold get_keyval, s_open.
  - rewrite (read_word_ok [61] sp i k [] _ Hsp Hk Hi (stops_eq61 sp1 _ Hsp1)). rewrite alive_app. rewrite read_char_ok by (assumption || reflexivity). change (61 =? 61) with true. cbv iota. rewrite (read_word_ok [44] sp2 j v _ t Hsp2 Hv Hj Ht). reflexivity.
  - rewrite (read_word_ok [61] sp i v [] sp1 Hsp Hv Hi (spaces_head_stop _ _ Hsp1)). destruct sp1 as [|c sp1]; [reflexivity|]. cbn [alive]. rewrite read_char_end by exact Hsp1. reflexivity.
Qed.
Lemma in_arglist_spec w d : in_arglist w d = true <-> In w (firstn (f_max d) (f_args d)).
Proof. unfold in_arglist. rewrite existsb_exists. split; [intros (x & H & E); apply beq_spec in E; subst; exact H|intro H; exists w; split; [exact H|apply beq_refl]]. Qed.
Lemma kwargs_ok d names : firstn (f_max d) (f_args d) = names -> forall ns pre args kw ret, names = pre ++ ns -> length kw = length args -> (length args <= length ns)%nat ->
  (forall n a x, nth_error args n = Some a -> nth_error kw n = Some x -> exists f, fmtarg_text f a /\ fmtarg_means names (length pre + n) f x) ->
  exists kw', kwargs_loop d ns args ret = (ret ++ kw', false) /\ length kw' = length args /\ forall n a x, nth_error args n = Some a -> nth_error kw' n = Some x -> exists f, fmtarg_text f a /\ fmtarg_means names (length pre + n) f x.
Proof.
  intros En. induction ns as [|nm ns IH]; intros pre args kw ret Ep Lk La H.
  - destruct args as [|a args]; [|cbn in La; lia]. exists []. cbn [kwargs_loop]. rewrite app_nil_r. split; [reflexivity|]. split; [reflexivity|]. intros [|n] a x E; discriminate E.
  - destruct args as [|a args]. { exists []. cbn [kwargs_loop]. rewrite app_nil_r. split; [reflexivity|]. split; [reflexivity|]. intros [|n] a x E; discriminate E. }
    destruct kw as [|x0 kw]; [discriminate Lk|]. destruct (H 0%nat a x0 eq_refl eq_refl) as (f & Hf & Hm).
    assert (Step : exists x1, (forall R, kwargs_loop d (nm :: ns) (a :: args) R = kwargs_loop d ns args (R ++ [x1])) /\ fmtarg_means names (length pre + 0) f x1).
    { cbn [kwargs_loop]. rewrite (keyval_ok f a Hf). destruct f as [k v|v].
      - assert (Nk : k <> []) by (inversion Hf; assumption). destruct k as [|k0 k]; [congruence|]. cbn [fmtarg_means] in Hm. destruct Hm as [Hin Hx]. exists (k0 :: k, v). split; [|split; [exact Hin|reflexivity]]. intro R. rewrite (proj2 (in_arglist_spec _ d)) by (rewrite En; exact Hin). reflexivity.
      - destruct (in_arglist v d) eqn:Ev.
        + exists (v, bs "true"). split; [reflexivity|]. left. split; [|reflexivity]. apply in_arglist_spec in Ev. rewrite En in Ev. exact Ev.
        + exists (nm, v). split; [reflexivity|]. right. split; [|split; [|reflexivity]].
          * intro D. rewrite <- En in D. apply in_arglist_spec in D. congruence.
          * cbn [fst]. rewrite Ep, Nat.add_0_r. rewrite nth_error_app2 by lia. rewrite Nat.sub_diag. reflexivity. }
    destruct Step as (x1 & S1 & S2). rewrite S1. destruct (IH (pre ++ [nm]) args kw (ret ++ [x1])) as (kw' & E & L & H').
    { rewrite <- app_assoc. exact Ep. } { cbn in Lk. lia. } { cbn in La. lia. }
    { intros n b x Hb Hx. destruct (H (S n) b x Hb Hx) as (g & G1 & G2). exists g. split; [exact G1|]. rewrite app_length. cbn [length]. replace (length pre + 1 + n)%nat with (length pre + S n)%nat by lia. exact G2. }
    exists (x1 :: kw'). split; [rewrite E, <- app_assoc; reflexivity|]. split; [cbn [length]; rewrite L; reflexivity|]. intros [|n] b x Hb Hx.
    + injection Hb as <-. injection Hx as <-. exists f. split; [exact Hf|exact S2].
    + destruct (H' n b x Hb Hx) as (g & G1 & G2). exists g. split; [exact G1|]. rewrite app_length in G2. cbn [length] in G2. replace (length pre + S n)%nat with (length pre + 1 + n)%nat by lia. exact G2.
Qed.
Lemma format_ok ks c t s r : good t -> (exists id kw, format_call c id kw) -> at_tokens (call_tokens c ++ r) s -> ends ks r ->
  exists d kw s', parse_format t s = (upd t (set_format (st_q t) d kw), s') /\ format_call c (f_id d) kw /\ at_tokens r s'.
Proof.
  intros Gt (id & kw & name & lo & names & Hin & Hf & Hc & Lk & Hk) H [F _]. pose proof Hc as [La Hn]. destruct (call_parse ks c r s Hn H F) as (w & s1 & s2 & E1 & W & E2 & A). unfold parse_format. rewrite E1.
  destruct (format_def w c name id lo names Hin Hf Hc W) as (d & Ed & Hid & Hargs & Hnames). rewrite Ed, E2. cbn [err_if]. rewrite Hargs.
  destruct (kwargs_ok d (map bs names) Hnames (map bs names) [] (call_args c) kw [] eq_refl Lk) as (kw' & E & L & Hk').
  { rewrite map_length. apply La. } { exact Hk. }
  unfold make_kwargs. rewrite Hnames, E. cbn [app err_if]. exists d, kw', s2. split; [reflexivity|]. split; [|exact A]. rewrite Hid. exists name, lo, names. split; [exact Hin|]. split; [exact Hf|]. split; [exact Hc|]. split; [exact L|exact Hk'].
Qed.
