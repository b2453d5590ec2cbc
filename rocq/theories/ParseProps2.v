(* C47 (continued): what the readers of lists and dictionaries reject. *)
From Verif Require Import Base TextModel ParseModel ParseSpec ParseProofs ParseProps.
Open Scope N_scope.

(* reading only moves forward in the same text *)
Definition content (s : stream) : bytes := rev (s_prev s) ++ s_rest s.
Definition adv (s s' : stream) : Prop := content s' = content s /\ exists x, s_prev s' = x ++ s_prev s.
Lemma adv_refl s : adv s s. Proof. split; [reflexivity|exists []; reflexivity]. Qed.
Lemma adv_trans a b c : adv a b -> adv b c -> adv a c.
Proof. intros (A1 & x & A2) (B1 & y & B2). split; [congruence|]. exists (y ++ x). rewrite B2, A2, app_assoc. reflexivity. Qed.
Lemma get_adv s c s1 : s_get s = (c, s1) -> adv s s1 /\ (s_good s1 = true -> s_prev s1 = c :: s_prev s /\ adv s (s_unget s1)) /\ (s_good s1 = false -> c = 255).
Proof.
  unfold s_get. destruct s as [p r g]. cbn [s_good s_rest s_prev]. destruct g; [|intro E; injection E as <- <-; split; [apply adv_refl|split; [discriminate|reflexivity]]].
  destruct r as [|x r]; intro E; injection E as <- <-.
  - split; [split; [reflexivity|exists []; reflexivity]|]. split; [discriminate|reflexivity].
  - split; [split; [unfold content; cbn [s_prev s_rest rev]; rewrite <- app_assoc; reflexivity|exists [x]; reflexivity]|]. split; [|discriminate].
    intros _. split; [reflexivity|]. apply adv_refl.
Qed.
Lemma nonspace_adv fuel : forall s c s1, get_nonspace fuel s = (c, s1) -> adv s s1 /\ (s_good s1 = true -> exists q, s_prev s1 = c :: q /\ adv s (s_unget s1) /\ exists x, q = x ++ s_prev s) /\ (s_good s1 = false -> c = 255).
Proof.
  induction fuel as [|fuel IH]; intros s c s1 H; cbn [get_nonspace] in H; destruct (s_get s) as [c0 s0] eqn:E; destruct (get_adv _ _ _ E) as (A & B & C).
  - injection H as <- <-. split; [exact A|]. split; [|exact C]. intro G. destruct (B G) as (B1 & B2). exists (s_prev s). split; [exact B1|]. split; [exact B2|]. exists []. reflexivity.
  - destruct (s_good s0 && isspace c0) eqn:W.
    + destruct (IH _ _ _ H) as (A' & B' & C'). split; [eapply adv_trans; eauto|]. split; [|exact C']. intro G. destruct (B' G) as (q & Q1 & Q2 & x & Q3). exists q. split; [exact Q1|]. split; [eapply adv_trans; eauto|].
      destruct A as (_ & y & Y). exists (x ++ y). rewrite Q3, Y, app_assoc. reflexivity.
    + injection H as <- <-. split; [exact A|]. split; [|exact C]. intro G. destruct (B G) as (B1 & B2). exists (s_prev s). split; [exact B1|]. split; [exact B2|]. exists []. reflexivity.
Qed.
Lemma unget_bad s : s_good s = false -> s_unget s = s.
Proof. destruct s as [p r g]. cbn. intros ->. reflexivity. Qed.
Lemma char_adv s c s1 : read_char s = (c, s1) -> adv s s1 /\ adv s (s_unget s1) /\ (c <> 255 -> s_good s1 = true /\ exists x, s_prev s1 = c :: x ++ s_prev s).
Proof.
  intro H. destruct (nonspace_adv _ _ _ _ H) as (A & B & C). split; [exact A|]. destruct (s_good s1) eqn:G.
  - destruct (B eq_refl) as (q & Q1 & Q2 & x & Q3). split; [exact Q2|]. intros _. split; [reflexivity|]. exists x. rewrite Q1, Q3. reflexivity.
  - split; [rewrite (unget_bad _ G); exact A|]. intro N. exfalso. apply N. auto.
Qed.
Lemma word_loop_adv seps fuel : forall s esc ret w s', word_loop seps fuel s esc ret = (w, s') -> adv s s'.
Proof.
  induction fuel as [|fuel IH]; intros s esc ret w s' H; cbn [word_loop] in H; [injection H as _ <-; apply adv_refl|].
  destruct (s_good s); [|injection H as _ <-; apply adv_refl]. destruct (s_get s) as [c s1] eqn:E. destruct (get_adv _ _ _ E) as (A & B & _).
  destruct (c =? 92).
  - destruct (s_get s1) as [c2 s2] eqn:E2. destruct (get_adv _ _ _ E2) as (A2 & _). eapply adv_trans; [exact A|]. eapply adv_trans; [exact A2|]. eapply IH. exact H.
  - destruct (c =? 34); [eapply adv_trans; [exact A|eapply IH; exact H]|]. destruct (s_good s1); cbn [negb] in H; [|injection H as _ <-; exact A].
    destruct (negb esc && (isspace c || is_one_of c seps)); [injection H as _ <-; apply B; reflexivity|]. eapply adv_trans; [exact A|eapply IH; exact H].
Qed.
Lemma word_adv seps s w s' : read_word seps s = (w, s') -> adv s s'.
Proof.
  unfold read_word. destruct (read_char s) as [c s1] eqn:E. destruct (char_adv _ _ _ E) as (A & B & _). intro H. apply word_loop_adv in H. destruct (s_good s1); [exact (adv_trans _ _ _ B H)|exact (adv_trans _ _ _ A H)].
Qed.
Lemma nested_adv cs ce fuel : forall s esc d ret t s', nested_loop cs ce fuel s esc d ret = (t, s') -> adv s s'.
Proof.
  induction fuel as [|fuel IH]; intros s esc d ret t s' H; cbn [nested_loop] in H; [injection H as _ <-; apply adv_refl|].
  destruct (s_good s); [|injection H as _ <-; apply adv_refl]. destruct (s_get s) as [c s1] eqn:E. destruct (get_adv _ _ _ E) as (A & B & _).
  destruct (c =? 92).
  - destruct (s_get s1) as [c2 s2] eqn:E2. destruct (get_adv _ _ _ E2) as (A2 & _). eapply adv_trans; [exact A|]. eapply adv_trans; [exact A2|]. eapply IH. exact H.
  - destruct (s_good s1); cbn [negb] in H; [|injection H as _ <-; exact A]. destruct (_ =? 0)%Z; [injection H as _ <-; apply B; reflexivity|]. eapply adv_trans; [exact A|eapply IH; exact H].
Qed.
Lemma elem_adv seps s w s' : read_elem seps s = Some (w, s') -> adv s s'.
Proof.
  unfold read_elem. destruct (read_char s) as [c s1] eqn:E. destruct (char_adv _ _ _ E) as (A & B & _). destruct (c =? c_lbrace); [|destruct (c =? c_lbrack)].
  - unfold read_nested_text. destruct (nested_loop _ _ _ s1 _ _ _) as [t s2] eqn:E2. destruct (read_char s2) as [c2 s3] eqn:E3. destruct (c2 =? c_rbrace); [|discriminate]. intro H. injection H as _ <-.
    apply nested_adv in E2. apply char_adv in E3. eapply adv_trans; [exact A|]. eapply adv_trans; [exact E2|apply E3].
  - unfold read_nested_text. destruct (nested_loop _ _ _ s1 _ _ _) as [t s2] eqn:E2. destruct (read_char s2) as [c2 s3] eqn:E3. destruct (c2 =? c_rbrack); [|discriminate]. intro H. injection H as _ <-.
    apply nested_adv in E2. apply char_adv in E3. eapply adv_trans; [exact A|]. eapply adv_trans; [exact E2|apply E3].
  - intro H. injection H as H. apply word_adv in H. eapply adv_trans; eauto.
Qed.
(* s' is after a character c that comes after s *)
Definition past (c : N) (s : stream) (s' : stream) : Prop := exists x y, content s' = content s /\ s_prev s' = x ++ c :: y ++ s_prev s.
Lemma past_adv c s s1 s2 : adv s s1 -> past c s1 s2 -> past c s s2.
Proof. intros (A & z & Z) (x & y & B & C). exists x, (y ++ z). split; [congruence|]. rewrite C, Z, app_assoc. reflexivity. Qed.
Lemma past_char s c s1 : read_char s = (c, s1) -> c <> 255 -> past c s s1.
Proof. intros H N. destruct (char_adv _ _ _ H) as (A & _ & B). destruct (B N) as (_ & x & X). exists [], x. split; [apply A|exact X]. Qed.
Lemma list_loop_closed fuel : forall s ret l, list_loop fuel true s ret = (l, true) -> exists s', past c_rbrack s s'.
Proof.
  induction fuel as [|fuel IH]; intros s ret l H; cbn [list_loop] in H; [discriminate|].
  destruct (read_elem _ s) as [(w, s1)|] eqn:E; [|discriminate]. apply elem_adv in E. destruct (read_char s1) as [c s2] eqn:E2.
  destruct (s_good s2 && (c =? c_comma)) eqn:G.
  - destruct (IH _ _ _ H) as (s' & P). exists s'. eapply past_adv; [|exact P]. eapply adv_trans; [exact E|]. apply char_adv in E2. apply E2.
  - injection H as _ H. cbn [negb orb] in H. apply N.eqb_eq in H. subst c. exists s2. eapply past_adv; [exact E|]. apply past_char; [exact E2|discriminate].
Qed.
Lemma dict_loop_closed fuel : forall s ret l, dict_loop fuel s ret = (l, true) -> exists s1 s2, past c_colon s s1 /\ past c_rbrace s1 s2.
Proof.
  induction fuel as [|fuel IH]; intros s ret l H; cbn [dict_loop] in H; [discriminate|].
  destruct (read_word _ s) as [k s1] eqn:E. apply word_adv in E. destruct (read_char s1) as [c s2] eqn:E2. destruct (N.eqb_spec c c_colon) as [->|Hc]; cbn [negb] in H; [|discriminate].
  assert (P1 : past c_colon s s2) by (eapply past_adv; [exact E|apply past_char; [exact E2|discriminate]]).
  destruct (read_elem _ s2) as [(v, s3)|] eqn:E3; [|discriminate]. apply elem_adv in E3. destruct (read_char s3) as [c3 s4] eqn:E4.
  exists s2. destruct (s_good s4 && (c3 =? c_comma)).
  - destruct (IH _ _ _ H) as (t1 & t2 & Q1 & Q2). exists t2. split; [exact P1|]. apply (past_adv c_rbrace s2 s3 t2 E3). apply (past_adv c_rbrace s3 s4 t2 (proj1 (char_adv _ _ _ E4))).
    destruct Q1 as (x & y & C1 & D1). apply (past_adv c_rbrace s4 t1 t2); [|exact Q2]. split; [exact C1|]. exists (x ++ c_colon :: y). rewrite D1, <- app_assoc. cbn [app]. reflexivity.
  - injection H as _ H. apply N.eqb_eq in H. subst c3. exists s4. split; [exact P1|]. eapply past_adv; [exact E3|]. apply past_char; [exact E4|discriminate].
Qed.
Lemma prev_text s s' : content s' = s -> exists r, s = rev (s_prev s') ++ r.
Proof. intros <-. exists (s_rest s'). reflexivity. Qed.
(* A text that starts with an opening bracket is accepted as a list only if the bracket is closed. *)
Theorem C47_list_closed s l : rec_list s = (l, true) -> (exists sp t, s = sp ++ c_lbrack :: t /\ spaces sp) ->
  exists sp t r, s = sp ++ c_lbrack :: t ++ c_rbrack :: r.
Proof.
  intros H (sp & t & -> & Hsp). unfold rec_list, s_open in H. rewrite (read_char_ok sp [] c_lbrack t Hsp eq_refl) in H. change (c_lbrack =? c_lbrack) with true in H.
  destruct (list_loop_closed _ _ _ _ H) as (s' & x & y & C & D). cbn [s_prev] in D. unfold content in C. cbn [s_prev s_rest] in C. rewrite D in C.
  cbn [rev] in C. rewrite app_nil_r, rev_app_distr in C. cbn [rev] in C. rewrite rev_app_distr in C. cbn [rev] in C. rewrite rev_involutive, <- !app_assoc in C. cbn [app] in C.
  exists sp, (rev y), (rev x ++ s_rest s'). rewrite <- C. reflexivity.
Qed.
(* A text is accepted as a dictionary only if it has an opening brace, a key followed by a colon and a
   closing brace, in this order. *)
Theorem C47_dict_closed s l : rec_dict_assign s = (l, true) -> exists a k v r, s = a ++ c_lbrace :: k ++ c_colon :: v ++ c_rbrace :: r.
Proof.
  unfold rec_dict_assign. destruct (read_char (s_open s)) as [c s1] eqn:E. destruct (N.eqb_spec c c_lbrace) as [->|]; [|discriminate]. intro H.
  destruct (past_char _ _ _ E) as (x0 & y0 & C0 & D0); [discriminate|]. cbn [s_open s_prev] in D0. rewrite app_nil_r in D0.
  destruct (dict_loop_closed _ _ _ _ H) as (s2 & s3 & (x1 & y1 & C1 & D1) & (x2 & y2 & C2 & D2)).
  assert (E3 : rev (s_prev s3) ++ s_rest s3 = s) by (transitivity (content s3); [reflexivity|rewrite C2, C1, C0; reflexivity]).
  exists (rev y0), (rev (y1 ++ x0)), (rev (y2 ++ x1)), (rev x2 ++ s_rest s3). rewrite <- E3, D2, D1, D0. repeat (rewrite !rev_app_distr; cbn [rev]). rewrite <- !app_assoc. cbn [app]. reflexivity.
Qed.
(* "[a,b" and "{a b}" are rejected *)
Example C47_rejects_ex : snd (rec_list [91; 97; 44; 98]) = false /\ snd (rec_dict_assign [123; 97; 32; 98; 125]) = false /\ snd (rec_list [91; 97; 44; 98; 93]) = true.
Proof. vm_compute. auto. Qed.
