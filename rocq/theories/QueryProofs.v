(* Reading tokens *)
From Coq Require Import Strings.Ascii Strings.String.
From Verif Require Import Base TextModel ParseModel ParseSpec ParseProofs ParseProps RConfigModel FilterModel QueryModel QuerySpec.
Open Scope N_scope.

Lemma beq_spec a b : beq a b = true <-> a = b.
Proof. unfold beq. destruct (list_eq_dec N.eq_dec a b); split; intros; congruence. Qed.
Lemma beq_false a b : beq a b = false <-> a <> b.
Proof. unfold beq. destruct (list_eq_dec N.eq_dec a b); split; intros; congruence. Qed.
Lemma beq_refl a : beq a a = true. Proof. apply beq_spec. reflexivity. Qed.
Lemma lower_idem w : lower (lower w) = lower w.
Proof.
  unfold lower. rewrite map_map. apply map_ext. intro c. unfold tolower.
  destruct ((65 <=? c) && (c <=? 90)) eqn:E; [|rewrite E; reflexivity].
  apply andb_true_iff in E. destruct E as [E1 E2]. apply N.leb_le in E1, E2. destruct ((65 <=? c + 32) && (c + 32 <=? 90)) eqn:F; [|reflexivity].
  apply andb_true_iff in F. destruct F as [_ F]. apply N.leb_le in F. lia.
Qed.

(* ---------- separators ---------- *)
Definition same (a b : bytes) : Prop := forall c, delim a c <-> delim b c.
Lemma spells_ext a b i w : same a b -> spells a i w -> spells b i w.
Proof.
  intros E H. induction H as [|c i w (H1 & H2 & H3) H IH|c i w H IH|i w i' w' Hq H IH]; [constructor|constructor; [|exact IH]|constructor; exact IH|constructor; [exact Hq|exact IH]].
  split; [exact H1|split; [exact H2|]]. intro D. apply H3. apply E. exact D.
Qed.
Lemma stops_ext a b t : same a b -> stops a t -> stops b t.
Proof. intros E. destruct t as [|c t]; [auto|]. intros (H & H'). split; [apply E; exact H|exact H']. Qed.
Lemma same_nl a b : (forall c, In c b <-> c = 10 \/ In c a) -> same a b.
Proof. intros H c. unfold delim. rewrite H. split; [intros [D|D]; auto|intros [D|[->|D]]; auto]. Qed.
Definition seps_of (k : token) : bytes := match k with TArg _ => aseps | TUnit _ => useps | _ => wseps end.
Lemma same_seps k : same (delims k) (seps_of k).
Proof. apply same_nl. intro c. destruct k; cbn; intuition (subst; auto 12). Qed.

(* ---------- positions ---------- *)
Definition at_tokens (r : list token) (s : stream) : Prop := spelled r (s_rest s) /\ (s_good s = true \/ s_rest s = []).
Lemma spaces_head_stop seps t : spaces t -> stops seps t.
Proof. destruct 1 as [|c t Hc _]; [exact Logic.I|]. split; [left; exact Hc|apply isspace_not; exact Hc]. Qed.
Lemma spelled_nil t : spelled [] t -> spaces t.
Proof. intro H. inversion H. assumption. Qed.
Lemma spelled_cons k r t : spelled (k :: r) t -> t <> [].
Proof. intro H. inversion H; subst; intro E; apply app_eq_nil in E; destruct E as [_ E]; [apply app_eq_nil in E; destruct E; contradiction|discriminate]. Qed.
Lemma at_good k r s : at_tokens (k :: r) s -> s_good s = true.
Proof. intros [H [G|G]]; [exact G|]. apply spelled_cons in H. contradiction. Qed.
Lemma stream_eta s : s = mks (s_prev s) (s_rest s) (s_good s). Proof. destruct s; reflexivity. Qed.
Lemma word_inv k r t : spelled (k :: r) t -> (forall c, k <> TChar c) -> exists w sp i t', t = sp ++ i ++ t' /\ spaces sp /\ token_word k w /\ i <> [] /\ spells (seps_of k) i w /\ (forall v, k = TName v -> hd 0 i <> 42) /\ stops (seps_of k) t' /\ spelled r t'.
Proof.
  intros H N. remember (k :: r) as l eqn:El. destruct H as [|k' w r' sp i t' Hsp Hw Hi Hs Hh Ht Hr|c r' sp t' Hsp Hr]; [discriminate El| |].
  - injection El as -> ->. exists w, sp, i, t'. repeat (split; [first [reflexivity | assumption | eapply spells_ext; [apply same_seps|exact Hs] | eapply stops_ext; [apply same_seps|exact Ht]]|]). exact Hr.
  - injection El as <- <-. exfalso. eapply N. reflexivity.
Qed.
Lemma at_alive r p t : spelled r t -> at_tokens r (mks p t (alive t)).
Proof. intro H. split; [exact H|]. cbn [s_good s_rest]. destruct t; [right|left]; reflexivity. Qed.
(* a word *)
Lemma at_word k r s : at_tokens (k :: r) s -> (forall c, k <> TChar c) -> exists w s', read_word (seps_of k) s = (w, s') /\ token_word k w /\ at_tokens r s' /\ (length (s_rest s') < length (s_rest s))%nat.
Proof.
  intros H N. pose proof (at_good _ _ _ H) as G. destruct H as [H _]. destruct (word_inv k r _ H N) as (w & sp & i & t & E & Hsp & Hw & Hi & Hs & _ & Ht & Hr).
  rewrite (stream_eta s), G, E, (read_word_ok _ sp i w _ t Hsp Hs Hi Ht). eexists. eexists. split; [reflexivity|]. split; [exact Hw|]. split; [apply at_alive; exact Hr|].
  cbn [s_rest]. rewrite !app_length. destruct i; [congruence|]. cbn [length]. lia.
Qed.
Definition punct (c : N) : Prop := isspace c = false /\ c <> 34 /\ c <> 92.
(* a character *)
Lemma at_char c r s : at_tokens (TChar c :: r) s -> isspace c = false -> exists s', read_char s = (c, s') /\ s_good s' = true /\ at_tokens r s' /\ at_tokens (TChar c :: r) (s_unget s') /\ (length (s_rest s') < length (s_rest s))%nat /\ length (s_rest (s_unget s')) = S (length (s_rest s')).
Proof.
  intros H Hc. pose proof (at_good _ _ _ H) as G. destruct H as [H _]. rewrite (stream_eta s), G. remember (s_rest s) as rs eqn:Ers. clear Ers. remember (TChar c :: r) as l eqn:El.
  destruct H as [|k' w r' sp i t' Hsp Hw Hi Hs Hh Ht Hr|c' r' sp t' Hsp Hr]; [discriminate El| |].
  - injection El as -> ->. destruct Hw.
  - injection El as -> ->. rewrite read_char_ok by assumption. eexists. split; [reflexivity|]. cbn [s_good s_rest s_unget s_prev]. split; [reflexivity|]. split; [split; [exact Hr|left; reflexivity]|].
    split; [split; [apply (sp_punct c r []); [constructor|exact Hr]|left; reflexivity]|]. rewrite app_length. cbn [length]. split; [lia|reflexivity].
Qed.
(* the end *)
Lemma at_end_char s : at_tokens [] s -> exists s', read_char s = (255, s') /\ s_good s' = false /\ at_tokens [] s' /\ s_unget s' = s'.
Proof.
  intros [H G]. apply spelled_nil in H. destruct (s_good s) eqn:E.
  - rewrite (stream_eta s), E, read_char_end by exact H. eexists. split; [reflexivity|]. split; [reflexivity|]. split; [split; [constructor; constructor|right; reflexivity]|reflexivity].
  - destruct G as [G|G]; [discriminate G|]. exists s. unfold read_char. rewrite G. cbn [length get_nonspace]. unfold s_get. rewrite E. split; [reflexivity|]. split; [reflexivity|]. split; [split; [rewrite G; constructor; constructor|right; exact G]|unfold s_unget; rewrite E; reflexivity].
Qed.
Lemma word_loop_bad seps fuel s esc ret : s_good s = false -> word_loop seps fuel s esc ret = (rev ret, s).
Proof. intro H. destruct fuel; [reflexivity|]. cbn [word_loop]. rewrite H. reflexivity. Qed.
Lemma at_end_word seps s : at_tokens [] s -> exists s', read_word seps s = ([], s') /\ s_good s' = false /\ at_tokens [] s'.
Proof.
  intro H. destruct (at_end_char s H) as (s' & E & G & A & _). exists s'. unfold read_word. rewrite E, G, word_loop_bad by exact G. split; [reflexivity|]. split; [reflexivity|exact A].
Qed.
(* no word before a separator *)
Lemma at_char_word seps c r s : at_tokens (TChar c :: r) s -> sep_ok seps c -> exists s', read_word seps s = ([], s') /\ at_tokens (TChar c :: r) s' /\ (length (s_rest s') <= length (s_rest s))%nat.
Proof.
  intros H (Hc1 & Hc2 & Hc3 & Hc4). destruct (at_char c r s H Hc2) as (s' & E & G & A & A' & L & L'). unfold read_word. rewrite E, G.
  exists (s_unget s'). pose proof (at_good _ _ _ A') as G'. assert (Eu : s_rest (s_unget s') = c :: s_rest s').
  { pose proof H as [H0 _]. rewrite (stream_eta s), (at_good _ _ _ H) in E. revert H0 E. remember (s_rest s) as rs eqn:Ers. clear Ers. intro H0. remember (TChar c :: r) as l eqn:El. destruct H0 as [|k' w r' sp i t' Hsp Hw Hi Hs Hh Ht Hr|c' r' sp t' Hsp Hr]; [discriminate El|injection El as -> ->; destruct Hw|].
    injection El as -> ->. rewrite read_char_ok by assumption. intro E. injection E as <-. reflexivity. }
  assert (L0 : forall n, word_loop seps (S n) (s_unget s') false [] = ([], s_unget s')).
  { intro n. destruct (s_unget s') as [pp rr gg]. cbn [s_rest s_good] in Eu, G'. subst rr gg. rewrite loop_stop; [reflexivity|split; [right; exact Hc1|split; assumption]]. }
  rewrite L0. split; [reflexivity|]. split; [exact A'|lia].
Qed.
(* the first character of a word *)
Lemma spells_first seps i w : spells seps i w -> i <> [] -> ~ In (hd 0 i) (filter (fun c => negb ((c =? 34) || (c =? 92))) seps) /\ isspace (hd 0 i) = false.
Proof.
  intros H Hi. destruct H as [|c i w (H1 & H2 & H3) H|c i w H|i w i' w' Hq H]; [congruence| | |]; cbn [hd]; (split; [|try reflexivity; try (eapply plain_nospace; split; [|split]; eassumption)]).
  - intro D. apply filter_In in D. apply H3. right. apply D.
  - intro D. apply filter_In in D. destruct D as [_ D]. discriminate D.
  - intro D. apply filter_In in D. destruct D as [_ D]. discriminate D.
Qed.
Lemma at_word_char k r s : at_tokens (k :: r) s -> (forall c, k <> TChar c) -> exists c s', read_char s = (c, s') /\ s_good s' = true /\ at_tokens (k :: r) (s_unget s') /\ ~ In c aseps /\ (match k with TArg _ => True | TUnit _ => c <> 61 | _ => ~ In c wseps end) /\ (forall v, k = TName v -> c <> 42) /\ isspace c = false /\ (length (s_rest (s_unget s')) <= length (s_rest s))%nat /\ (c = 0 -> exists w', token_word k (0 :: w')).
Proof.
  intros H N. pose proof (at_good _ _ _ H) as G. destruct H as [H _]. destruct (word_inv k r _ H N) as (w & sp & i & t & E & Hsp & Hw & Hi & Hs & Hh & Ht & Hr).
  destruct (spells_first _ _ _ Hs Hi) as [F1 F2]. destruct i as [|c i]; [congruence|]. cbn [hd] in *. rewrite (stream_eta s), G, E. cbn [app]. rewrite read_char_ok by assumption.
  exists c. eexists. split; [reflexivity|]. cbn [s_good s_unget s_prev s_rest]. split; [reflexivity|]. split.
  { split; [|left; reflexivity]. cbn [s_rest]. apply (sp_token k w r [] (c :: i) t); try assumption; try constructor; [eapply spells_ext; [intro z; symmetry; apply same_seps|exact Hs]|eapply stops_ext; [intro z; symmetry; apply same_seps|exact Ht]]. }
  split; [|split; [|split; [|split; [exact F2|split; [rewrite !app_length; cbn [length]; rewrite app_length; lia|]]]]].
  - assert (F : forall l, forallb (fun x => negb ((x =? 34) || (x =? 92)) && existsb (N.eqb x) (seps_of k)) l = true -> ~ In c l).
    { intros l Hl D. apply F1. apply filter_In. rewrite forallb_forall in Hl. apply Hl in D. apply andb_true_iff in D. destruct D as [D1 D2]. split; [|exact D1]. apply existsb_exists in D2. destruct D2 as (y & Y1 & Y2). apply N.eqb_eq in Y2. subst y. exact Y1. }
    apply F. destruct k; reflexivity.
  - assert (F : forall l, forallb (fun x => negb ((x =? 34) || (x =? 92)) && existsb (N.eqb x) (seps_of k)) l = true -> ~ In c l).
    { intros l Hl D. apply F1. apply filter_In. rewrite forallb_forall in Hl. apply Hl in D. apply andb_true_iff in D. destruct D as [D1 D2]. split; [|exact D1]. apply existsb_exists in D2. destruct D2 as (y & Y1 & Y2). apply N.eqb_eq in Y2. subst y. exact Y1. }
    destruct k; try exact Logic.I; try (apply F; reflexivity). intros ->. apply (F [61]); [reflexivity|left; reflexivity].
  - exact Hh.
  - intros ->. inversion Hs; subst. eexists. exact Hw.
Qed.
Lemma spelled_length r t : spelled r t -> (length r <= length t)%nat.
Proof.
  induction 1 as [sp H|k w r sp i t Hsp Hw Hi Hs Hh Ht Hr IH|c r sp t Hsp Hr IH]; cbn [length]; [lia| |].
  - rewrite !app_length. destruct i; [congruence|]. cbn [length]. lia.
  - rewrite app_length. cbn [length]. lia.
Qed.

(* ---------- what follows ---------- *)
(* the tokens after an item: the end, a comma, or a keyword other than ks *)
Definition key_ok (k : bytes) : Prop := k <> [] /\ hd 0 k <> 0.
Definition follow (ks : list bytes) (r : list token) : Prop :=
  match r with [] => True | TChar c :: _ => c = 44 | TKey k :: _ => ~ In k ks /\ key_ok k | _ => False end.
Definition kwpos (r : list token) (kw : bytes) (s : stream) : Prop :=
  match r with TKey k :: r' => kw = k /\ at_tokens r' s | _ => kw = [] /\ at_tokens r s end.
Lemma sep44 : sep_ok wseps 44. Proof. repeat split; try discriminate. left. reflexivity. Qed.
Lemma key_char k r s : at_tokens (TKey k :: r) s -> key_ok k -> exists c s', read_char s = (c, s') /\ s_good s' = true /\ at_tokens (TKey k :: r) (s_unget s') /\ at_tokens (TKey k :: r) (back c s') /\ ~ In c wseps.
Proof.
  intros H [K1 K2]. destruct (at_word_char (TKey k) r s H) as (c & s' & E & G & A & _ & N & _ & _ & _ & Z); [discriminate|]. exists c, s'. split; [exact E|]. split; [exact G|]. split; [exact A|]. split; [|exact N].
  unfold back. destruct (c =? 0) eqn:C; [|exact A]. apply N.eqb_eq in C. destruct (Z C) as (w' & W). cbn [token_word map] in W. exfalso. apply K2. rewrite <- W. reflexivity.
Qed.
Lemma next_char ks r s : at_tokens r s -> follow ks r -> exists c s', read_char s = (c, s') /\
  ((exists r', r = TChar 44 :: r' /\ c = 44 /\ s_good s' = true /\ at_tokens r' s') \/ ((forall r', r <> TChar 44 :: r') /\ s_good s' && (c =? 44) = false /\ at_tokens r (back c s') /\ (c = 255 \/ ~ In c wseps))) /\ at_tokens r (s_unget s') /\ c <> 40 /\ c <> 61 /\ c <> 60 /\ c <> 62.
Proof.
  intros H F. destruct r as [|k r].
  - destruct (at_end_char s H) as (s' & E & G & A & U). exists 255, s'. split; [exact E|]. rewrite U. split; [|split; [exact A|repeat split; discriminate]]. right. split; [discriminate|]. rewrite G. split; [reflexivity|]. unfold back. cbn. rewrite U. split; [exact A|left; reflexivity].
  - destruct k; cbn [follow] in F; try contradiction.
    + destruct F as [_ F]. destruct (key_char k r s H F) as (c & s' & E & G & A & B & N). exists c, s'. split; [exact E|]. assert (Nc : c <> 44) by (intros ->; apply N; left; reflexivity). split; [right; split; [discriminate|split; [rewrite (proj2 (N.eqb_neq c 44) Nc), andb_false_r; reflexivity|split; [exact B|right; exact N]]]|]. split; [exact A|]. repeat split; intros ->; apply N; cbn; tauto.
    + subst c. destruct (at_char 44 r s H eq_refl) as (s' & E & G & A & A' & _). exists 44, s'. split; [exact E|]. split; [left; exists r; repeat split; try assumption|split; [exact A'|repeat split; discriminate]]; apply A.
Qed.
Lemma next_word ks r s : at_tokens r s -> follow ks r -> exists w s', read_word wseps s = (w, s') /\ kwpos r (lower w) s'.
Proof.
  intros H F. destruct r as [|k r].
  - destruct (at_end_word wseps s H) as (s' & E & G & A). exists [], s'. split; [exact E|]. split; [reflexivity|exact A].
  - destruct k; cbn [follow] in F; try contradiction.
    + destruct (at_word (TKey k) r s H) as (w & s' & E & W & A & _); [discriminate|]. exists w, s'. split; [exact E|]. split; [exact W|exact A].
    + subst c. destruct (at_char_word wseps 44 r s H sep44) as (s' & E & A & _). exists [], s'. split; [exact E|]. split; [reflexivity|exact A].
Qed.
Lemma at_w w r s : at_tokens (TWord w :: r) s -> exists s', read_word wseps s = (w, s') /\ at_tokens r s'.
Proof. intro H. destruct (at_word (TWord w) r s H) as (w' & s' & E & W & A & _); [discriminate|]. cbn [token_word] in W. subst w'. exists s'. split; [exact E|exact A]. Qed.
Lemma at_key k r s : at_tokens (TKey k :: r) s -> exists w s', read_word wseps s = (w, s') /\ lower w = k /\ at_tokens r s'.
Proof. intro H. destruct (at_word (TKey k) r s H) as (w' & s' & E & W & A & _); [discriminate|]. exists w', s'. split; [exact E|split; [exact W|exact A]]. Qed.
Lemma at_len r s : at_tokens r s -> (length r <= length (s_rest s))%nat.
Proof. intros [H _]. apply spelled_length. exact H. Qed.

(* ---------- argument lists ---------- *)
Lemma sepa c : In c [44; 41] -> sep_ok aseps c.
Proof. cbn. intros [<-|[<-|[]]]; repeat split; try discriminate; cbn; tauto. Qed.
Lemma commas_cons {A} (f : A -> list token) x l r : commas f (x :: l) ++ r = f x ++ (match l with [] => r | _ => TChar 44 :: commas f l ++ r end).
Proof. destruct l as [|y l]; unfold commas; cbn [flat_map]; rewrite <- !app_assoc; reflexivity. Qed.
Lemma arg_loop_ok l : ~ In [] l -> forall s r ret fuel, l <> [] -> (length l <= fuel)%nat -> at_tokens (commas (fun a => [TArg a]) l ++ TChar 41 :: r) s ->
  exists s', arg_loop fuel s ret = (rev ret ++ l, false, s') /\ at_tokens r s'.
Proof.
  induction l as [|a l IH]; intros Hn s r ret fuel Hl Hf H; [congruence|]. destruct fuel as [|f]; [cbn [length] in Hf; lia|].
  rewrite commas_cons in H. cbn [app] in H. destruct (at_word (TArg a) _ s H) as (w & s1 & E & W & A & _); [discriminate|]. cbn [token_word] in W. subst w. cbn [seps_of] in E.
  cbn [arg_loop]. rewrite E. assert (Ha : a <> []) by (intros ->; apply Hn; left; reflexivity). destruct l as [|b l].
  - destruct (at_char 41 r s1 A eq_refl) as (s2 & E2 & G2 & A2 & _). rewrite E2. change (41 =? 44) with false. rewrite andb_false_r. change (41 =? 41) with true. cbn [orb]. destruct a; [congruence|]. exists s2. cbn [rev]. split; [reflexivity|exact A2].
  - destruct (at_char 44 _ s1 A eq_refl) as (s2 & E2 & G2 & A2 & _). rewrite E2, G2. change (44 =? 44) with true. cbn [andb orb]. destruct a as [|a0 a]; [congruence|].
    destruct (IH (fun D => Hn (or_intror D)) s2 r ((a0 :: a) :: ret) f ltac:(discriminate) ltac:(cbn [length] in *; lia) A2) as (s3 & E3 & A3). exists s3. split; [|exact A3]. refine (eq_trans E3 _). cbn [rev]. rewrite <- app_assoc. reflexivity.
Qed.
Lemma commas_len {A} (f : A -> list token) l : (forall x, f x <> []) -> (length l <= length (commas f l))%nat.
Proof.
  intro N. destruct l as [|x m]; [cbn; lia|]. unfold commas. rewrite app_length. cbn [length]. assert (L1 : (1 <= length (f x))%nat) by (specialize (N x); destruct (f x); [congruence|cbn; lia]). assert (Q : (length m <= length (flat_map (fun y => TChar 44 :: f y) m))%nat); [|lia]. induction m as [|y m IHm]; [cbn; lia|]. cbn [flat_map length app]. rewrite app_length. lia.
Qed.
Lemma arglist_ok l s r : ~ In [] l -> at_tokens (args_tokens l ++ r) s -> exists s', parse_arglist s = (l, false, s') /\ at_tokens r s'.
Proof.
  intros Hn H. unfold args_tokens in H. cbn [app] in H. rewrite <- app_assoc in H. cbn [app] in H. destruct (at_char 40 _ s H eq_refl) as (s1 & E & G & A & _). unfold parse_arglist. rewrite E, G. change (40 =? 40) with true. cbn [negb].
  destruct l as [|a l].
  - cbn [commas app] in A. destruct (at_char_word aseps 41 r s1 A) as (s2 & E2 & A2 & _); [apply sepa; right; left; reflexivity|]. cbn [arg_loop]. rewrite E2. destruct (at_char 41 r s2 A2 eq_refl) as (s3 & E3 & G3 & A3 & _). rewrite E3. change (41 =? 44) with false. rewrite andb_false_r. exists s3. split; [reflexivity|exact A3].
  - apply (arg_loop_ok (a :: l) Hn s1 r [] _); [discriminate| |exact A]. pose proof (at_len _ _ A) as L. rewrite app_length in L. eapply Nat.le_trans; [apply (commas_len (fun a => [TArg a])); discriminate|]. eapply Nat.le_trans; [apply Nat.le_add_r|]. eapply Nat.le_trans; [exact L|lia].
Qed.
Lemma no_args ks r s : at_tokens r s -> follow ks r -> exists s', parse_arglist s = ([], false, s') /\ at_tokens r s'.
Proof.
  intros H F. destruct (next_char ks r s H F) as (c & s' & E & D & U & N40 & _). unfold parse_arglist. rewrite E. destruct (s_good s') eqn:G; cbn [negb].
  - rewrite (proj2 (N.eqb_neq c 40) N40). exists (s_unget s'). split; [reflexivity|exact U].
  - exists s'. split; [reflexivity|]. unfold s_unget in U. rewrite G in U. exact U.
Qed.
Lemma call_parse ks c r s : ~ In [] (call_args c) -> at_tokens (call_tokens c ++ r) s -> follow ks r ->
  exists w s1 s2, read_word wseps s = (w, s1) /\ lower w = fst c /\ parse_arglist s1 = (call_args c, false, s2) /\ at_tokens r s2.
Proof.
  intros Hn H F. unfold call_tokens in H. cbn [app] in H. destruct (at_key _ _ s H) as (w & s1 & E & W & A). exists w, s1. destruct c as [f [l|]]; cbn [snd fst call_args] in *.
  - destruct (arglist_ok l s1 r Hn A) as (s2 & E2 & A2). exists s2. repeat (split; [assumption|]). exact A2.
  - destruct (no_args ks r s1 A F) as (s2 & E2 & A2). exists s2. repeat (split; [assumption|]). exact A2.
Qed.
