(* C57: texts that are rejected; examples *)
From Coq Require Import Strings.Ascii Strings.String.
From Verif Require Import Base TextModel ParseModel ParseSpec ParseProofs ParseProps RConfigModel FilterModel QueryModel QuerySpec QueryProofs QueryProofs2 QueryProofs3 QueryProps.
Open Scope N_scope.

(* ---------- valid clauses followed by another keyword ---------- *)
Lemma ends_app cl k r : ~ In k inner_kws -> key_ok k -> ends inner_kws (query_tokens cl ++ TKey k :: r).
Proof.
  intros N K. destruct cl as [|c cl]; [split; [split; [exact N|exact K]|discriminate]|]. unfold query_tokens. cbn [flat_map]. rewrite clause_split. cbn [app]. split; [|discriminate]. cbn [follow]. split; [|destruct c; split; discriminate].
  destruct c; cbn; intuition discriminate.
Qed.
Lemma chain_to k r cl : ~ In k inner_kws -> key_ok k -> lower k = k -> forall c w t s fuel, Forall clause_ok (c :: cl) -> NoDup (map p_target (q_pre (st_q t)) ++ map li_target (flat_map lets (c :: cl))) -> lower w = kw_of c -> good t ->
  at_tokens (body c ++ query_tokens cl ++ TKey k :: r) s -> (S (length cl) < fuel)%nat ->
  (exists cl1 cl2 q s', cl = cl1 ++ cl2 /\ clause_chain fuel w t s = (upd t q, s') /\ cl_steps (c :: cl1) (st_q t) q /\ at_tokens (query_tokens cl2 ++ TKey k :: r) s') \/
  (exists q s' f, clause_chain fuel w t s = clause_chain (S f) k (upd t q) s' /\ cl_steps (c :: cl) (st_q t) q /\ at_tokens r s').
Proof.
  intros Nk Kk Lk. induction cl as [|c2 cl IH]; intros c w t s fuel Hok Hd W Gt H Hf; (destruct fuel as [|f]; [lia|]); apply Forall_cons_iff in Hok; destruct Hok as [Hc Hok];
    cbn [flat_map] in Hd; rewrite map_app, app_assoc in Hd; (destruct (clause_parse c w t s _ Hc W Gt (NoDup_app_l _ _ Hd) H (ends_app _ k r Nk Kk)) as (q & kw & s1 & E & S1 & R)); cbn [clause_chain]; rewrite E, upd_err, Gt.
  - destruct R as [R|[-> A]].
    + cbn [query_tokens flat_map app kwpos] in R. destruct R as [-> A]. right. destruct k as [|k0 k]; [destruct Kk; congruence|]. destruct f as [|f]; [cbn [length] in Hf; lia|]. exists q, s1, f. split; [reflexivity|]. split; [econstructor; [exact S1|constructor]|exact A].
    + left. exists [], [], q, s1. split; [reflexivity|]. split; [reflexivity|]. split; [econstructor; [exact S1|constructor]|exact A].
  - destruct R as [R|[-> A]].
    + unfold query_tokens in R. cbn [flat_map] in R. rewrite clause_split in R. cbn [app kwpos] in R. destruct R as [-> A]. rewrite <- app_assoc in A. assert (N : kw_of c2 <> []) by (destruct c2; discriminate).
      destruct (IH c2 (kw_of c2) (upd t q) s1 f Hok) as [(cl1 & cl2 & q2 & s2 & Ecl & E2 & S2 & A2)|(q2 & s2 & f2 & E2 & S2 & A2)]; try (first [apply lower_kw|exact Gt|exact A|cbn [length] in Hf; lia]).
      { rewrite upd_q, (step_targets _ _ _ S1). exact Hd. }
      * left. destruct (kw_of c2) as [|k0 kk] eqn:Ek; [congruence|]. exists (c2 :: cl1), cl2, q2, s2. split; [cbn [app]; rewrite Ecl; reflexivity|]. split; [exact E2|]. split; [econstructor; [exact S1|exact S2]|exact A2].
      * right. destruct (kw_of c2) as [|k0 kk] eqn:Ek; [congruence|]. exists q2, s2, f2. split; [exact E2|]. split; [econstructor; [exact S1|exact S2]|exact A2].
    + left. exists [], (c2 :: cl), q, s1. split; [reflexivity|]. split; [reflexivity|]. split; [econstructor; [exact S1|constructor]|exact A].
Qed.
Lemma chain_err k f q t s : st_err (fst (fst (clause_word k (upd t q) s))) = true -> st_err (fst (clause_chain (S f) k (upd t q) s)) = true.
Proof. intro H. cbn [clause_chain]. destruct (clause_word k (upd t q) s) as [[t1 k1] s1]. cbn [fst] in H. rewrite H. exact H. Qed.
Lemma loop_err f t s : st_err t = true -> st_err (fst (parse_loop f t s)) = true.
Proof. intro H. destruct f; cbn [parse_loop]; [reflexivity|]. rewrite H. exact H. Qed.
Lemma clause_word_lower w k t s : lower w = k -> lower k = k -> clause_word w t s = clause_word k t s.
Proof. intros W Lk. unfold clause_word, get_clause. rewrite W, Lk. reflexivity. Qed.
(* the clause starting with k fails in the states that the clauses before can lead to *)
Lemma loop_rejects n k r : ~ In k inner_kws -> key_ok k -> lower k = k -> forall cl t s fuel, (length cl <= n)%nat -> Forall clause_ok cl -> NoDup (map p_target (q_pre (st_q t)) ++ map li_target (flat_map lets cl)) -> good t ->
  at_tokens (query_tokens cl ++ TKey k :: r) s -> (S (length cl) < fuel)%nat ->
  (forall q s1, cl_steps cl (st_q t) q -> at_tokens r s1 -> st_err (fst (fst (clause_word k (upd t q) s1))) = true) ->
  st_err (fst (parse_loop fuel t s)) = true.
Proof.
  intros Nk Kk Lk. induction n as [|n IH]; intros cl t s fuel Hn Hok Hd Gt H Hf Hbad; (destruct fuel as [|f]; [lia|]); cbn [parse_loop]; rewrite Gt; cbn [negb andb]; (destruct cl as [|c cl]; [|try (cbn in Hn; lia)]).
  1,2: cbn [query_tokens flat_map app] in H; rewrite (at_good _ _ _ H); destruct (at_key _ _ s H) as (w & s1 & E1 & W & A1); rewrite E1; (destruct w as [|w0 w]; [cbn in W; destruct Kk; congruence|]);
    (destruct (clause_chain (S (length (s_rest s1))) (w0 :: w) t s1) as [t1 s2] eqn:E2); apply loop_err; change t1 with (fst (t1, s2)); rewrite <- E2; cbn [clause_chain]; rewrite (clause_word_lower _ k _ _ W Lk);
    pose proof (Hbad (st_q t) s1 (cst_nil _) A1) as Hb; rewrite upd_id in Hb; destruct (clause_word k t s1) as [[t2 k2] s3]; cbn [fst] in Hb; rewrite Hb; exact Hb.
  unfold query_tokens in H. cbn [flat_map] in H. rewrite clause_split in H. cbn [app] in H. rewrite <- app_assoc in H. rewrite (at_good _ _ _ H). destruct (at_key _ _ s H) as (w & s1 & E1 & W & A1). rewrite E1.
  fold (query_tokens cl) in A1. assert (Lf : (S (length cl) < S (length (s_rest s1)))%nat). { pose proof (at_len _ _ A1) as L. rewrite !app_length in L. cbn [length] in L. pose proof (tokens_len cl). lia. }
  destruct w as [|w0 w]; [destruct c; discriminate W|].
  destruct (chain_to k r cl Nk Kk Lk c (w0 :: w) t s1 _ Hok Hd W Gt A1 Lf) as [(cl1 & cl2 & q & s2 & Ecl & E2 & S2 & A2)|(q & s2 & f2 & E2 & S2 & A2)]; rewrite E2.
  - assert (Lc : (length cl = length cl1 + length cl2)%nat) by (rewrite Ecl, app_length; reflexivity). cbn [length] in Hn, Hf.
    apply (IH cl2 (upd t q) s2 f); [lia| | |exact Gt|exact A2|lia|].
    { apply Forall_cons_iff in Hok. destruct Hok as [_ Hok]. rewrite Ecl in Hok. apply Forall_app in Hok. apply Hok. }
    { rewrite upd_q, (steps_targets _ _ _ S2), <- app_assoc. rewrite Ecl in Hd. change (c :: cl1 ++ cl2) with ((c :: cl1) ++ cl2) in Hd. rewrite flat_map_app, map_app in Hd. exact Hd. }
    intros q2 s3 S3 A3. rewrite upd_upd. apply Hbad; [|exact A3]. rewrite Ecl. change (c :: cl1 ++ cl2) with ((c :: cl1) ++ cl2). eapply cl_steps_app; [exact S2|exact S3].
  - pose proof (chain_err k f2 q t s2 (Hbad q s2 S2 A2)) as Hc. destruct (clause_chain (S f2) k (upd t q) s2) as [t3 s3]. apply loop_err. exact Hc.
Qed.
Lemma calql_rejects k r cl text : ~ In k inner_kws -> key_ok k -> lower k = k -> query_ok cl -> spelled (query_tokens cl ++ TKey k :: r) text ->
  (forall q s1, cl_steps cl query0 q -> at_tokens r s1 -> st_err (fst (fst (clause_word k (mkst q false) s1))) = true) -> snd (calql text) = true.
Proof.
  intros Nk Kk Lk [Hok Hd] H Hbad. assert (A : at_tokens (query_tokens cl ++ TKey k :: r) (s_open text)) by (split; [exact H|left; reflexivity]).
  assert (Lf : (S (length cl) < S (S (length text)))%nat). { pose proof (at_len _ _ A) as L. rewrite app_length in L. cbn [length s_rest s_open] in L. pose proof (tokens_len cl). lia. }
  assert (Lf' : (S (length cl) < S (length text))%nat). { pose proof (at_len _ _ A) as L. rewrite app_length in L. cbn [length s_rest s_open] in L. pose proof (tokens_len cl). lia. }
  pose proof (loop_rejects (length cl) k r Nk Kk Lk cl (mkst query0 false) (s_open text) _ (le_n _) Hok Hd eq_refl A Lf' Hbad) as E.
  unfold calql. destruct (parse_loop (S (length text)) (mkst query0 false) (s_open text)) as [t s]. cbn [fst] in E. rewrite E. cbn [negb andb]. destruct (extract_path (q_sel (st_q t))). destruct (extract_path (q_grp (st_q t))). exact E.
Qed.

(* ---------- what is rejected ---------- *)
(* errors stay *)
Lemma fail_err t : st_err (fail t) = true. Proof. reflexivity. Qed.
(* a keyword that starts no clause *)
Theorem C57_unknown_clause cl k r text : query_ok cl -> spelled (query_tokens cl ++ TKey k :: r) text -> map tolower k = k -> k <> [] -> hd 0 k <> 0 ->
  ~ In k (map bs ["aggregate"; "format"; "group"; "select"; "order"; "where"; "let"]%string) -> ~ In k inner_kws -> snd (calql text) = true.
Proof.
  intros Hok H Lk Nk Hk N1 N2. apply (calql_rejects k r cl text N2 (conj Nk Hk) Lk Hok H). intros q s1 _ _. unfold clause_word, get_clause. replace (lower k) with k by (symmetry; exact Lk).
  replace (find (fun x => beq k (fst x)) keywords) with (@None (bytes * clausekw)); [reflexivity|]. symmetry. destruct (find (fun x => beq k (fst x)) keywords) as [[k' c']|] eqn:E; [|reflexivity]. exfalso.
  apply find_some in E. destruct E as [E1 E2]. apply beq_spec in E2. cbn [fst] in E2. subst k'. apply N1. change (map bs ["aggregate"; "format"; "group"; "select"; "order"; "where"; "let"]%string) with (map fst keywords). apply (in_map fst) in E1. exact E1.
Qed.
(* GROUP or ORDER without BY *)
Theorem C57_missing_by cl k w r text : query_ok cl -> spelled (query_tokens cl ++ TKey k :: TWord w :: r) text -> k = bs "group" \/ k = bs "order" -> map tolower w <> bs "by" -> snd (calql text) = true.
Proof.
  intros Hok H Hk Hw. apply (calql_rejects k (TWord w :: r) cl text); [destruct Hk; subst k; cbn; intuition discriminate|destruct Hk; subst k; split; discriminate|destruct Hk; subst k; reflexivity|exact Hok|exact H|].
  intros q s1 _ A. destruct (at_w w r s1 A) as (s2 & E & _). unfold clause_word. destruct Hk; subst k.
  - change (get_clause (bs "group")) with (Some KGroup). cbv iota. rewrite E. rewrite (proj2 (beq_false (lower w) (bs "by")) Hw). reflexivity.
  - change (get_clause (bs "order")) with (Some KSort). cbv iota. rewrite E. rewrite (proj2 (beq_false (lower w) (bs "by")) Hw). reflexivity.
Qed.
(* a function call that is no aggregation: unknown name or wrong number of arguments *)
Definition bad_call (c : fcall) : Prop := ~ In [] (call_args c) /\ fst c <> [] /\
  forall name id lo hi pre n, In (name, id, lo, hi, pre, n) agg_functions -> fst c = bs name -> ~ (lo <= length (call_args c) <= hi)%nat.
Lemma bad_def w c : bad_call c -> lower w = fst c -> match (match w with [] => None | _ => get_def w agg_defs end) with Some d => argc_ok d (call_args c) = false | None => True end.
Proof.
  intros (_ & _ & H) W. destruct w as [|w0 w]; [exact Logic.I|]. unfold get_def. rewrite W. destruct (find (fun d => beq (fst c) (f_name d)) agg_defs) as [d|] eqn:E; [|exact Logic.I].
  apply find_some in E. destruct E as [E1 E2]. apply beq_spec in E2. unfold argc_ok. apply Bool.negb_false_iff. apply Bool.orb_true_iff. rewrite !Nat.ltb_lt.
  assert (Q : exists name id pre n, In (name, id, f_min d, f_max d, pre, n) agg_functions /\ f_name d = bs name).
  { clear - E1. cbn [agg_defs In] in E1. repeat (destruct E1 as [<-|E1]; [cbn [f_min f_max f_name]; do 4 eexists; split; [|reflexivity]; cbn [agg_functions In]; tauto|]). destruct E1. }
  destruct Q as (name & id & pre & n & Q1 & Q2). specialize (H name id _ _ pre n Q1). rewrite <- Q2 in H. specialize (H E2). lia.
Qed.
Theorem C57_bad_aggregation cl c r text : query_ok cl -> bad_call c -> (r = [] \/ exists r', r = TChar 44 :: r') ->
  spelled (query_tokens cl ++ TKey (bs "aggregate") :: call_tokens c ++ r) text \/ (snd c <> None /\ hd 0 (fst c) <> 42 /\ spelled (query_tokens cl ++ TKey (bs "select") :: call_tokens c ++ r) text) ->
  snd (calql text) = true.
Proof.
  intros Hok Hb Hr Hs. assert (F : follow [] r) by (destruct Hr as [->|(r' & ->)]; [exact Logic.I|reflexivity]). pose proof Hb as (Hn & Hf & _).
  destruct Hs as [H|(Hp & Hh & H)].
  - apply (calql_rejects (bs "aggregate") (call_tokens c ++ r) cl text); [cbn; intuition discriminate|split; discriminate|reflexivity|exact Hok|exact H|].
    intros q s1 _ A. change (clause_word (bs "aggregate") (mkst q false) s1) with (fst (aggregate_loop (S (length (s_rest s1))) (mkst q false) s1), @nil N, snd (aggregate_loop (S (length (s_rest s1))) (mkst q false) s1)). cbn [fst].
    cbn [aggregate_loop]. destruct (call_parse [] c r s1 Hn A F) as (w & s2 & s3 & E1 & W & E2 & A2). rewrite E1, E2. cbn [err_if]. pose proof (bad_def w c Hb W) as B.
    destruct (match w with [] => None | _ => get_def w agg_defs end) as [d|].
    + rewrite B. destruct (read_char s3) as [ch s4]. reflexivity.
    + destruct (read_char s3) as [ch s4]. reflexivity.
  - apply (calql_rejects (bs "select") (call_tokens c ++ r) cl text); [cbn; intuition discriminate|split; discriminate|reflexivity|exact Hok|exact H|].
    intros q s1 _ A. change (clause_word (bs "select") (mkst q false) s1) with (select_loop (S (length (s_rest s1))) (mkst q false) s1).
    assert (Ei : exists t1 s2, select_item (mkst q false) s1 = (t1, [], s2) /\ st_err t1 = true).
    { unfold select_item. destruct c as [f [l|]]; cbn [fst snd call_args] in *; [|congruence]. unfold call_tokens in A. cbn [fst snd app] in A.
      destruct (at_word_char (TKey f) _ s1 A) as (ch & s2 & E & G & A2 & _ & _ & _ & _ & _ & Z); [discriminate|]. rewrite E. destruct (ch =? 42) eqn:C42.
      - exfalso. apply N.eqb_eq in C42. subst ch. destruct A as [A _]. destruct (word_inv (TKey f) _ _ A) as (w & sp & i & t' & Et & Hsp & Hw & Hi & Hsl & _); [discriminate|]. destruct i as [|i0 i]; [congruence|].
        assert (i0 = 42). { assert (Gs : s_good s1 = true). { destruct (s_good s1) eqn:Gs; [reflexivity|]. unfold read_char in E. destruct (length (s_rest s1)); cbn [get_nonspace] in E; unfold s_get in E; rewrite Gs in E; [|rewrite Gs in E]; injection E; intros; discriminate. }
          rewrite (stream_eta s1), Gs, Et in E. cbn [app] in E. rewrite read_char_ok in E; [injection E; auto|exact Hsp|]. apply (spells_first _ _ _ Hsl). discriminate. }
        subst i0. cbn [token_word] in Hw. inversion Hsl; subst; try discriminate. cbn [map hd] in Hh. apply Hh. reflexivity.
      - destruct (at_key f _ _ A2) as (w & s3 & E3 & W & A3). rewrite E3. assert (A3' := A3). unfold args_tokens in A3'. cbn [app] in A3'. destruct (at_char 40 _ s3 A3' eq_refl) as (s4 & E4 & _ & _ & U & _). rewrite E4. change (40 =? 40) with true. cbv iota.
        pose proof (bad_def w (f, Some l) Hb W) as B. cbn [call_args snd] in B. destruct (match w with [] => None | _ => get_def w agg_defs end) as [d|].
        + change (TChar 40 :: (commas (fun a0 => [TArg a0]) l ++ [TChar 41]) ++ r) with (args_tokens l ++ r) in U. destruct (arglist_ok l _ r Hn U) as (s5 & E5 & _). rewrite E5. cbn [err_if]. rewrite B. eexists. eexists. split; reflexivity.
        + eexists. eexists. split; reflexivity. }
    destruct Ei as (t1 & s2 & Ei & Et1). cbn [select_loop]. rewrite Ei. destruct (read_word wseps s2) as [k s3]. unfold select_as. rewrite Et1. cbn [negb andb]. unfold select_unit. rewrite Et1. cbn [negb andb]. rewrite Et1. destruct (read_char s3) as [ch s4]. cbn [negb andb fst]. exact Et1.
Qed.
(* a formatter that does not exist *)
Theorem C57_unknown_formatter cl f r text : query_ok cl -> map tolower f = f -> ~ In f (map (fun x => bs (fst (fst (fst x)))) formatters) ->
  spelled (query_tokens cl ++ TKey (bs "format") :: TKey f :: r) text -> snd (calql text) = true.
Proof.
  intros Hok Lf Hf H. apply (calql_rejects (bs "format") (TKey f :: r) cl text); [cbn; intuition discriminate|split; discriminate|reflexivity|exact Hok|exact H|].
  intros q s1 _ A. change (clause_word (bs "format") (mkst q false) s1) with (fst (parse_format (mkst q false) s1), @nil N, snd (parse_format (mkst q false) s1)). cbn [fst]. unfold parse_format.
  destruct (at_key f r s1 A) as (w & s2 & E & W & _). rewrite E. unfold get_def. rewrite W. replace (find (fun d => beq f (f_name d)) format_defs) with (@None fsig); [reflexivity|]. symmetry. destruct (find (fun d => beq f (f_name d)) format_defs) as [d|] eqn:E2; [|reflexivity]. exfalso.
  apply find_some in E2. destruct E2 as [E1 E2]. apply beq_spec in E2. apply Hf. rewrite E2. change (map (fun x => bs (fst (fst (fst x)))) formatters) with (map f_name format_defs). apply in_map. exact E1.
Qed.
(* a LET target that was defined before *)
Theorem C57_defined_twice cl target op id r text : query_ok cl -> In target (map li_target (flat_map lets cl)) -> let_call op id -> (r = [] \/ exists r', r = TChar 44 :: r') ->
  spelled (query_tokens cl ++ TKey (bs "let") :: TWord target :: TChar 61 :: call_tokens op ++ r) text -> snd (calql text) = true.
Proof.
  intros Hok Ht Hop Hr H. assert (F : follow [] r) by (destruct Hr as [->|(r' & ->)]; [exact Logic.I|reflexivity]).
  apply (calql_rejects (bs "let") (TWord target :: TChar 61 :: call_tokens op ++ r) cl text); [cbn; intuition discriminate|split; discriminate|reflexivity|exact Hok|exact H|].
  intros q s1 Sq A. change (clause_word (bs "let") (mkst q false) s1) with (let_loop (S (length (s_rest s1))) (mkst q false) s1). cbn [let_loop].
  destruct (at_w target _ s1 A) as (s2 & E2 & A2). rewrite E2. destruct (at_char 61 _ s2 A2 eq_refl) as (s3 & E3 & _ & A3 & _). rewrite E3. change (61 =? 61) with true. cbn [negb].
  destruct (call_parse [] op r s3 (let_nonempty _ _ Hop) A3 F) as (w & s4 & s5 & E4 & W & E5 & A5). rewrite E4. destruct (let_def w op id Hop W) as (d & Ed & Hid & Hargs). rewrite Ed, E5. cbn [err_if]. rewrite Hargs.
  replace (existsb (fun p => beq (p_target p) target) (q_pre (st_q (mkst q false)))) with true; [reflexivity|]. symmetry. cbn [st_q]. rewrite <- (app_nil_l (map li_target (flat_map lets cl))) in Ht. change ([] ++ map li_target (flat_map lets cl)) with (map p_target (q_pre query0) ++ map li_target (flat_map lets cl)) in Ht. rewrite <- (steps_targets _ _ _ Sq) in Ht.
  apply in_map_iff in Ht. destruct Ht as (p & <- & Hp). apply existsb_exists. exists p. split; [exact Hp|apply beq_refl].
Qed.
