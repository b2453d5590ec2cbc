(* C60: config strings are read as documented *)
From Coq Require Import Strings.Ascii Strings.String.
From Verif Require Import Base TextModel ParseModel ParseSpec ParseProofs ParseProps RConfigModel JsonModel CfgModel CfgMgrModel CfgSpec CfgProofs CfgTextSpec CfgTextProofs CfgTextProofs2.
Open Scope N_scope.

Section MGR.
Variable files : bytes -> option bytes.
Variable avail : list bytes.
Variable builtins : list (bytes * (options -> bool)).
Notation load := (load_file files avail).
Notation import := (import_builtin avail builtins).
Notation parse_cs := (parse_configstring files avail builtins).

(* Every text of a list of items separated by commas, with white space anywhere, gives the items' configs with
   their arguments and the state that results from the items one after the other. *)
Theorem C60_run text items m m' l : items <> [] -> ctext [] (ccommas item_tokens items) text -> m_err (import m) = false -> irun load (import m) items m' l -> parse_cs text m = (m', l).
Proof.
  intros Hi A He R. rewrite <- (app_nil_r (ccommas item_tokens items)) in A. destruct (parse_run files avail builtins [] items text m m' l [] Hi Logic.I He R Logic.I Logic.I A) as (s' & f' & A' & _ & _ & E). rewrite E. destruct (at_end_ok [] s' Logic.I A') as (s2 & E2 & G & _). rewrite E2, G. reflexivity.
Qed.
Theorem C60_empty text m : spaces text -> parse_cs text m = (import m, []).
Proof. intro H. unfold parse_configstring. unfold s_open. rewrite read_char_end by exact H. reflexivity. Qed.

(* Without load: the configs in order, each with its arguments in order; parameters that are the name of an option
   become defaults, in order, the others are reported; nothing else changes. *)
Definition sset (m m' : mgr) : Prop := m_spec m' = m_spec m /\ m_gopts m' = m_gopts m /\ m_gerr m' = m_gerr m /\ m_sdefs m' = m_sdefs m /\ m_err m' = m_err m /\ m_chans m' = m_chans m.
Lemma params_same m m' is l : m_spec m' = m_spec m -> m_gopts m' = m_gopts m -> params m is l -> params m' is l.
Proof.
  intros E1 E2 H. assert (X : forall k, option_name m' k <-> option_name m k) by (intro k; unfold option_name; rewrite E1, E2; reflexivity). induction H; constructor; try assumption; try (apply X; assumption). intro D. apply X in D. contradiction.
Qed.
Lemma fits_same m m' i : m_spec m' = m_spec m -> m_gopts m' = m_gopts m -> item_fits m i -> item_fits m' i.
Proof.
  intros E1 E2. destruct i as [n a|n v|fs]; cbn [item_fits]; rewrite ?E1; auto. intros (H1 & cs & H2 & H3). split; [exact H1|]. exists cs. split; [exact H2|]. destruct a as [l|]; [|exact Logic.I]. intros k v Hi. destruct (H3 k v Hi) as (X1 & X2 & X3). split; [exact X1|]. split; [exact X2|]. unfold option_of in *. rewrite E2. exact X3.
Qed.
Lemma configs_same m m' items : m_spec m' = m_spec m -> configs_of m' items = configs_of m items.
Proof. intro E. unfold configs_of. rewrite E. reflexivity. Qed.
Lemma items_irun items : forall m ps, Forall (item_fits m) items -> params m items ps ->
  exists m', irun load m items m' (configs_of m items) /\ sset m m' /\ m_defs m' = m_defs m ++ defaults_of ps /\ m_extra m' = rev (extras_of ps) ++ m_extra m.
Proof.
  induction items as [|i items IH]; intros m ps F P.
  - inversion P; subst. exists m. split; [constructor|]. split; [repeat split|]. split; [symmetry; apply app_nil_r|reflexivity].
  - apply Forall_cons_iff in F. destruct F as (Fi & F). destruct i as [n a|n v|fs]; [| |contradiction].
    + destruct Fi as (H1 & cs & H2 & H3). assert (P' : params m items ps) by (inversion P; assumption). destruct (IH m ps F P') as (m' & R & X). exists m'. split; [|exact X]. cbn [configs_of flat_map]. rewrite H2. cbn [app]. apply ir_config; assumption.
    + destruct Fi as (H1 & H2 & H3).
      assert (X : exists p ps', ps = p :: ps' /\ params m [IParam n v] [p] /\ params m items ps').
      { remember (IParam n v :: items) as is eqn:Ei. destruct P as [|n0 a r l P|v0 r l P|n0 v0 r l Hm Ho P|n0 v0 r l Hm Ho P]; try discriminate Ei; injection Ei as; subst; eexists; eexists; (split; [reflexivity|]; split; [|exact P]).
        - apply ps_meta. constructor.
        - apply ps_option; [exact Hm|exact Ho|constructor].
        - apply ps_extra; [exact Hm|exact Ho|constructor]. }
      destruct X as (p & ps' & -> & P1 & P2). set (m1 := match p with PDefault x => add_default m x | PExtra x => add_extra m x end). assert (E1 : m_spec m1 = m_spec m) by (destruct p; reflexivity). assert (E2 : m_gopts m1 = m_gopts m) by (destruct p; reflexivity).
      destruct (IH m1 ps') as (m' & R & (S1 & S2 & S3 & S4 & S5 & S6) & Hd & Hx).
      { eapply Forall_impl; [|exact F]. intros j. apply fits_same; assumption. }
      { apply (params_same m); assumption. }
      exists m'. split; [|split; [|split]].
      * cbn [configs_of flat_map app]. rewrite (configs_same m m1 items E1) in R. eapply ir_param; eassumption.
      * unfold sset. rewrite S1, S2, S3, S4, S5, S6. destruct p; repeat split.
      * rewrite Hd. cbn [defaults_of flat_map]. destruct p; subst m1; cbn [add_default add_extra m_defs app]; [rewrite <- app_assoc; reflexivity|reflexivity].
      * rewrite Hx. cbn [extras_of flat_map]. destruct p; subst m1; cbn [add_default add_extra m_extra app rev]; [reflexivity|]. rewrite <- app_assoc. reflexivity.
Qed.
Theorem C60_items text items ps m : let m1 := import m in
  items <> [] -> ctext [] (ccommas item_tokens items) text -> m_err m1 = false -> Forall (item_fits m1) items -> params m1 items ps ->
  exists m', parse_cs text m = (m', configs_of m1 items) /\ sset m1 m' /\ m_defs m' = m_defs m1 ++ defaults_of ps /\ m_extra m' = rev (extras_of ps) ++ m_extra m1.
Proof. intros m1 Hi A He F P. destruct (items_irun items m1 ps F P) as (m' & R & X). exists m'. split; [|exact X]. apply (C60_run text items m m' _ Hi A He R). Qed.

(* ---------- errors ---------- *)
Definition before {A} (f : A -> list ctok) (l : list A) : list ctok := flat_map (fun x => f x ++ [CChar 44]) l.
Lemma before_commas {A} (f : A -> list ctok) l r : l <> [] -> before f l ++ r = ccommas f l ++ CChar 44 :: r.
Proof.
  induction l as [|x l IH]; [congruence|]. intros _. rewrite ccommas_cons. cbn [before flat_map]. fold (before f l). rewrite <- !app_assoc. cbn [app]. f_equal. destruct l as [|y l]; [reflexivity|]. f_equal. apply IH. discriminate.
Qed.
Lemma before_len (fs : list bytes) : (length fs <= length (before (fun f => [CFile f]) fs))%nat.
Proof. induction fs as [|g fs IH]; [apply Nat.le_0_l|]. change (S (length fs) <= S (S (length (before (fun f => [CFile f]) fs))))%nat. apply Nat.le_le_succ_r, le_n_S. exact IH. Qed.
(* nothing follows that could be read without an error *)
Definition stuck (m : mgr) (tail : bytes) (r : list ctok) : Prop := forall s fuel ret, at_ tail r s -> m_err (fst (items_loop files avail (S fuel) m s ret)) = true.
Lemma error_after tail m text items m' l r w : tail_ok tail -> m_err (import m) = false -> irun load (import m) items m' l -> ctext tail (before item_tokens items ++ CName w :: r) text ->
  stuck m' tail (CName w :: r) -> m_err (fst (parse_cs text m)) = true.
Proof.
  intros T He R A St. destruct items as [|i items].
  - inversion R; subst. cbn [before flat_map app] in A. assert (A0 : at_ tail (CName w :: r) (s_open text)) by (split; [exact A|left; reflexivity]). destruct (first_word tail (CName w) _ (s_open text) A0 Logic.I) as (c & s1 & E1 & G1 & A1 & L1). unfold parse_configstring. rewrite E1, G1. apply St. exact A1.
  - rewrite before_commas in A by discriminate. destruct (parse_run files avail builtins tail (i :: items) text m m' l (CChar 44 :: CName w :: r) ltac:(discriminate) T He R Logic.I ltac:(split; discriminate) A) as (s' & f' & A' & Lf & He' & E). rewrite E. destruct (at_char_ok _ _ _ _ A') as (s2 & E2 & G2 & A2 & _). rewrite E2, G2. change (44 =? 44) with true. cbn [andb]. cbv iota. cbn [length] in Lf. destruct f' as [|f']; [lia|]. apply St. exact A2.
Qed.
(* an option that the config does not have *)
Theorem C60_unknown_option tail text m items m' l n cs args u : tail_ok tail -> m_err (import m) = false -> irun load (import m) items m' l ->
  n <> bs "load" -> lookup (m_spec m') n = Some cs -> args_fit m' cs args -> u <> [] -> u <> bs "metadata" -> ~ option_of m' cs u ->
  ctext tail (before item_tokens items ++ CName n :: CChar 40 :: before arg_tokens args ++ [CName u]) text ->
  m_err (fst (parse_cs text m)) = true.
Proof.
  intros T He R H1 H2 H3 Hu1 Hu2 Hu3 A. eapply (error_after tail m text items m' l _ n T He R A). clear A. intros s fuel ret A. destruct (at_word_ok tail (CName n) _ s n A eq_refl) as (s1 & E1 & A1). change (read_word cseps s = (n, s1)) in E1. destruct (at_char_ok _ _ _ _ A1) as (s2 & E2 & G2 & A2 & _).
  assert (X : exists s9, parse_args (m_err m') (options_for m' cs) s1 = ([], true, s9)).
  { unfold parse_args. rewrite E2, G2. cbn [negb]. change (40 =? 40) with true. cbn [negb]. cbv iota.
    assert (U : forall s fuel e acc, at_ tail [CName u] s -> exists s9, args_loop (S fuel) e (options_for m' cs) s acc = ([], true, s9)).
    { intros s0 f0 e acc A0. destruct (at_word_ok tail (CName u) _ s0 u A0 eq_refl) as (s3 & E3 & _). change (read_word cseps s0 = (u, s3)) in E3. cbn [args_loop]. rewrite E3. destruct u as [|a u0]; [contradiction|]. set (u := a :: u0) in *. rewrite (proj2 (keq_false u (bs "metadata")) Hu2). assert (K : known (options_for m' cs) u = false) by (destruct (known (options_for m' cs) u) eqn:K; [exfalso; apply Hu3, option_of_known, K|reflexivity]). unfold known in K. rewrite K. exists s3. reflexivity. }
    destruct args as [|p args]; [apply U; exact A2|]. rewrite before_commas in A2 by discriminate. assert (Len := ctext_len _ _ _ (proj1 A2)). rewrite app_length in Len. assert (Len2 := ccommas_len (p :: args)). cbn [length] in Len.
    destruct (m_err m') eqn:Em.
    - (* cannot happen, but does not matter *) rewrite ccommas_cons in A2. assert (Hp := fit_args _ _ _ H3). apply Forall_cons_iff in Hp. destruct Hp as ((P1 & P2 & P3) & _). destruct p as (k, v). cbn [arg_tokens fst snd app] in *.
      destruct (at_word_ok tail (CName k) _ s2 k A2 eq_refl) as (s3 & E3 & A3). change (read_word cseps s2 = (k, s3)) in E3. cbn [args_loop]. rewrite E3. destruct k as [|a k]; [contradiction|]. set (key := a :: k) in *. destruct (negb _ && negb _); [eexists; reflexivity|]. destruct (read_value s3) as ((vv, ee), s4). rewrite orb_true_r. eexists. reflexivity.
    - destruct (args_run tail (options_for m' cs) (p :: args) (fit_args _ _ _ H3) ltac:(discriminate) (CChar 44 :: [CName u]) s2 (S (length (s_rest s2))) [] T Logic.I ltac:(split; discriminate) A2 ltac:(lia)) as (s3 & f' & A3 & Ef & E). rewrite E. destruct (at_char_ok _ _ _ _ A3) as (s4 & E4 & G4 & A4 & _). rewrite E4, G4. change (44 =? 44) with true. cbn [andb]. cbv iota. destruct f' as [|f']; [cbn [length] in *; lia|]. apply U. exact A4. }
  destruct X as (s9 & X). cbn [items_loop]. unfold item. rewrite E1, (proj2 (keq_false n (bs "load")) H1), H2, X. reflexivity.
Qed.
(* an argument list that is not closed *)
Theorem C60_unclosed tail text m items m' l n cs args r : tail_ok tail -> m_err (import m) = false -> irun load (import m) items m' l ->
  n <> bs "load" -> lookup (m_spec m') n = Some cs -> args_fit m' cs args -> args <> [] ->
  char_or_end r -> (forall c, In c (bs ",=()") -> next_ch tail r <> Some c) ->
  ctext tail (before item_tokens items ++ CName n :: CChar 40 :: ccommas arg_tokens args ++ r) text ->
  m_err (fst (parse_cs text m)) = true.
Proof.
  intros T He R H1 H2 H3 Ha C N A. eapply (error_after tail m text items m' l _ n T He R A). clear A. intros s fuel ret A. destruct (at_word_ok tail (CName n) _ s n A eq_refl) as (s1 & E1 & A1). change (read_word cseps s = (n, s1)) in E1. destruct (at_char_ok _ _ _ _ A1) as (s2 & E2 & G2 & A2 & _).
  assert (Nv : no_value (next_ch tail r)). { unfold no_value. destruct (next_ch tail r) as [c|]; [|exact Logic.I]. split; intros ->; [apply (N 61)|apply (N 40)]; cbn; auto. }
  assert (X : exists s9, parse_args (m_err m') (options_for m' cs) s1 = ([], true, s9)).
  { unfold parse_args. rewrite E2, G2. cbn [negb]. change (40 =? 40) with true. cbn [negb]. cbv iota. assert (Len := ctext_len _ _ _ (proj1 A2)). rewrite app_length in Len. assert (Len2 := ccommas_len args).
    destruct (m_err m') eqn:Em.
    - destruct args as [|p args]; [congruence|]. rewrite ccommas_cons in A2. assert (Hp := fit_args _ _ _ H3). apply Forall_cons_iff in Hp. destruct Hp as ((P1 & P2 & P3) & _). destruct p as (k, v). cbn [arg_tokens fst snd app] in *.
      destruct (at_word_ok tail (CName k) _ s2 k A2 eq_refl) as (s3 & E3 & A3). change (read_word cseps s2 = (k, s3)) in E3. cbn [args_loop]. rewrite E3. destruct k as [|a k]; [contradiction|]. set (key := a :: k) in *. destruct (negb _ && negb _); [eexists; reflexivity|]. destruct (read_value s3) as ((vv, ee), s4). rewrite orb_true_r. eexists. reflexivity.
    - destruct (args_run tail (options_for m' cs) args (fit_args _ _ _ H3) Ha r s2 (S (length (s_rest s2))) [] T C Nv A2 ltac:(lia)) as (s3 & f' & A3 & Ef & E). rewrite E. assert (P := at_peek tail r s3 T A3 C). destruct (next_ch tail r) as [c|].
      + destruct P as (s4 & E4 & G4 & _). rewrite E4, G4. assert (N1 : c <> 44) by (intros ->; apply (N 44); cbn; auto). assert (N2 : c <> 41) by (intros ->; apply (N 41); cbn; auto). rewrite (proj2 (N.eqb_neq c 44) N1), (proj2 (N.eqb_neq c 41) N2). cbn [andb]. eexists. reflexivity.
      + destruct P as (s4 & E4 & G4 & _). rewrite E4, G4. cbn [andb]. change (255 =? 41) with false. cbv iota. eexists. reflexivity. }
  destruct X as (s9 & X). cbn [items_loop]. unfold item. rewrite E1, (proj2 (keq_false n (bs "load")) H1), H2, X. reflexivity.
Qed.
(* a parameter with = but no value *)
Theorem C60_no_value tail text m items m' l n r : tail_ok tail -> m_err (import m) = false -> irun load (import m) items m' l ->
  n <> bs "load" -> lookup (m_spec m') n = None -> (r = [] /\ tail = [] \/ exists c r', r = CChar c :: r' /\ In c (bs ",=()")) ->
  ctext tail (before item_tokens items ++ CName n :: CChar 61 :: r) text ->
  m_err (fst (parse_cs text m)) = true.
Proof.
  intros T He R H1 H2 Hr A. eapply (error_after tail m text items m' l _ n T He R A). clear A. intros s fuel ret A. destruct (at_word_ok tail (CName n) _ s n A eq_refl) as (s1 & E1 & A1). change (read_word cseps s = (n, s1)) in E1. destruct (at_char_ok _ _ _ _ A1) as (s2 & E2 & G2 & A2 & _).
  assert (X : exists s3, read_word cseps s2 = ([], s3)).
  { destruct Hr as [(-> & ->)|(c & r' & -> & Hc)].
    - destruct (at_end_ok [] s2 Logic.I A2) as (s3 & E3 & G3 & A3 & _). unfold read_word. rewrite E3, G3. exists s3. cbn [word_loop]. rewrite G3. reflexivity.
    - destruct (at_sep_word tail cseps c r' s2 A2) as (s3 & E3 & _); [|eauto]. cbn in Hc. destruct Hc as [<-|[<-|[<-|[<-|[]]]]]; repeat split; try discriminate; cbn; auto. }
  destruct X as (s3 & X). cbn [items_loop]. unfold item. rewrite E1, (proj2 (keq_false n (bs "load")) H1), H2. unfold read_value. rewrite E2. change (61 =? 61) with true. cbv iota. rewrite X. reflexivity.
Qed.
(* something else than a comma after an item *)
Theorem C60_garbage c tail text m items m' l : items <> [] -> isspace c = false -> c <> 44 -> c <> 61 -> c <> 40 -> m_err (import m) = false -> irun load (import m) items m' l ->
  ctext (c :: tail) (ccommas item_tokens items) text -> m_err (fst (parse_cs text m)) = true.
Proof.
  intros Hi Hc H1 H2 H3 He R A. rewrite <- (app_nil_r (ccommas item_tokens items)) in A. destruct (parse_run files avail builtins (c :: tail) items text m m' l [] Hi Hc He R Logic.I ltac:(split; assumption) A) as (s' & f' & A' & _ & _ & E). rewrite E. destruct (at_end_ok (c :: tail) s' Hc A') as (s2 & E2 & G & _). rewrite E2, G, (proj2 (N.eqb_neq c 44) H1). reflexivity.
Qed.
(* a file that cannot be loaded *)
Theorem C60_bad_file tail text m items m' l fs f : tail_ok tail -> m_err (import m) = false -> irun load (import m) items m' l ->
  ~ In [] fs -> f <> [] -> m_err (load f (fold_left (fun m f => load f m) fs m')) = true ->
  ctext tail (before item_tokens items ++ CName (bs "load") :: CChar 40 :: before (fun f => [CFile f]) fs ++ [CFile f]) text ->
  m_err (fst (parse_cs text m)) = true.
Proof.
  intros T He R H1 H2 H3 A. eapply (error_after tail m text items m' l _ (bs "load") T He R A). clear A R. intros s fuel ret A. destruct (at_word_ok tail (CName (bs "load")) _ s _ A eq_refl) as (s1 & E1 & A1). change (read_word cseps s = (bs "load", s1)) in E1. destruct (at_char_ok _ _ _ _ A1) as (s2 & E2 & G2 & A2 & _).
  assert (X : forall fs m s fuel, ~ In [] fs -> m_err (load f (fold_left (fun m f => load f m) fs m)) = true -> at_ tail (before (fun f => [CFile f]) fs ++ [CFile f]) s -> (length fs < fuel)%nat -> m_err (fst (load_loop files avail fuel m s)) = true).
  { clear -H2. induction fs as [|g fs IH]; intros m s fuel Hn He A L; (destruct fuel as [|fuel]; [lia|]); cbn [before flat_map app fold_left] in *.
    - destruct (at_word_ok tail (CFile f) _ s f A eq_refl) as (s1 & E1 & A1). change (read_word [44; 40; 41] s = (f, s1)) in E1. cbn [load_loop]. rewrite E1. assert (X : (match f with [] => set_err m | _ :: _ => load f m end) = load f m) by (destruct f; [contradiction|reflexivity]). rewrite X, He. exact He.
    - destruct (at_word_ok tail (CFile g) _ s g A eq_refl) as (s1 & E1 & A1). change (read_word [44; 40; 41] s = (g, s1)) in E1. destruct (at_char_ok _ _ _ _ A1) as (s2 & E2 & G2 & A2 & _). cbn [load_loop]. rewrite E1. assert (Hg : g <> []) by (intro D; apply Hn; left; congruence). assert (X : (match g with [] => set_err m | _ :: _ => load g m end) = load g m) by (destruct g; [contradiction|reflexivity]). rewrite X. destruct (m_err (load g m)) eqn:Em; [exact Em|]. rewrite E2, G2. change (44 =? 44) with true. cbn [andb]. cbv iota. apply IH; [|exact He|exact A2|cbn [length] in L; lia]. intro D. apply Hn. right. exact D. }
  cbn [items_loop]. unfold item. rewrite E1, keq_refl. unfold handle_load. rewrite E2. change (40 =? 40) with true. cbv iota. destruct (load_loop files avail (S (length (s_rest s2))) m' s2) as (m9, s9) eqn:E9. assert (Len := ctext_len _ _ _ (proj1 A2)). rewrite app_length in Len. assert (Len2 := before_len fs).
  assert (Len3 : (length fs < S (length (s_rest s2)))%nat). { apply Nat.lt_succ_r. refine (Nat.le_trans _ _ _ Len2 _). refine (Nat.le_trans _ _ _ (Nat.le_add_r _ _) Len). }
  assert (Y := X fs m' s2 (S (length (s_rest s2))) H1 H3 A2 Len3). rewrite E9 in Y. cbn [fst] in Y. rewrite Y. exact Y.
Qed.
End MGR.

(* A comma at the end, or two in a row, stand for a parameter without a name. *)
Theorem C60_comma_refuted : exists m text m', m_err m = false /\ lookup (m_spec m) (bs "prof") <> None /\ text = bs "prof," /\
  fst (parse_configstring (fun _ => None) [] [] text m) = m' /\ m_err m' = false /\ m_extra m' = [([], [])].
Proof. exists (mkm [(bs "prof", mkcs (bs "prof") [] [] [] [] (fun _ => false))] [] false [] [] [] false []), (bs "prof,"). eexists. split; [reflexivity|]. split; [discriminate|]. split; [reflexivity|]. split; [vm_compute; reflexivity|]. split; reflexivity. Qed.

(* ---------- a concrete case ---------- *)
Lemma plain_char seps c : isspace c || is_one_of c seps || (c =? 34) || (c =? 92) = false -> plain seps c.
Proof. intro H. apply orb_false_iff in H. destruct H as (H & H2). apply orb_false_iff in H. destruct H as (H & H1). split; [apply N.eqb_neq; exact H1|]. split; [apply N.eqb_neq; exact H2|]. intro D. apply delim_spec in D. congruence. Qed.
Ltac bare := repeat (apply sp_char; [apply plain_char; reflexivity|]); apply sp_nil.
Ltac word w t sp := apply (ct_word [] (CName w) w _ sp w t); [repeat constructor|reflexivity|discriminate|bare|first [exact Logic.I|split; [first [left; reflexivity|right; cbn; auto 6]|split; discriminate]]|].
Ltac chr t sp := apply (ct_char [] _ _ sp t); [repeat constructor|reflexivity|].
Definition ex_mgr : mgr :=
  mkm [(bs "prof", mkcs (bs "prof") [bs "runtime"] [] [(bs "x", mkopt [] [] [] [] [] [])] [] (fun _ => false))]
      [(bs "mem", mkopt (bs "bool") (bs "runtime") [] [] [] [])] false [] [] [] false [].
Definition ex_items : list citem := [IParam (bs "mem") VNone; IConfig (bs "prof") (Some [(bs "mem", VEq (bs "0")); (bs "x", VNest (bs "(a) b"))]); IParam (bs "foo") (VNest (bs "a=(b)"))].
Example C60_ex_text : ctext [] (ccommas item_tokens ex_items) (bs "mem, prof ( mem=0,x((a) b)),foo(a=(b)) ").
Proof.
  change (ccommas item_tokens ex_items) with [CName (bs "mem"); CChar 44; CName (bs "prof"); CChar 40; CName (bs "mem"); CChar 61; CName (bs "0"); CChar 44; CName (bs "x"); CNest (bs "(a) b"); CChar 41; CChar 44; CName (bs "foo"); CNest (bs "a=(b)")].
  word (bs "mem") (bs ", prof ( mem=0,x((a) b)),foo(a=(b)) ") (@nil N). chr (bs " prof ( mem=0,x((a) b)),foo(a=(b)) ") (@nil N). word (bs "prof") (bs " ( mem=0,x((a) b)),foo(a=(b)) ") [32]. chr (bs " mem=0,x((a) b)),foo(a=(b)) ") [32]. word (bs "mem") (bs "=0,x((a) b)),foo(a=(b)) ") [32]. chr (bs "0,x((a) b)),foo(a=(b)) ") (@nil N). word (bs "0") (bs ",x((a) b)),foo(a=(b)) ") (@nil N). chr (bs "x((a) b)),foo(a=(b)) ") (@nil N). word (bs "x") (bs "((a) b)),foo(a=(b)) ") (@nil N).
  apply (ct_nest [] (bs "(a) b") _ [] (bs "),foo(a=(b)) ")); [constructor| |].
  { apply (b_nest 40 41 (bs "a") (bs " b")); repeat (constructor; try discriminate). }
  chr (bs ",foo(a=(b)) ") (@nil N). chr (bs "foo(a=(b)) ") (@nil N). word (bs "foo") (bs "(a=(b)) ") (@nil N).
  apply (ct_nest [] (bs "a=(b)") _ [] (bs " ")); [constructor| |].
  { apply b_char; try discriminate. apply b_char; try discriminate. apply (b_nest 40 41 (bs "b") []); repeat (constructor; try discriminate). }
  change (bs " ") with ([32] ++ ([] : bytes)). apply (ct_end []). repeat constructor.
Qed.
Example C60_ex : exists m', parse_configstring (fun _ => None) [] [] (bs "mem, prof ( mem=0,x((a) b)),foo(a=(b)) ") ex_mgr = (m', configs_of ex_mgr ex_items) /\
  m_defs m' = [(bs "mem", bs "true")] /\ m_extra m' = [(bs "foo", bs "a=(b)")] /\ m_err m' = false /\ map snd (configs_of ex_mgr ex_items) = [[(bs "mem", bs "0"); (bs "x", bs "(a) b")]].
Proof.
  destruct (C60_items (fun _ => None) [] [] (bs "mem, prof ( mem=0,x((a) b)),foo(a=(b)) ") ex_items [PDefault (bs "mem", bs "true"); PExtra (bs "foo", bs "a=(b)")] ex_mgr ltac:(discriminate) C60_ex_text eq_refl) as (m' & E & S1 & Hd & Hx).
  - apply Forall_cons; [|apply Forall_cons; [|apply Forall_cons; [|constructor]]].
    + split; [discriminate|]. split; [reflexivity|exact Logic.I].
    + split; [discriminate|]. eexists. split; [reflexivity|]. intros k v [H|[H|[]]]; injection H as <- <-; (split; [discriminate|]; split; [first [exact Logic.I|discriminate]|]; right).
      * right. eexists. split; [reflexivity|left; reflexivity].
      * left. eexists. reflexivity.
    + split; [discriminate|]. split; [reflexivity|exact Logic.I].
  - apply ps_option; [discriminate|left; eexists; reflexivity|]. apply ps_config. apply ps_extra; [discriminate| |constructor]. intros [(o & D)|(n & cs & o & [H|[]] & D)]; [discriminate D|]. injection H as <- <-. discriminate D.
  - exists m'. split; [exact E|]. split; [exact Hd|]. split; [exact Hx|]. split; [exact (proj1 (proj2 (proj2 (proj2 (proj2 S1)))))|reflexivity].
Qed.
