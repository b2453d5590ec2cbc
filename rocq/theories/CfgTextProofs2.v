(* Config strings: items *)
From Coq Require Import Strings.Ascii Strings.String.
From Verif Require Import Base TextModel ParseModel ParseSpec ParseProofs ParseProps RConfigModel JsonModel CfgModel CfgMgrModel CfgSpec CfgProofs CfgTextSpec CfgTextProofs.
Open Scope N_scope.

Lemma lookup_filter (g : ospec) (f : opt -> bool) k : lookup (filter (fun p : bytes * opt => match lookup g (fst p) with Some o => f o | None => false end) g) k = match lookup g k with Some o => if f o then Some o else None | None => None end.
Proof.
  assert (X : forall l : list (bytes * opt), (forall o, lookup l k = Some o -> exists o', lookup g k = Some o') -> lookup (filter (fun p : bytes * opt => match lookup g (fst p) with Some o => f o | None => false end) l) k = match lookup l k with Some o => match lookup g k with Some o' => if f o' then Some o else None | None => None end | None => None end).
  { induction l as [|(x, o) l IH]; intro H; [reflexivity|]. cbn [filter lookup fst]. destruct (keq k x) eqn:E.
    - apply keq_spec in E. subst x. destruct (H o) as (o' & Ho); [cbn; rewrite keq_refl; reflexivity|]. rewrite Ho. destruct (f o') eqn:F; [cbn [lookup]; rewrite keq_refl; reflexivity|]. rewrite IH by (intros; eauto). rewrite Ho, F. destruct (lookup l k); reflexivity.
    - assert (Hl : forall o0, lookup l k = Some o0 -> exists o', lookup g k = Some o') by (intros o0 D; apply (H o0); cbn; rewrite E; exact D). destruct (match lookup g x with Some o0 => f o0 | None => false end); [cbn [lookup]; rewrite E|]; apply IH; exact Hl. }
  rewrite X by eauto. destruct (lookup g k) as [o|]; reflexivity.
Qed.
Lemma option_of_known m cs k : option_of m cs k <-> known (options_for m cs) k = true.
Proof.
  unfold option_of, known, options_for, add_opts. rewrite lookup_app, (lookup_filter (m_gopts m) (fun o => mem (op_cat o) (cs_cats cs)) k). destruct (lookup (cs_opts cs) k) as [o|]; [split; eauto|]. destruct (lookup (m_gopts m) k) as [o|].
  - destruct (mem (op_cat o) (cs_cats cs)) eqn:E.
    + apply mem_spec in E. split; [reflexivity|eauto].
    + apply mem_false in E. split; [|discriminate]. intros [(x & D)|(x & D & Hx)]; [discriminate D|]. injection D as <-. contradiction.
  - split; [|discriminate]. intros [(x & D)|(x & D & Hx)]; discriminate D.
Qed.
Lemma is_option_name m k : is_option m k = true <-> option_name m k.
Proof.
  unfold is_option, option_name, known. rewrite orb_true_iff, existsb_exists. split; (intros [H|H]; [left|right]).
  - destruct (lookup (m_gopts m) k) as [o|]; [eauto|discriminate H].
  - destruct H as ((n, cs) & Hi & H). cbn [snd] in H. destruct (lookup (cs_opts cs) k) as [o|] eqn:E; [|discriminate H]. exists n, cs, o. auto.
  - destruct H as (o & ->). reflexivity.
  - destruct H as (n & cs & o & Hi & H). exists (n, cs). cbn [snd]. rewrite H. auto.
Qed.
Lemma fit_args m cs l : args_fit m cs l -> Forall (arg_ok (options_for m cs)) l.
Proof. intro H. apply Forall_forall. intros (k, v) Hi. destruct (H k v Hi) as (H1 & H2 & H3). split; [exact H1|]. split; [exact H2|]. destruct H3 as [H3|H3]; [left; exact H3|right; apply option_of_known; exact H3]. Qed.
Lemma first_word tail k r s : at_ tail (k :: r) s -> is_word k -> exists c s', read_char s = (c, s') /\ s_good s' = true /\ at_ tail (k :: r) (s_unget s') /\ (length (s_rest (s_unget s')) <= length (s_rest s))%nat.
Proof.
  intros H W. assert (G := at_cons_good _ _ _ _ H). destruct H as [H _]. rewrite (stream_eta s), G. cbn [s_rest]. remember (s_rest s) as t eqn:Et. clear Et. remember (k :: r) as l eqn:El.
  destruct H as [|k' w' r' sp i t Hsp Hw' Hi Hs Ht Hr|c' r' sp t Hsp Hc Hr|u r' sp t Hsp Hb Hr]; [discriminate El| | |]; injection El as <- <-; try destruct W.
  assert (Hh := spells_head _ i w' Hs). destruct i as [|c i]; [congruence|]. cbn [app]. rewrite read_char_ok by assumption. exists c. eexists. split; [reflexivity|]. split; [reflexivity|]. cbn [s_unget s_rest s_prev]. split; [split; [exact (ct_word tail k' w' r' [] (c :: i) t (Forall_nil _) Hw' Hi Hs Ht Hr)|left; reflexivity]|]. pose proof (app_length sp (c :: i ++ t)) as Q. refine (Nat.le_trans _ _ _ (Nat.le_add_l _ (length sp)) (Nat.eq_le_incl _ _ (eq_sym Q))).
Qed.

Section MGR.
Variable files : bytes -> option bytes.
Variable avail : list bytes.
Variable builtins : list (bytes * (options -> bool)).
Notation load := (load_file files avail).

(* ---------- errors stay ---------- *)
Lemma acs_err json ck ig m : m_err m = true -> m_err (add_config_spec avail json ck ig m) = true.
Proof.
  intro H. unfold add_config_spec. destruct (rec_dict json) as (d, ok). destruct (negb ok); [reflexivity|]. destruct (lookup d (bs "name")) as [n|]; [|reflexivity]. destruct (lookup (m_spec m) n); [destruct ig; [exact H|reflexivity]|]. rewrite H.
  repeat (match goal with |- context [let (_, _) := ?x in _] => destruct x end). match goal with |- context [if negb ?x then _ else _] => destruct (negb x); [exact H|] end. match goal with |- context [m_err (if ?x then m else set_err m)] => destruct x end; [rewrite H; exact H|reflexivity].
Qed.
Lemma agl_err l ok m : m_err m = true -> m_err (add_global_list l ok m) = true.
Proof. intro H. unfold add_global_list. destruct (if m_gerr m then _ else _) as (s, e). destruct (e || negb ok); [reflexivity|exact H]. Qed.
Lemma acl_err l : forall m, m_err m = true -> m_err (add_configs avail l m) = true.
Proof. induction l as [|t l IH]; intros m H; [exact H|]. cbn [add_configs]. rewrite (acs_err _ _ _ _ H). apply acs_err. exact H. Qed.
Lemma load_err f m : m_err m = true -> m_err (load f m) = true.
Proof.
  intro H. unfold load_file. destruct (files f) as [t|]; [|reflexivity]. unfold parse_json. destruct (rec_dict t) as (d, []).
  - destruct (lookup d (bs "name")); [apply acs_err; exact H|]. assert (X : m_err (match lookup d (bs "options") with Some v => let (l, ok) := rec_list v in add_global_list l ok m | None => m end) = true) by (destruct (lookup d (bs "options")) as [v|]; [destruct (rec_list v); apply agl_err|]; exact H).
    destruct (lookup d (bs "configs")) as [v|]; [|exact X]. destruct (rec_list v) as (l, []); [apply acl_err; exact X|reflexivity].
  - destruct (rec_list t) as (l, []); [apply acl_err; exact H|reflexivity].
Qed.
Lemma loads_err fs : forall m, m_err m = true -> m_err (fold_left (fun m f => load f m) fs m) = true.
Proof. induction fs as [|f fs IH]; intros m H; [exact H|]. cbn [fold_left]. apply IH, load_err, H. Qed.

(* ---------- load ---------- *)
Lemma sep_file c : In c [44; 41] -> sep_ok [44; 40; 41] c.
Proof. intros [<-|[<-|[]]]; repeat split; try discriminate; cbn; auto. Qed.
Lemma load_run tail l : l <> [] -> ~ In [] l -> forall m s r fuel, m_err (fold_left (fun m f => load f m) l m) = false -> at_ tail (ccommas (fun f => [CFile f]) l ++ CChar 41 :: r) s -> (length l <= fuel)%nat ->
  exists s', load_loop files avail fuel m s = (fold_left (fun m f => load f m) l m, s') /\ at_ tail r s'.
Proof.
  induction l as [|f l IH]; [congruence|]. intros _ Hn m s r fuel He A L. destruct fuel as [|fuel]; [cbn [length] in L; lia|]. rewrite ccommas_cons in A. cbn [app] in A. destruct (at_word_ok tail (CFile f) _ s f A eq_refl) as (s1 & E1 & A1). change (read_word [44; 40; 41] s = (f, s1)) in E1. cbn [load_loop]. rewrite E1.
  assert (Hf : f <> []) by (intro D; apply Hn; left; congruence). assert (X : (match f with [] => set_err m | _ :: _ => load f m end) = load f m) by (destruct f; [contradiction|reflexivity]). cbn [fold_left] in *. rewrite X. clear X.
  assert (Em : m_err (load f m) = false). { destruct (m_err (load f m)) eqn:E; [|reflexivity]. rewrite (loads_err l _ E) in He. exact He. } rewrite Em. destruct l as [|g l].
  - destruct (at_char_ok _ _ _ _ A1) as (s2 & E2 & G2 & A2 & _). rewrite E2, G2. change (41 =? 44) with false. change (41 =? 41) with true. cbn [andb]. cbv iota. exists s2. split; [reflexivity|exact A2].
  - destruct (at_char_ok _ _ _ _ A1) as (s2 & E2 & G2 & A2 & _). rewrite E2, G2. change (44 =? 44) with true. cbn [andb]. cbv iota. apply IH; [discriminate| |exact He|exact A2|cbn [length] in *; lia]. intro D. apply Hn. right. exact D.
Qed.
Lemma file_len l : (length l <= length (ccommas (fun f => [CFile f]) l))%nat.
Proof. destruct l as [|p l]; [cbn; lia|]. cbn [ccommas length app]. assert (length l <= length (flat_map (fun y : bytes => [CChar 44%N; CFile y]) l))%nat; [|lia]. induction l as [|q l IH]; [cbn; lia|]. cbn [flat_map length app] in *. lia. Qed.
Lemma load_ok tail l m s r : l <> [] -> ~ In [] l -> m_err (fold_left (fun m f => load f m) l m) = false -> at_ tail (CChar 40 :: ccommas (fun f => [CFile f]) l ++ CChar 41 :: r) s ->
  exists s', handle_load files avail m s = (fold_left (fun m f => load f m) l m, s') /\ at_ tail r s'.
Proof.
  intros H1 H2 H3 A. destruct (at_char_ok _ _ _ _ A) as (s1 & E1 & G1 & A1 & _). unfold handle_load. rewrite E1. change (40 =? 40) with true. cbv iota. apply load_run; try assumption. assert (Len := ctext_len _ _ _ (proj1 A1)). rewrite app_length in Len. apply Nat.le_le_succ_r. refine (Nat.le_trans _ _ _ (file_len l) _). refine (Nat.le_trans _ _ _ (Nat.le_add_r _ _) Len).
Qed.

(* ---------- one item ---------- *)
Lemma item_ok tail m i m' l1 s r ret : tail_ok tail -> m_err m = false -> irun load m [i] m' l1 -> char_or_end r -> no_value (next_ch tail r) -> at_ tail (item_tokens i ++ r) s ->
  exists s', item files avail m s ret = (m', ret ++ l1, s') /\ at_ tail r s' /\ m_err m' = false.
Proof.
  intros T He R C N A. remember [i] as is eqn:Ei. destruct R as [|m n a cs rr m' l H1 H2 H3 R|m n v p rr m' l H1 H2 H3 H4 R|m fs rr m' l H1 H2 H3 R]; [discriminate Ei| | |]; injection Ei as <- ->.
  - inversion R; subst. destruct a as [la|]; cbn [item_tokens app] in A.
    + destruct (at_word_ok tail (CName n) _ s n A eq_refl) as (s1 & E1 & A1). change (read_word cseps s = (n, s1)) in E1. rewrite <- app_assoc in A1. cbn [app] in A1. destruct (args_ok tail (options_for m' cs) la r s1 T (fit_args _ _ _ H3) A1) as (s2 & E2 & A2).
      exists s2. unfold item. rewrite E1, (proj2 (keq_false n (bs "load")) H1), H2, He, E2. split; [reflexivity|]. split; [exact A2|first [exact He|reflexivity]].
    + destruct (at_word_ok tail (CName n) _ s n A eq_refl) as (s1 & E1 & A1). change (read_word cseps s = (n, s1)) in E1. unfold item. rewrite E1, (proj2 (keq_false n (bs "load")) H1), H2, He. assert (P := at_peek tail r s1 T A1 C). unfold parse_args. destruct (next_ch tail r) as [c|].
      * destruct P as (s' & E & G & A'). rewrite E, G. cbn [negb]. rewrite (proj2 (N.eqb_neq c 40) (proj2 N)). cbn [negb]. exists (s_unget s'). auto.
      * destruct P as (s' & E & G & A' & _). rewrite E, G. cbn [negb]. exists s'. auto.
  - inversion R; subst. cbn [item_tokens app] in A. destruct (at_word_ok tail (CName n) _ s n A eq_refl) as (s1 & E1 & A1). change (read_word cseps s = (n, s1)) in E1. destruct (read_value_ok tail v r s1 T H3 A1 ltac:(auto)) as (s2 & E2 & A2). unfold item. rewrite E1, (proj2 (keq_false n (bs "load")) H1), H2, E2, He. cbn [orb]. rewrite app_nil_r. exists s2.
    remember [IParam n v] as ip eqn:Eip. remember [p] as pp eqn:Epp. destruct H4 as [|n0 a r0 l0 H4|v0 r0 l0 H4|n0 v0 r0 l0 Hm Ho H4|n0 v0 r0 l0 Hm Ho H4]; try discriminate Eip; injection Eip as; subst; injection Epp as; subst.
    + rewrite keq_refl. split; [reflexivity|]. split; [exact A2|first [exact He|reflexivity]].
    + rewrite (proj2 (keq_false n (bs "metadata")) Hm), (proj2 (is_option_name _ _) Ho), or_true_v. split; [reflexivity|]. split; [exact A2|first [exact He|reflexivity]].
    + rewrite (proj2 (keq_false n (bs "metadata")) Hm). destruct (is_option m n) eqn:E; [exfalso; apply Ho, is_option_name, E|]. split; [reflexivity|]. split; [exact A2|first [exact He|reflexivity]].
  - inversion R; subst. cbn [item_tokens app] in A. destruct (at_word_ok tail (CName (bs "load")) _ s _ A eq_refl) as (s1 & E1 & A1). change (read_word cseps s = (bs "load", s1)) in E1. rewrite <- app_assoc in A1. cbn [app] in A1. destruct (load_ok tail fs m s1 r H1 H2 H3 A1) as (s2 & E2 & A2). unfold item. rewrite E1, keq_refl, E2, app_nil_r. exists s2. auto.
Qed.
Lemma irun_split m i r m' l : irun load m (i :: r) m' l -> exists m1 l1 l2, irun load m [i] m1 l1 /\ irun load m1 r m' l2 /\ l = l1 ++ l2.
Proof.
  intro H. remember (i :: r) as is eqn:Ei. destruct H as [|m n a cs rr m' l H1 H2 H3 R|m n v p rr m' l H1 H2 H3 H4 R|m fs rr m' l H1 H2 H3 R]; [discriminate Ei| | |]; injection Ei as <- ->.
  - eexists. eexists. eexists. split; [eapply ir_config; try eassumption; constructor|]. split; [exact R|reflexivity].
  - eexists. eexists. eexists. split; [eapply ir_param; try eassumption; constructor|]. split; [exact R|reflexivity].
  - eexists. eexists. eexists. split; [eapply ir_load; try eassumption; constructor|]. split; [exact R|reflexivity].
Qed.
Notation items_loop := (items_loop files avail).
Lemma items_run tail items : items <> [] -> forall m m' l r s fuel ret, tail_ok tail -> m_err m = false -> irun load m items m' l -> char_or_end r -> no_value (next_ch tail r) -> at_ tail (ccommas item_tokens items ++ r) s -> (length items <= fuel)%nat ->
  exists s' fuel', at_ tail r s' /\ (fuel = length items + fuel')%nat /\ m_err m' = false /\ items_loop fuel m s ret =
    let (c, s2) := read_char s' in
    if s_good s2 && (c =? 44) then items_loop fuel' m' s2 (ret ++ l) else if s_good s2 then (set_err m', ret ++ l) else (m', ret ++ l).
Proof.
  induction items as [|i items IH]; [congruence|]. intros _ m m' l r s fuel ret T He R C N A L. destruct fuel as [|fuel]; [cbn [length] in L; lia|]. rewrite ccommas_cons in A. destruct (irun_split m i items m' l R) as (m1 & l1 & l2 & R1 & R2 & ->). destruct items as [|j items].
  - inversion R2; subst. destruct (item_ok tail m i m' l1 s r ret T He R1 C N A) as (s1 & E1 & A1 & He1). exists s1, fuel. split; [exact A1|]. split; [reflexivity|]. split; [exact He1|]. cbn [CfgMgrModel.items_loop]. rewrite E1, He1, app_nil_r. reflexivity.
  - destruct (item_ok tail m i m1 l1 s (CChar 44 :: ccommas item_tokens (j :: items) ++ r) ret T He R1 Logic.I ltac:(split; discriminate) A) as (s1 & E1 & A1 & He1). destruct (at_char_ok _ _ _ _ A1) as (s2 & E2 & G2 & A2 & _).
    destruct (IH ltac:(discriminate) m1 m' l2 r s2 fuel (ret ++ l1) T He1 R2 C N A2 ltac:(cbn [length] in *; lia)) as (s' & f' & A' & Ef & He' & E'). exists s', f'. split; [exact A'|]. split; [cbn [length] in *; lia|]. split; [exact He'|]. cbn [CfgMgrModel.items_loop]. rewrite E1, He1, E2, G2. change (44 =? 44) with true. cbn [andb]. cbv iota. rewrite app_assoc. exact E'.
Qed.
Lemma items_first items : items <> [] -> exists w r, ccommas item_tokens items = CName w :: r.
Proof. destruct items as [|i items]; [congruence|]. intros _. cbn [ccommas]. destruct i as [n [l|]|n v|l]; cbn [item_tokens app]; eauto. Qed.
Lemma items_len items : (length items <= length (ccommas item_tokens items))%nat.
Proof.
  assert (X : forall i, (1 <= length (item_tokens i))%nat) by (intros [n [l|]|n v|l]; cbn [item_tokens length]; lia). destruct items as [|i items]; [cbn; lia|]. cbn [ccommas length]. rewrite app_length. specialize (X i) as Xi. assert (length items <= length (flat_map (fun y : citem => CChar 44%N :: item_tokens y) items))%nat; [|lia]. clear -X. induction items as [|q l IH]; [cbn; lia|]. cbn [flat_map length app]. rewrite app_length. lia.
Qed.
Notation import := (import_builtin avail builtins).
(* the text: items, then r, then the tail *)
Lemma parse_run tail items text m m' l r : items <> [] -> tail_ok tail -> m_err (import m) = false -> irun load (import m) items m' l -> char_or_end r -> no_value (next_ch tail r) -> ctext tail (ccommas item_tokens items ++ r) text ->
  exists s' fuel', at_ tail r s' /\ (length r <= fuel' + 1)%nat /\ m_err m' = false /\ parse_configstring files avail builtins text m =
    let (c, s2) := read_char s' in
    if s_good s2 && (c =? 44) then items_loop fuel' m' s2 l else if s_good s2 then (set_err m', l) else (m', l).
Proof.
  intros Hi T He R C N A. destruct (items_first items Hi) as (w & r0 & Ef). assert (A0 : at_ tail (ccommas item_tokens items ++ r) (s_open text)).
  { split; [exact A|]. left. reflexivity. }
  rewrite Ef in A0. cbn [app] in A0. destruct (first_word tail (CName w) _ (s_open text) A0 Logic.I) as (c & s1 & E1 & G1 & A1 & L1). unfold parse_configstring. rewrite E1, G1. change (CName w :: r0 ++ r) with ((CName w :: r0) ++ r) in A1. rewrite <- Ef in A1.
  assert (Len := ctext_len _ _ _ A). rewrite app_length in Len. assert (Len2 := items_len items).
  destruct (items_run tail items Hi (import m) m' l r (s_unget s1) (S (length text)) [] T He R C N A1 ltac:(lia)) as (s' & f' & A' & Ef' & He' & E'). exists s', f'. split; [exact A'|]. split; [lia|]. split; [exact He'|exact E'].
Qed.
End MGR.
