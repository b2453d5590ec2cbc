(* C59: explicit arguments come before defaults *)
From Coq Require Import Strings.Ascii Strings.String.
From Verif Require Import Base NamesModel TextModel ParseModel ParseSpec RConfigModel JsonModel CfgModel CfgMgrModel CfgSpec CfgProofs CfgProps.
Open Scope N_scope.

(* calls that set defaults, and the manager after them *)
Inductive dcall := D_all (k v : bytes) | D_for (config k v : bytes).
Definition do_call (m : mgr) (c : dcall) : mgr := match c with D_all k v => set_default_parameter k v m | D_for n k v => set_default_for_config n k v m end.
(* the defaults set for every config, and for the config n, in the order of the calls *)
Definition for_all (calls : list dcall) : arglist := flat_map (fun c => match c with D_all k v => [(k, v)] | D_for _ _ _ => [] end) calls.
Definition for_config (n : bytes) (calls : list dcall) : arglist := flat_map (fun c => match c with D_all _ _ => [] | D_for n' k v => if keq n' n then [(k, v)] else [] end) calls.
Definition config_defaults (m : mgr) (n : bytes) : arglist := match lookup (m_sdefs m) n with Some l => l | None => [] end.

Lemma calls_ok calls : forall m, let m' := fold_left do_call calls m in
  m_defs m' = m_defs m ++ for_all calls /\ (forall n, config_defaults m' n = config_defaults m n ++ for_config n calls) /\
  m_spec m' = m_spec m /\ m_gopts m' = m_gopts m /\ m_err m' = m_err m /\ m_chans m' = m_chans m.
Proof.
  induction calls as [|c calls IH]; intro m; cbn [fold_left for_all for_config flat_map].
  - cbv zeta. rewrite app_nil_r. repeat split; try reflexivity. intro n. symmetry. apply app_nil_r.
  - destruct (IH (do_call m c)) as (H1 & H2 & H3 & H4 & H5 & H6). cbv zeta. rewrite H1, H3, H4, H5, H6. destruct c as [k v|n0 k v]; cbn [do_call].
    + unfold set_default_parameter, add_default. cbn [m_defs m_spec m_gopts m_err m_chans]. rewrite <- app_assoc. repeat split; try reflexivity. intro n. rewrite H2. reflexivity.
    + unfold set_default_for_config. cbn [m_defs m_spec m_gopts m_err m_chans]. repeat split; try reflexivity. intro n. rewrite H2. cbn [do_call]. unfold config_defaults, set_default_for_config. cbn [m_sdefs lookup]. destruct (keq n n0) eqn:E.
      * apply keq_spec in E. subst n0. rewrite keq_refl, app_assoc. reflexivity.
      * apply keq_false in E. rewrite (proj2 (keq_false n0 n)) by congruence. reflexivity.
Qed.
Lemma with_defaults_lookup m cs args k : k <> bs "metadata" ->
  lookup (with_defaults m cs args) k = first_of [args; config_defaults m (cs_name cs); m_defs m; cs_defaults cs] k.
Proof.
  intro Hk. unfold with_defaults, first_of, config_defaults. cbn [concat]. rewrite app_nil_r. rewrite !merge_lookup by exact Hk. rewrite !lookup_app. destruct (lookup (m_sdefs m) (cs_name cs)) as [l|]; [rewrite merge_lookup by exact Hk; destruct (lookup args k); [reflexivity|destruct (lookup l k); [reflexivity|destruct (lookup (m_defs m) k); reflexivity]]|].
  cbn [lookup]. destruct (lookup args k); [reflexivity|]. destruct (lookup (m_defs m) k); reflexivity.
Qed.
Lemma merge_in to from k v : k <> bs "metadata" -> In (k, v) (merge_new to from) <-> In (k, v) to \/ (lookup to k = None /\ lookup from k = Some v).
Proof.
  intro Hk. destruct (merge_split from to) as (new & E & H & _). rewrite E, in_app_iff. split; [intros [D|D]; [auto|right; exact (H k v D Hk)]|]. intros [D|(D1 & D2)]; [auto|]. assert (L : lookup (merge_new to from) k = Some v) by (rewrite merge_lookup, D1 by exact Hk; exact D2). rewrite E, lookup_app, D1 in L. right. apply lookup_in. exact L.
Qed.
Lemma with_defaults_in m cs args k v : k <> bs "metadata" ->
  In (k, v) (with_defaults m cs args) <-> In (k, v) args \/ (lookup args k = None /\ first_of [config_defaults m (cs_name cs); m_defs m; cs_defaults cs] k = Some v).
Proof.
  intro Hk. unfold with_defaults, first_of, config_defaults. cbn [concat]. rewrite app_nil_r. rewrite !merge_in, !merge_lookup, !lookup_app by exact Hk.
  assert (X : forall l, (In (k, v) (merge_new args l) <-> In (k, v) args \/ (lookup args k = None /\ lookup l k = Some v)) /\ lookup (merge_new args l) k = match lookup args k with Some v => Some v | None => lookup l k end) by (intro l; split; [apply merge_in|apply merge_lookup]; exact Hk).
  destruct (lookup (m_sdefs m) (cs_name cs)) as [l|]; [destruct (X l) as (X1 & X2); rewrite X1, X2|cbn [lookup]]; destruct (lookup args k) as [w|]; [intuition congruence|destruct (lookup l k); [|destruct (lookup (m_defs m) k)]; intuition congruence|intuition congruence|destruct (lookup (m_defs m) k); intuition congruence].
Qed.

(* The value of an option is the explicit one; otherwise that of the first call of set_default_parameter_for_config
   for it and this config, else of the first call of set_default_parameter for it, else the default in the spec. *)
Theorem C59_value depth m0 calls cs args o k dflt : m_sdefs m0 = [] -> m_defs m0 = [] -> k <> bs "metadata" ->
  let m := fold_left do_call calls m0 in
  config_options depth m (cs, args) = Some o ->
  get o k dflt = match first_of [args; for_config (cs_name cs) calls; for_all calls; cs_defaults cs] k with Some v => v | None => dflt end /\
  (is_set o k = true <-> exists l v, In l [args; for_config (cs_name cs) calls; for_all calls; cs_defaults cs] /\ In (k, v) l).
Proof.
  intros E1 E2 Hk m. destruct (calls_ok calls m0) as (Hd & Hc & _). fold m in Hd, Hc. rewrite E2 in Hd. cbn [app] in Hd. unfold config_options, make_options. cbn [fst snd]. destruct (find_enabled _ _ _) as [l|]; [|discriminate]. intro H. injection H as <-. unfold get, is_set. cbn [o_args]. rewrite with_defaults_lookup by exact Hk.
  rewrite Hd, Hc. unfold config_defaults at 1 2. rewrite E1. cbn [lookup app]. split; [reflexivity|]. unfold first_of. set (ls := [args; _; _; _]). transitivity (exists v, lookup (concat ls) k = Some v); [destruct (lookup (concat ls) k); split; [eauto|reflexivity|discriminate|intros (v & D); discriminate D]|]. rewrite lookup_some, in_map_iff.
  split; [intros ((x, v) & <- & H); apply in_concat in H; destruct H as (l0 & Hl & H); exists l0, v; auto|]. intros (l0 & v & Hl & H). exists (k, v). split; [reflexivity|]. apply in_concat. exists l0. auto.
Qed.
(* Defaults only count for options without an explicit argument. *)
Theorem C59_enabled depth m0 calls cs args o k : m_sdefs m0 = [] -> m_defs m0 = [] ->
  let m := fold_left do_call calls m0 in
  lookup (options_for m cs) (bs "metadata") = None ->
  config_options depth m (cs, args) = Some o ->
  (is_enabled o k = true <-> exists a v, switches_on (options_for m cs) a v /\ reaches (options_for m cs) a k /\
     (In (a, v) args \/ ((forall w, ~ In (a, w) args) /\ first_of [for_config (cs_name cs) calls; for_all calls; cs_defaults cs] a = Some v))).
Proof.
  intros E1 E2 m Hm H. destruct (calls_ok calls m0) as (Hd & Hc & _). fold m in Hd, Hc. rewrite E2 in Hd. cbn [app] in Hd. unfold config_options in H. cbn [fst snd] in H. rewrite (C58_enabled depth _ _ _ k H).
  assert (Y : forall a, (forall w, ~ In (a, w) args) <-> lookup args a = None). { intro a. rewrite lookup_none, in_map_iff. split; [intros X ((x, w) & E & Hi); cbn in E; subst; exact (X w Hi)|intros X w Hi; apply X; exists (a, w); auto]. }
  assert (Z : forall a v, switches_on (options_for m cs) a v -> reaches (options_for m cs) a k -> a <> bs "metadata"). { intros a v (sp & Hl & _) R ->. congruence. }
  split; intros (a & v & X); [destruct X as (X1 & X2 & X3)|destruct X as (X2 & X3 & X1)]; exists a, v; (assert (Ha := Z a v X2 X3)).
  - split; [exact X2|]. split; [exact X3|]. apply (with_defaults_in m cs args a v Ha) in X1. rewrite Y. rewrite Hd, Hc in X1. unfold config_defaults in X1. rewrite E1 in X1. exact X1.
  - split; [|auto]. apply (with_defaults_in m cs args a v Ha). rewrite Y in X1. rewrite Hd, Hc. unfold config_defaults. rewrite E1. exact X1.
Qed.
(* The explicit arguments keep their place and order; metadata arguments are kept, explicit ones and defaults. *)
Theorem C59_explicit m cs args : exists rest, with_defaults m cs args = args ++ rest /\
  map snd (filter is_meta rest) = map snd (filter is_meta (config_defaults m (cs_name cs) ++ m_defs m ++ cs_defaults cs)) /\
  NoDup (map fst (filter (fun p => negb (is_meta p)) rest)) /\ (forall k v, In (k, v) rest -> k <> bs "metadata" -> forall w, ~ In (k, w) args).
Proof.
  assert (W : with_defaults m cs args = merge_new (merge_new (merge_new args (config_defaults m (cs_name cs))) (m_defs m)) (cs_defaults cs)). { unfold with_defaults, config_defaults. destruct (lookup (m_sdefs m) (cs_name cs)); reflexivity. }
  assert (M : with_defaults m cs args = merge_new args (config_defaults m (cs_name cs) ++ m_defs m ++ cs_defaults cs)) by (rewrite W; unfold merge_new; rewrite !fold_left_app; reflexivity). clear W.
  destruct (merge_split (config_defaults m (cs_name cs) ++ m_defs m ++ cs_defaults cs) args) as (new & E & H1 & H2). exists new. rewrite M. split; [exact E|]. split; [|split; [exact H2|]].
  - assert (F := merge_meta (config_defaults m (cs_name cs) ++ m_defs m ++ cs_defaults cs) args). rewrite E, filter_app in F. apply app_inv_head in F. rewrite F. reflexivity.
  - intros k v Hi Hk w D. destruct (H1 k v Hi Hk) as (X & _). apply lookup_none in X. apply X. apply in_map_iff. exists (k, w). auto.
Qed.
(* A later default does not replace an earlier one. *)
Theorem C59_latest_refuted : exists m0 calls cs o, m_defs m0 = [] /\ m_sdefs m0 = [] /\
  calls = [D_all (bs "opt") (bs "1"); D_all (bs "opt") (bs "2")] /\ config_options 1 (fold_left do_call calls m0) (cs, []) = Some o /\ get o (bs "opt") [] = bs "1".
Proof. exists (mkm [] [] false [] [] [] false []), [D_all (bs "opt") (bs "1"); D_all (bs "opt") (bs "2")], (mkcs (bs "c") [] [] [] [] (fun _ => false)). eexists. repeat split; vm_compute; reflexivity. Qed.
(* Contradictory explicit arguments: the option is on although its value is the first one, false. *)
Theorem C59_contradiction_refuted : exists s args o, make_options 1 s args = Some o /\ args = [(bs "opt", bs "false"); (bs "opt", bs "true")] /\ get o (bs "opt") [] = bs "false" /\ is_enabled o (bs "opt") = true.
Proof. exists [(bs "opt", mkopt (bs "bool") [] [] [] [] [])], [(bs "opt", bs "false"); (bs "opt", bs "true")]. eexists. split; [vm_compute; reflexivity|]. repeat split. Qed.

Example C59_ex : exists m cs o, m = fold_left do_call [D_all (bs "mem") (bs "true"); D_for (bs "c") (bs "output.format") (bs "json"); D_all (bs "output.format") (bs "x"); D_for (bs "d") (bs "mem") (bs "false")] (mkm [] ex_spec false [] [] [] false []) /\
  cs = mkcs (bs "c") [bs "runtime"] [] ex_spec [(bs "profile.mpi", bs "true")] (fun _ => false) /\
  config_options 5 m (cs, [(bs "profile.mpi", bs "false")]) = Some o /\ o_on o = [bs "output.format"; bs "mem"] /\ get o (bs "output.format") [] = bs "json" /\ lookup (options_for m cs) (bs "metadata") = None.
Proof. eexists. eexists. eexists. repeat split; vm_compute; reflexivity. Qed.
