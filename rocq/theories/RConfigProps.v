(* C40: runtime configuration *)
From Coq Require Import Strings.Ascii Strings.String.
From Verif Require Import Base TextModel ParseModel RConfigModel RConfigSpec RConfigProofs.
Open Scope N_scope.

Section BUILTIN.
Variable builtin : bytes.
Lemma dict_lookup name l re env p t k : lookup (dict_init name l re env p t) k = option_map (fun d => entry_value name (k, d) re env p t) (lookup l k).
Proof.
  unfold dict_init. induction l as [|(k', d) l IH]; [reflexivity|]. cbn [map fst]. rewrite !lookup_cons. destruct (beq k' k) eqn:E; [|exact IH]. apply beq_eq in E. subst. reflexivity.
Qed.
Lemma entry_prec name k d re env (w : world) p t : env = w_env w -> entry_value name (k, d) re env p t = precedence (lookup t (var name k)) (env_of re w (var name k)) (lookup p (var name k)) d.
Proof.
  intros ->. unfold entry_value, precedence, env_of. cbn [fst snd]. rewrite var_ok. destruct (lookup t (var name k)); [reflexivity|]. cbn [first_some]. destruct re; [destruct (w_env w (var name k)); [reflexivity|]|]; destruct (lookup p (var name k)); reflexivity.
Qed.
Lemma var_file : var s_config s_file = v_file. Proof. reflexivity. Qed.
Lemma var_profile : var s_config s_profile = v_profile. Proof. reflexivity. Qed.
Lemma table_default all n x : table_of (match lookup all n_default with Some _ => all | None => (n_default, []) :: all end) n x = table_of all n x.
Proof.
  destruct (lookup all n_default) eqn:E; [reflexivity|]. unfold table_of. rewrite lookup_cons. destruct (beq n_default n) eqn:B; [|reflexivity]. apply beq_eq in B. subst n. rewrite E. reflexivity.
Qed.
Lemma merge_profiles (all : assoc profile) names x : forall m : profile, lookup (fold_left (fun (m : profile) (n : bytes) => match @lookup profile all n with Some p => p ++ m | None => m end) names m) x = first_some [selected (table_of all) names x; lookup m x].
Proof.
  unfold selected. induction names as [|n names IH]; intro m; [cbn; destruct (lookup m x); reflexivity|]. cbn [fold_left]. rewrite IH. cbn [rev map]. rewrite map_app, fs_app. cbn [map]. rewrite fs1.
  destruct (first_some (map (fun n0 : bytes => table_of all n0 x) (rev names))); [reflexivity|]. cbn [first_some]. unfold table_of. destruct (lookup all n) as [p|]; [|reflexivity]. rewrite lookup_app. cbn [first_some]. destruct (lookup p x); [reflexivity|]; destruct (lookup m x); reflexivity.
Qed.
Lemma fs_flat (a b c : option bytes) : first_some [a; first_some [b; c]] = first_some [a; b; c].
Proof. destruct a, b, c; reflexivity. Qed.
Opaque to_stringlist read_files dict_init.
Lemma init_db_comb h w x : lookup (c_comb (init_db builtin w (setup_config (setup h)))) x =
  first_some [selected (profile_table builtin h w) (config_profiles builtin h w) x; profile_table builtin h w (bs "default") x; last_value (presets (setup h)) x].
Proof.
  unfold init_db, setup_config. cbn [c_comb c_env c_top c_prof]. set (h1 := setup h).
  set (files := to_stringlist [c_comma] (dget (dict_init s_config configdata (env_allowed h1) (w_env w) (rev (presets h1)) (rev (sets h1))) s_file)).
  assert (Ef : files = config_files h w).
  { unfold files, config_files, dget. rewrite dict_lookup. cbn [option_map configdata]. change (lookup configdata s_file) with (Some (bs "caliper.config")). cbn [option_map]. rewrite (entry_prec s_config s_file _ _ _ w _ _ eq_refl), !lookup_rev. rewrite var_file. reflexivity. }
  set (all := read_files builtin w files []). assert (Ea : forall n y, table_of all n y = profile_table builtin h w n y) by (intros; unfold all, profile_table; rewrite Ef; reflexivity).
  assert (Ed : forall y, lookup (match lookup all n_default with Some p => p | None => [] end ++ rev (presets h1)) y = first_some [profile_table builtin h w (bs "default") y; last_value (presets h1) y]).
  { intro y. rewrite lookup_app, lookup_rev. rewrite <- Ea. unfold table_of. change (bs "default") with n_default. destruct (lookup all n_default); reflexivity. }
  set (names := to_stringlist [c_comma] (dget (dict_init s_config configdata (env_allowed h1) (w_env w) (match lookup all n_default with Some p => p | None => [] end ++ rev (presets h1)) (rev (sets h1))) s_profile)).
  assert (En : names = config_profiles builtin h w).
  { unfold names, config_profiles, dget. rewrite dict_lookup. change (lookup configdata s_profile) with (Some (bs "default")). cbn [option_map]. rewrite (entry_prec s_config s_profile _ _ _ w _ _ eq_refl), lookup_rev, Ed. rewrite var_profile. reflexivity. }
  transitivity (first_some [selected (table_of (match lookup all n_default with Some _ => all | None => (n_default, []) :: all end)) names x; lookup (match lookup all n_default with Some p => p | None => [] end ++ rev (presets h1)) x]); [exact (merge_profiles _ names x _)|].
  rewrite Ed, fs_flat, En. f_equal. f_equal. unfold selected. f_equal. apply map_ext. intro n. rewrite table_default. apply Ea.
Qed.
Lemma fs_flat4 (a b c d : option bytes) : first_some [a; first_some [b; c; d]] = first_some [a; b; c; d].
Proof. destruct a, b, c, d; reflexivity. Qed.
Lemma later_app_sets h : sets h = sets (setup h) ++ sets (later h).
Proof. rewrite (setup_later h) at 1. unfold sets. apply flat_map_app. Qed.

(* C40: the value of a variable in a newly initialised set: the value that set() or import() gave it, else the
   environment variable if reading the environment is allowed, else its profile value, else its default *)
Theorem C40_value h w name l k d : name <> bs "config" -> ~ initialised h name -> default_of l k = Some d ->
  dget (snd (init_configset builtin w name l (crun builtin h))) k =
  precedence (last_value (sets h) (var name k)) (env_of (env_allowed h) w (var name k)) (profile_value builtin h (first_world h w) (var name k)) d.
Proof.
  intros Hn Hi Hd. unfold init_configset.
  assert (S : exists c, ensure_db builtin w (crun builtin h) = c /\ c_env c = env_allowed h /\ c_top c = rev (sets h) /\ (forall x, lookup (c_comb c) x = profile_value builtin h (first_world h w) x) /\ lookup (c_db c) name = None).
  { eexists. split; [reflexivity|]. unfold first_world. assert (Q := later_query h). destruct (later h) as [|o r] eqn:El.
    - rewrite (run_setup builtin h El). assert (Eh : setup h = h) by (assert (X := setup_later h); rewrite El, app_nil_r in X; congruence). change (ensure_db builtin w (setup_config h)) with (init_db builtin w (setup_config h)). split; [reflexivity|]. split; [reflexivity|]. split.
      + intro x. replace (setup_config h) with (setup_config (setup h)) by (rewrite Eh; reflexivity). rewrite init_db_comb. unfold profile_value. rewrite El. reflexivity.
      + unfold init_db. cbn [c_db setup_config app]. rewrite lookup_other by (intro X; apply Hn; symmetry; exact X). reflexivity.
    - destruct (query o) as [w0|] eqn:Eq; [|congruence]. destruct (run_spec builtin h w0) as (S1 & S2 & S3 & S4 & S5 & S6 & S7); [exists o; rewrite El; auto|]. cbn zeta in S3. rewrite (ensure_id builtin w _ S4). split; [exact S1|]. split; [exact S2|]. split; [|apply S7; [exact Hn|exact Hi]].
      intro x. rewrite S3, lookup_app, lookup_rev, init_db_comb, fs_flat4. reflexivity. }
  destruct S as (c & -> & S1 & S2 & S3 & S4). rewrite S4. cbn [snd]. unfold dget. rewrite dict_lookup. unfold default_of in Hd. rewrite Hd. cbn [option_map]. rewrite (entry_prec name k d _ _ w _ _ eq_refl), S1, S2, S3, lookup_rev. reflexivity.
Qed.
(* a key that is not in the set has the empty value *)
Theorem C40_unknown h w name l k : name <> bs "config" -> ~ initialised h name -> default_of l k = None -> dget (snd (init_configset builtin w name l (crun builtin h))) k = [].
Proof.
  intros Hn Hi Hd. unfold init_configset. assert (L : lookup (c_db (ensure_db builtin w (crun builtin h))) name = None).
  { assert (Q := later_query h). destruct (later h) as [|o r] eqn:El.
    - rewrite (run_setup builtin h El). unfold ensure_db, init_db. cbn [c_db setup_config app]. rewrite lookup_other by (intro X; apply Hn; symmetry; exact X). reflexivity.
    - destruct (query o) as [w0|] eqn:Eq; [|congruence]. destruct (run_spec builtin h w0) as (S1 & S2 & S3 & S4 & S5 & S6 & S7); [exists o; rewrite El; auto|]. rewrite (ensure_id builtin w _ S4). apply S7; [exact Hn|exact Hi]. }
  rewrite L. cbn [snd]. unfold dget. rewrite dict_lookup. unfold default_of in Hd. rewrite Hd. reflexivity.
Qed.

(* the values of a set do not change any more once it is initialised, whatever happens later *)
Lemma db_keeps c o name d : lookup (c_db c) name = Some d -> lookup (c_db (cstep builtin c o)) name = Some d.
Proof.
  intro H. assert (N : c_db c <> []) by (intro E; rewrite E in H; discriminate H). destruct o as [k v|k v|l|b|w s k|w n l]; cbn [cstep]; try exact H.
  - rewrite import_state. exact H.
  - unfold get. rewrite (ensure_id builtin w c N). exact H.
  - unfold init_configset. rewrite (ensure_id builtin w c N). destruct (lookup (c_db c) n) eqn:E; [exact H|]. cbn [fst c_db]. rewrite lookup_other; [exact H|]. intros ->. congruence.
Qed.
Lemma init_stores w name l c : lookup (c_db (fst (init_configset builtin w name l c))) name = Some (snd (init_configset builtin w name l c)).
Proof.
  unfold init_configset. destruct (lookup (c_db (ensure_db builtin w c)) name) eqn:E; [exact E|]. cbn [fst snd c_db]. rewrite lookup_cons, beq_refl. reflexivity.
Qed.
Lemma run_keeps h' : forall c name d, lookup (c_db c) name = Some d -> lookup (c_db (fold_left (cstep builtin) h' c)) name = Some d.
Proof. induction h' as [|o h' IH]; intros c name d H; [exact H|]. cbn [fold_left]. apply IH, db_keeps, H. Qed.
Theorem C40_stable h w name l h' w' l' k :
  let v := dget (snd (init_configset builtin w name l (crun builtin h))) k in
  let c := crun builtin (h ++ OInit w name l :: h') in
  snd (get builtin w' name k c) = v /\ dget (snd (init_configset builtin w' name l' c)) k = v.
Proof.
  cbn zeta. assert (H : lookup (c_db (crun builtin (h ++ OInit w name l :: h'))) name = Some (snd (init_configset builtin w name l (crun builtin h)))).
  { unfold crun at 1. rewrite fold_left_app. cbn [fold_left]. apply run_keeps. apply init_stores. }
  assert (N : c_db (crun builtin (h ++ OInit w name l :: h')) <> []) by (intro E; rewrite E in H; discriminate H).
  unfold get, init_configset at 2. rewrite (ensure_id builtin w' _ N), H. auto.
Qed.
(* a set that was never initialised gives empty values *)
Theorem C40_uninitialised h w name k : name <> bs "config" -> ~ initialised h name -> snd (get builtin w name k (crun builtin h)) = [].
Proof.
  intros Hn Hi. unfold get. cbn [snd]. assert (L : lookup (c_db (ensure_db builtin w (crun builtin h))) name = None).
  { assert (Q := later_query h). destruct (later h) as [|o r] eqn:El.
    - rewrite (run_setup builtin h El). unfold ensure_db, init_db. cbn [c_db setup_config app]. rewrite lookup_other by (intro X; apply Hn; symmetry; exact X). reflexivity.
    - destruct (query o) as [w0|] eqn:Eq; [|congruence]. destruct (run_spec builtin h w0) as (S1 & S2 & S3 & S4 & S5 & S6 & S7); [exists o; rewrite El; auto|]. rewrite (ensure_id builtin w _ S4). apply S7; [exact Hn|exact Hi]. }
  rewrite L. reflexivity.
Qed.
End BUILTIN.
