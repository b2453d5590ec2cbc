(* Proofs about the runtime configuration *)
From Coq Require Import Strings.Ascii Strings.String.
From Verif Require Import Base TextModel ParseModel RConfigModel RConfigSpec.
Open Scope N_scope.

Lemma beq_eq a b : beq a b = true <-> a = b. Proof. unfold beq. destruct (list_eq_dec N.eq_dec a b); split; congruence. Qed.
Lemma beq_refl a : beq a a = true. Proof. apply beq_eq. reflexivity. Qed.
Lemma lookup_cons A k v (m : assoc A) x : lookup ((k, v) :: m) x = if beq k x then Some v else lookup m x.
Proof. unfold lookup. cbn [find fst]. destruct (beq k x); reflexivity. Qed.
Lemma lookup_app A (a b : assoc A) x : lookup (a ++ b) x = first_some [lookup a x; lookup b x].
Proof.
  induction a as [|(k, v) a IH]; [cbn; destruct (lookup b x); reflexivity|]. cbn [app]. rewrite !lookup_cons. destruct (beq k x); [reflexivity|]. exact IH.
Qed.
Lemma lookup_rev l x : lookup (rev l) x = last_value l x.
Proof.
  induction l as [|(k, v) l IH]; [reflexivity|]. cbn [rev last_value]. rewrite lookup_app, IH. cbn [first_some]. destruct (last_value l x); [reflexivity|]. rewrite lookup_cons. unfold beq. destruct (list_eq_dec N.eq_dec k x); reflexivity.
Qed.
Lemma fs1 A (a : option A) : first_some [a] = a. Proof. destruct a; reflexivity. Qed.
Lemma fs_app A (a b : list (option A)) : first_some (a ++ b) = match first_some a with Some x => Some x | None => first_some b end.
Proof. induction a as [|[x|] a IH]; cbn [app first_some]; auto. Qed.
Lemma var_ok name key : config_var_name name key = var name key.
Proof. unfold config_var_name, var. rewrite !map_app. reflexivity. Qed.

(* ---------- the state after a history ---------- *)
Section BUILTIN.
Variable builtin : bytes.
Notation step := (cstep builtin).
Notation run := (crun builtin).
Lemma import_state l : forall c, import l c = mkC (c_env c) (c_comb c) (rev l ++ c_top c) (c_db c) (c_prof c).
Proof.
  induction l as [|(k, v) l IH]; intro c; [destruct c; reflexivity|]. cbn [import fold_left]. fold (import l (set k v c)). rewrite IH. cbn [set c_env c_comb c_top c_db c_prof fst snd rev]. rewrite <- app_assoc. reflexivity.
Qed.
Lemma setup_later h : h = setup h ++ later h.
Proof. induction h as [|o h IH]; [reflexivity|]. cbn [setup later]. destruct (query o); [reflexivity|]. cbn [app]. f_equal. exact IH. Qed.
Lemma later_query h : match later h with [] => True | o :: _ => query o <> None end.
Proof. induction h as [|o h IH]; [exact Logic.I|]. cbn [later]. destruct (query o) eqn:E; [congruence|exact IH]. Qed.
Lemma setup_app h o : setup (h ++ [o]) = match later h with [] => setup h ++ (match query o with Some _ => [] | None => [o] end) | _ => setup h end.
Proof.
  induction h as [|x h IH]; cbn [app setup later]; [destruct (query o); reflexivity|]. destruct (query x); [reflexivity|]. rewrite IH. destruct (later h); reflexivity.
Qed.
Lemma later_app h o : later (h ++ [o]) = match later h with [] => (match query o with Some _ => [o] | None => [] end) | l => l ++ [o] end.
Proof. induction h as [|x h IH]; cbn [app later]; [destruct (query o); reflexivity|]. destruct (query x); [reflexivity|exact IH]. Qed.
(* before the first query *)
Definition setup_config (h : list cop) : config := mkC (env_allowed h) (rev (presets h)) (rev (sets h)) [] [].
Lemma run_setup h : later h = [] -> run h = setup_config h.
Proof.
  induction h as [|o h IH] using rev_ind; [reflexivity|]. intro E. rewrite later_app in E. destruct (later h) eqn:El; [|discriminate E]. unfold crun in *. rewrite fold_left_app. cbn [fold_left]. rewrite (IH eq_refl). unfold setup_config, presets, sets, env_allowed. rewrite !flat_map_app, fold_left_app, !rev_app_distr. cbn [flat_map fold_left]. rewrite !app_nil_r.
  destruct o; try discriminate E; try reflexivity. cbn [step set_of preset_of rev app]. rewrite import_state. reflexivity.
Qed.
(* the profiles that the first query sees *)
Definition wcomb (w : world) (c : config) : profile := c_comb (init_db builtin w c).
Lemma ensure_nonempty w c : c_db (ensure_db builtin w c) <> [].
Proof. unfold ensure_db. destruct (c_db c) eqn:E; [|congruence]. unfold init_db. cbn [c_db]. rewrite E. discriminate. Qed.
Definition spec_state (h : list cop) (c0 : config) : Prop :=
  forall w0, (exists o, hd_error (later h) = Some o /\ query o = Some w0) ->
  let i := init_db builtin w0 (setup_config (setup h)) in
  c_env c0 = env_allowed h /\ c_top c0 = rev (sets h) /\ c_comb c0 = rev (presets (later h)) ++ c_comb i /\ c_db c0 <> [] /\
  lookup (c_db c0) s_config = lookup (c_db i) s_config /\ c_prof c0 = c_prof i /\
  (forall name, name <> s_config -> ~ initialised h name -> lookup (c_db c0) name = None).
Lemma lookup_config i c : lookup (c_db (init_db builtin i (setup_config c))) s_config <> None.
Proof. unfold init_db. cbn [c_db setup_config app]. rewrite lookup_cons, beq_refl. discriminate. Qed.
Lemma initialised_app h o name : ~ initialised (h ++ [o]) name -> ~ initialised h name /\ (forall w l, o <> OInit w name l).
Proof. intro N. split; [intros (w & l & H); apply N; exists w, l; apply in_app_iff; auto|intros w l ->; apply N; exists w, l; apply in_app_iff; cbn; auto]. Qed.
Lemma lookup_other A k (d : A) m name : k <> name -> lookup ((k, d) :: m) name = lookup m name.
Proof. intro H. rewrite lookup_cons. destruct (beq k name) eqn:E; [apply beq_eq in E; congruence|reflexivity]. Qed.
Lemma ensure_id w c : c_db c <> [] -> ensure_db builtin w c = c. Proof. unfold ensure_db. destruct (c_db c); congruence. Qed.
Lemma fm_snoc A B (f : A -> list B) l x : flat_map f (l ++ [x]) = flat_map f l ++ f x.
Proof. rewrite flat_map_app. cbn [flat_map]. rewrite app_nil_r. reflexivity. Qed.
Lemma env_snoc h o : env_allowed (h ++ [o]) = match o with OAllow b => b | _ => env_allowed h end.
Proof. unfold env_allowed. rewrite fold_left_app. reflexivity. Qed.
(* the state after one more operation, when the profiles were read before *)
Lemma run_spec h : spec_state h (run h).
Proof.
  induction h as [|o h IH] using rev_ind; intros w0 (o0 & E0 & Q0).
  - discriminate E0.
  - unfold crun in *. rewrite fold_left_app. cbn [fold_left]. rewrite later_app in E0. rewrite setup_app, later_app. destruct (later h) as [|o1 r] eqn:El.
    + fold (crun builtin h). rewrite (run_setup h El). destruct (query o) eqn:Qo; [|discriminate E0]. cbn [hd_error] in E0. injection E0 as <-. rewrite Qo in Q0. injection Q0 as ->. rewrite app_nil_r. assert (Eh : setup h = h) by (assert (X := setup_later h); rewrite El, app_nil_r in X; congruence). rewrite Eh.
      set (c := setup_config h). set (i := init_db builtin w0 c). assert (Ec : ensure_db builtin w0 c = i) by reflexivity.
      assert (Hd : c_db i = [(s_config, dict_init s_config configdata (c_env c) (w_env w0) (match lookup (read_files builtin w0 (to_stringlist [c_comma] (dget (dict_init s_config configdata (c_env c) (w_env w0) (c_comb c) (c_top c)) s_file)) (c_prof c)) n_default with Some p => p | None => [] end ++ c_comb c) (c_top c))]) by reflexivity.
      assert (Hn : forall name, name <> s_config -> lookup (c_db i) name = None). { intros name N. rewrite Hd, lookup_other by congruence. reflexivity. }
      cbn zeta. unfold sets, presets. rewrite env_snoc, !fm_snoc.
      destruct o as [| | | |w s k|w name l]; try discriminate Qo; injection Qo as <-; cbn [cstep set_of preset_of]; rewrite ?app_nil_r; unfold get, init_configset; rewrite Ec; cbn [fst flat_map preset_of app rev].
      * split; [reflexivity|]. split; [reflexivity|]. split; [reflexivity|]. split; [rewrite Hd; discriminate|]. split; [reflexivity|]. split; [reflexivity|]. intros n N _. apply Hn. exact N.
      * destruct (lookup (c_db i) name) as [d|] eqn:L; cbn [fst c_env c_top c_comb c_db c_prof].
        -- split; [reflexivity|]. split; [reflexivity|]. split; [reflexivity|]. split; [rewrite Hd; discriminate|]. split; [reflexivity|]. split; [reflexivity|]. intros n N _. apply Hn. exact N.
        -- split; [reflexivity|]. split; [reflexivity|]. split; [reflexivity|]. split; [discriminate|]. split; [|split; [reflexivity|]].
           ++ apply lookup_other. intros ->. rewrite Hd, lookup_cons, beq_refl in L. discriminate L.
           ++ intros n N I. rewrite lookup_other; [apply Hn; exact N|]. intros ->. apply I. exists w, l. apply in_app_iff. cbn. auto.
    + specialize (IH w0). destruct IH as (S1 & S2 & S3 & S4 & S5 & S6 & S7); [exists o0; split; [rewrite El; exact E0|exact Q0]|]. cbn zeta in *. set (c := fold_left step h new_config) in *. set (i := init_db builtin w0 (setup_config (setup h))) in *.
      rewrite <- El in *. unfold sets, presets in *. rewrite env_snoc, !fm_snoc.
      destruct o as [k v|k v|l|b|w s k|w name l]; cbn [cstep set_of preset_of]; rewrite ?app_nil_r; unfold get, init_configset; try rewrite (ensure_id w c S4); cbn [fst].
      * cbn [preset c_env c_top c_comb c_db c_prof]. split; [exact S1|]. split; [exact S2|]. split; [rewrite rev_app_distr, S3; reflexivity|]. split; [exact S4|]. split; [exact S5|]. split; [exact S6|]. intros n N I. apply initialised_app in I as (I & _). auto.
      * cbn [set c_env c_top c_comb c_db c_prof]. split; [exact S1|]. split; [rewrite rev_app_distr, S2; reflexivity|]. split; [exact S3|]. split; [exact S4|]. split; [exact S5|]. split; [exact S6|]. intros n N I. apply initialised_app in I as (I & _). auto.
      * rewrite import_state. cbn [c_env c_top c_comb c_db c_prof]. split; [exact S1|]. split; [rewrite rev_app_distr, S2; reflexivity|]. split; [exact S3|]. split; [exact S4|]. split; [exact S5|]. split; [exact S6|]. intros n N I. apply initialised_app in I as (I & _). auto.
      * cbn [allow_read_env c_env c_top c_comb c_db c_prof]. split; [reflexivity|]. split; [exact S2|]. split; [exact S3|]. split; [exact S4|]. split; [exact S5|]. split; [exact S6|]. intros n N I. apply initialised_app in I as (I & _). auto.
      * split; [exact S1|]. split; [exact S2|]. split; [exact S3|]. split; [exact S4|]. split; [exact S5|]. split; [exact S6|]. intros n N I. apply initialised_app in I as (I & _). auto.
      * destruct (lookup (c_db c) name) as [d|] eqn:L; cbn [fst c_env c_top c_comb c_db c_prof].
        -- split; [exact S1|]. split; [exact S2|]. split; [exact S3|]. split; [exact S4|]. split; [exact S5|]. split; [exact S6|]. intros n N I. apply initialised_app in I as (I & _). auto.
        -- split; [exact S1|]. split; [exact S2|]. split; [exact S3|]. split; [discriminate|]. split; [|split; [exact S6|]].
           ++ rewrite lookup_other; [exact S5|]. intros ->. rewrite S5 in L. exact (lookup_config w0 (setup h) L).
           ++ intros n N I. apply initialised_app in I as (I & J). rewrite lookup_other by (intros ->; exact (J w l eq_refl)). auto.
Qed.
End BUILTIN.
