(* C80: channels *)
From Coq Require Import Strings.Ascii Strings.String Sorted.
From Verif Require Import CfgModel CfgSpec CfgProofs Base TextModel ParseModel ParseSpec ParseProofs ParseProps JsonModel RConfigModel RConfigSpec RConfigProofs RConfigProps ServModel ServSpec ServProps.
Open Scope N_scope.
Open Scope list_scope.

(* ---- the sanity check ---- *)
Lemma in_members g s : In s (members g) <-> in_group g s.
Proof. unfold in_group. destruct g; cbn [members map In]; tauto. Qed.
Lemma found_iff (l : list bytes) g : (exists s, find (fun s => existsb (beq s) l) (members g) = Some s) <-> active g l.
Proof.
  split.
  - intros (s & H). apply find_some in H as (H1 & H2). exists s. split; [apply in_members; auto|]. apply existsb_exists in H2 as (x & Hx & E). apply beq_eq in E. subst; auto.
  - intros (s & H1 & H2). destruct (find _ (members g)) as [x|] eqn:E; [exists x; auto|]. exfalso. apply in_members in H1. pose proof (find_none _ _ E s H1) as F. cbn beta in F.
    assert (existsb (beq s) l = true); [|congruence]. apply existsb_exists. exists s. split; auto. apply beq_refl.
Qed.
Lemma dep_warns a b l x : In x (check_dependency a b l) <-> exists s, x = Requires s a b /\ find (fun s => existsb (beq s) l) (members a) = Some s /\ ~ active b l.
Proof.
  unfold check_dependency. destruct (find _ (members a)) as [s|] eqn:E; [|cbn; split; [tauto|intros (s & _ & H & _); discriminate H]].
  destruct (find _ (members b)) as [y|] eqn:F.
  - split; [intros []|]. intros (s' & _ & _ & H). destruct H. apply found_iff. exists y. exact F.
  - split; [intros [<-|[]]|intros (s' & -> & [= ->] & _); left; auto]. exists s. split; auto. split; auto. intro H. apply found_iff in H as (y & H). congruence.
Qed.
Lemma find_mem g l s : find (fun s => existsb (beq s) l) (members g) = Some s -> in_group g s /\ In s l.
Proof. intro H. apply find_some in H as (H1 & H2). split; [apply in_members; auto|]. apply existsb_exists in H2 as (x & Hx & E). apply beq_eq in E. subst; auto. Qed.
Lemma warned_iff l a b : (exists s, In (Requires s a b) (check_services l)) <-> needs a b /\ active a l /\ ~ active b l.
Proof.
  unfold check_services. split.
  - intros (s & H). apply in_flat_map in H as ((a', b') & Hd & H). apply dep_warns in H as (s' & [= -> <- <-] & Hf & Hb). cbn [fst snd] in *. split; [|split; auto].
    + cbn [In] in Hd. destruct Hd as [[= <- <-]|[[= <- <-]|[[= <- <-]|[[= <- <-]|[[= <- <-]|[]]]]]]; constructor.
    + apply found_iff. exists s'. exact Hf.
  - intros (Hn & Ha & Hb). apply found_iff in Ha as (s & Hs). exists s. apply in_flat_map. exists (a, b). split; [destruct Hn; cbn; tauto|]. apply dep_warns. exists s. auto.
Qed.
(* a warning for groups a and b is given iff services of a are active but none of b, which a needs; it names an active
   service of a; an empty list has its own warning; debug and validator channels have none *)
Theorem C80_sanity l : 
  (sanity l = [NoServices] <-> l = []) /\
  (forall a b, (exists s, In (Requires s a b) (sanity l)) <-> l <> [] /\ ~ exempt l /\ needs a b /\ active a l /\ ~ active b l) /\
  (forall s a b, In (Requires s a b) (sanity l) -> in_group a s /\ In s l).
Proof.
  assert (X : existsb (beq (bs "debug")) l = true \/ existsb (beq (bs "validator")) l = true <-> exempt l).
  { unfold exempt. rewrite !existsb_exists. split.
    - intros [(x & H & E)|(x & H & E)]; apply beq_eq in E; subst; auto.
    - intros [H|H]; [left|right]; eexists; (split; [exact H|apply beq_refl]). }
  assert (Y : l <> [] -> sanity l = if (existsb (beq (bs "debug")) l || existsb (beq (bs "validator")) l) then [] else check_services l).
  { intro H. unfold sanity. destruct l as [|s l]; [congruence|]. destruct (existsb (beq (bs "debug")) (s :: l)); auto. }
  assert (Z : forall x, In x (check_services l) -> exists s a b, x = Requires s a b /\ in_group a s /\ In s l).
  { intros x H. apply in_flat_map in H as ((a, b) & _ & H). apply dep_warns in H as (s & -> & H & _). exists s, a, b. split; auto. apply find_mem. exact H. }
  split; [|split].
  - split; [|intros ->; reflexivity]. intro H. destruct l as [|s l]; auto. rewrite Y in H by discriminate. destruct (_ || _); [discriminate H|]. destruct (Z NoServices) as (? & ? & ? & E & _); [rewrite H; left; auto|discriminate E].
  - intros a b. destruct l as [|s l]; [cbn; split; [intros (s & [H|[]]); discriminate H|intros (H & _); congruence]|]. rewrite Y by discriminate. destruct (existsb (beq (bs "debug")) (s :: l) || existsb (beq (bs "validator")) (s :: l)) eqn:E.
    + apply orb_true_iff in E. apply X in E. split; [intros (x & [])|tauto].
    + rewrite warned_iff. apply orb_false_iff in E as (E1 & E2). split; [|tauto]. intro H. split; [discriminate|]. split; [|exact H]. intro He. apply X in He. destruct He; congruence.
  - intros s a b H. destruct l as [|s0 l]; [destruct H as [H|[]]; discriminate H|]. rewrite Y in H by discriminate. destruct (_ || _); [destruct H|]. destruct (Z _ H) as (s' & a' & b' & [= -> -> ->] & Q). exact Q.
Qed.

Section B.
Variable builtin : bytes.
Variable w : world.
(* ---- the values of variables do not depend on earlier queries ---- *)
Lemma value_after h n0 l0 name key d : var_value builtin w (h ++ [OInit w n0 l0]) name key d = var_value builtin w h name key d.
Proof.
  unfold var_value. assert (E1 : sets (h ++ [OInit w n0 l0]) = sets h) by (unfold sets; rewrite flat_map_app; cbn; apply app_nil_r).
  assert (E2 : env_allowed (h ++ [OInit w n0 l0]) = env_allowed h) by (rewrite env_snoc; reflexivity).
  assert (E3 : first_world (h ++ [OInit w n0 l0]) w = first_world h w).
  { unfold first_world. rewrite later_app. destruct (later h) as [|o r]; reflexivity. }
  assert (E4 : setup (h ++ [OInit w n0 l0]) = setup h).
  { rewrite setup_app. destruct (later h) eqn:E; [cbn; apply app_nil_r|reflexivity]. }
  assert (E5 : presets (later (h ++ [OInit w n0 l0])) = presets (later h)).
  { rewrite later_app. destruct (later h) as [|o r]; [reflexivity|]. unfold presets. change (o :: r) with ([o] ++ r). rewrite flat_map_app. cbn. rewrite app_nil_r. reflexivity. }
  rewrite E1, E2, E3. f_equal. unfold profile_value, config_profiles, profile_table, config_files. rewrite E4, E5. reflexivity.
Qed.

Lemma cstr_id s : ~ In 0 s -> cstr s = s.
Proof. induction s as [|c s IH]; cbn; auto. intro H. destruct (N.eqb_spec c 0); [subst; exfalso; auto|]. f_equal. auto. Qed.
Lemma reg_happens hist ch s : ~ In 0 s -> exists a, happens hist ch s a /\ (let (ok, a) := register_service (registry hist) ch s in a ++ if ok then [] else [NotFound s]) = [a].
Proof.
  intro H0. unfold register_service, find_service. rewrite (cstr_id s H0). destruct (lookup (registry hist) s) as [(spec, f)|] eqn:E; cbn [option_map snd app].
  - exists (Registered f ch). split; auto. eapply hp_reg. apply C80_latest. exact E.
  - exists (NotFound s). split; auto. apply hp_not. intros spec f H. apply C80_latest in H. congruence.
Qed.
Lemma crun_snoc h o : crun builtin (h ++ [o]) = cstep builtin (crun builtin h) o.
Proof. unfold crun. rewrite fold_left_app. reflexivity. Qed.
Lemma not_init h n n0 l0 : ~ initialised h n -> n0 <> n -> ~ initialised (h ++ [OInit w n0 l0]) n.
Proof. intros H Hn (w' & l' & Hi). apply in_app_iff in Hi as [Hi|[Hi|[]]]; [apply H; exists w', l'; auto|]. injection Hi as _ E _. congruence. Qed.
(* A new channel registers the services of its list, in this order: each word does what the latest spec of this name
   says, or is reported.  The list is the value of CALI_SERVICES_ENABLE by the precedence of configuration
   sources (C40).  The sanity check looks at the same list if CALI_CHANNEL_CONFIG_CHECK is true. *)
Theorem C80_channel hist h ch : ~ initialised h (bs "channel") -> ~ initialised h (bs "services") ->
  let names := to_stringlist [44; 58] (var_value builtin w h (bs "services") (bs "enable") []) in
  let check := var_value builtin w h (bs "channel") (bs "config_check") (bs "true") in
  (forall s, In s names -> ~ In 0 s) ->
  exists c acts warns, create_services builtin w (registry hist) ch (crun builtin h) = (c, acts, warns) /\
    Forall2 (happens hist ch) names acts /\
    (CfgSpec.says check true -> warns = sanity names) /\ (~ CfgSpec.says check true -> warns = []).
Proof.
  intros H1 H2 names check H0. unfold create_services, register_configured.
  set (h1 := h ++ [OInit w (bs "channel") channel_config]). set (h2 := h1 ++ [OInit w (bs "services") services_config]).
  assert (E1 : fst (init_configset builtin w (bs "channel") channel_config (crun builtin h)) = crun builtin h1) by (unfold h1; rewrite crun_snoc; reflexivity).
  assert (E2 : fst (init_configset builtin w (bs "services") services_config (crun builtin h1)) = crun builtin h2) by (unfold h2; rewrite crun_snoc; reflexivity).
  destruct (init_configset builtin w (bs "channel") channel_config (crun builtin h)) as (c1, d1) eqn:I1. cbn [fst] in E1. subst c1.
  destruct (init_configset builtin w (bs "services") services_config (crun builtin h1)) as (c2, d2) eqn:I2. cbn [fst] in E2. subst c2.
  assert (V2 : dget d2 (bs "enable") = var_value builtin w h (bs "services") (bs "enable") []).
  { replace d2 with (snd (init_configset builtin w (bs "services") services_config (crun builtin h1))) by (rewrite I2; reflexivity).
    rewrite (C40_value builtin h1 w (bs "services") services_config (bs "enable") []); [|discriminate|apply not_init; [auto|discriminate]|reflexivity]. apply value_after. }
  assert (V1 : snd (get builtin w (bs "channel") (bs "config_check") (crun builtin h2)) = check).
  { pose proof (C40_stable builtin h w (bs "channel") channel_config [OInit w (bs "services") services_config] w channel_config (bs "config_check")) as (Q & _).
    unfold h2, h1. rewrite <- app_assoc. cbn [app]. etransitivity; [exact Q|]. rewrite (C40_value builtin h w (bs "channel") channel_config (bs "config_check") (bs "true")); [reflexivity|discriminate|auto|reflexivity]. }
  assert (NE : c_db (crun builtin h2) <> []). { unfold h2. rewrite crun_snoc. cbn [cstep]. intro Q. pose proof (init_stores builtin w (bs "services") services_config (crun builtin h1)) as R. rewrite Q in R. discriminate R. }
  destruct (get builtin w (bs "channel") (bs "config_check") (crun builtin h2)) as (c3, chk) eqn:G1. cbn [snd] in V1. subst chk.
  assert (c3 = crun builtin h2). { assert (Q : c3 = fst (get builtin w (bs "channel") (bs "config_check") (crun builtin h2))) by (rewrite G1; reflexivity). rewrite Q. unfold get. cbn [fst]. apply ensure_id. exact NE. } subst c3.
  assert (V3 : snd (get builtin w (bs "services") (bs "enable") (crun builtin h2)) = var_value builtin w h (bs "services") (bs "enable") []).
  { pose proof (C40_stable builtin h1 w (bs "services") services_config [] w services_config (bs "enable")) as (Q & _). fold h2 in Q. etransitivity; [exact Q|]. rewrite I2. exact V2. }
  rewrite V2. fold names. assert (F : exists acts, Forall2 (happens hist ch) names acts /\ flat_map (fun s => let (ok, a) := register_service (registry hist) ch s in a ++ if ok then [] else [NotFound s]) names = acts).
  { clearbody names. clear -H0. induction names as [|s l IH]; [exists []; split; [constructor|reflexivity]|]. destruct (reg_happens hist ch s) as (a & Ha & Ea); [apply H0; left; auto|]. destruct IH as (acts & Hl & El); [intros; apply H0; right; auto|].
    exists (a :: acts). split; [constructor; auto|]. cbn [flat_map]. rewrite Ea, El. reflexivity. }
  destruct F as (acts & HF & ->). assert (TB : to_bool check = true <-> CfgSpec.says check true). { unfold to_bool. rewrite <- CfgProofs.to_bool_says. destruct (to_bool_str check) as [[]|]; split; congruence. }
  destruct (to_bool check) eqn:Et.
  - destruct (get builtin w (bs "services") (bs "enable") (crun builtin h2)) as (c4, l) eqn:G2. cbn [snd] in V3. subst l. fold names. do 3 eexists. split; [reflexivity|]. split; auto. split; auto. intro Q. destruct Q. apply TB. auto.
  - do 3 eexists. split; [reflexivity|]. split; auto. split; auto. intro Q. apply TB in Q. discriminate Q.
Qed.
(* the configuration variables that the documentation of a service names are the ones that the service reads: each one is
   the variable of a key, and the service gets its value by the precedence of configuration sources, with the default of the spec;
   the printed default is the one of the key if no two entries have the same key *)
Theorem C80_documentation hist n spec f l h x v : provides hist n spec f -> spec_config spec = Some (n, l) -> n <> bs "config" -> ~ initialised h n ->
  In (x, v) (documented (registry hist) n) ->
  exists k, x = var n k /\ In (k, v) l /\ exists c d, init_config_from_spec builtin w (crun builtin h) spec = Some (c, d) /\
   exists v0, In (k, v0) l /\ dget d k = var_value builtin w h n k v0 /\ (NoDup (map fst l) -> v0 = v).
Proof.
  intros Hp Hs Hn Hi Hx. apply C80_latest in Hp. unfold documented in Hx. rewrite Hp in Hx. unfold init_config_from_spec. rewrite Hs. unfold spec_config in Hs.
  set (dct := fst (rec_dict_assign spec)) in *. destruct (ParseModel.dict_lookup dct (bs "config")) as [t|]; [|destruct Hx].
  destruct (spec_entries (fst (rec_list t))) as [l'|] eqn:El; [|discriminate Hs]. destruct (ParseModel.dict_lookup dct (bs "name")) as [n'|]; [|discriminate Hs]. injection Hs as -> ->.
  assert (Hk : exists k, x = var n k /\ In (k, v) l).
  { clear -El Hx. revert l El Hx. induction (fst (rec_list t)) as [|e r IH]; intros l El Hx; [destruct Hx|]. cbn [spec_entries] in El. destruct (ParseModel.dict_lookup (fst (rec_dict_assign e)) (bs "name")) as [key|] eqn:Ek; [|discriminate El].
    destruct (spec_entries r) as [t'|]; [|discriminate El]. injection El as <-. cbn [flat_map] in Hx. rewrite Ek in Hx. apply in_app_iff in Hx as [Hx|Hx].
    - destruct key as [|k0 kr]; [destruct Hx|]. destruct Hx as [[= <- <-]|[]]. exists (k0 :: kr). split; [rewrite <- var_ok; reflexivity|left; reflexivity].
    - destruct (IH t' eq_refl Hx) as (k & H1 & H2). exists k. split; auto. right; auto. }
  destruct Hk as (k & -> & Hk). exists k. split; auto. split; auto. destruct (init_configset builtin w n l (crun builtin h)) as (c, d) eqn:Ei. exists c, d. split; auto.
  assert (exists v0, default_of l k = Some v0 /\ In (k, v0) l) as (v0 & D & H0).
  { unfold default_of, lookup. destruct (find (fun y => beq (fst y) k) l) as [(k', v')|] eqn:Ef; [|pose proof (find_none _ _ Ef (k, v) Hk) as Q; cbn in Q; rewrite beq_refl in Q; discriminate Q]. apply find_some in Ef as (Q1 & Q2). cbn in Q2. apply beq_eq in Q2. subst k'. exists v'. auto. }
  exists v0. split; auto. split.
  - pose proof (C40_value builtin h w n l k v0 Hn Hi D) as Q. rewrite Ei in Q. exact Q.
  - intro ND. clear -ND Hk H0. induction l as [|(a, b) l IH]; [destruct Hk|]. inversion ND as [|? ? N1 N2]; subst. destruct Hk as [Hk|Hk], H0 as [H0|H0]; auto; try congruence.
    + injection Hk as -> ->. destruct N1. apply in_map_iff. exists (k, v0). auto.
    + injection H0 as -> ->. destruct N1. apply in_map_iff. exists (k, v). auto.
Qed.
End B.
