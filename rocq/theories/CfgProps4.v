(* C61: adding config strings: all or nothing, and check() tells beforehand *)
From Coq Require Import Strings.Ascii Strings.String.
From Verif Require Import Base TextModel ParseModel ParseSpec ParseProofs ParseProps RConfigModel JsonModel CfgModel CfgMgrModel CfgSpec CfgProofs CfgProps CfgTextSpec CfgTextProofs CfgTextProofs2 CfgProps3.
Open Scope N_scope.

Section MGR.
Variable files : bytes -> option bytes.
Variable avail : list bytes.
Variable builtins : list (bytes * (options -> bool)).
Variable depth : nat.
Notation load := (load_file files avail).
Notation import := (import_builtin avail builtins).
Notation parse_cs := (parse_configstring files avail builtins).
Notation add := (add files avail builtins depth).
Notation add_extra_ok := (add_extra_ok files avail builtins depth).
Notation impl_add := (impl_add files avail builtins depth).
Notation check := (check files avail builtins depth).
Notation make_chans := (make_chans avail depth).
Notation check_loop := (check_loop avail depth).

(* ---------- errors stay, channels are not touched by reading ---------- *)
Definition keeps (m m' : mgr) : Prop := m_chans m' = m_chans m /\ (m_err m = true -> m_err m' = true).
Lemma keeps_refl m : keeps m m. Proof. split; auto. Qed.
Lemma keeps_trans a b c : keeps a b -> keeps b c -> keeps a c.
Proof. intros (H1 & H2) (H3 & H4). split; [congruence|auto]. Qed.
Lemma keeps_err m : keeps m (set_err m). Proof. split; reflexivity. Qed.
Lemma acs_keeps json ck ig m : keeps m (add_config_spec avail json ck ig m).
Proof.
  split; [|apply acs_err]. unfold add_config_spec. destruct (rec_dict json) as (d, ok). destruct (negb ok); [reflexivity|]. destruct (lookup d (bs "name")) as [n|]; [|reflexivity]. destruct (lookup (m_spec m) n); [destruct ig; reflexivity|].
  repeat (match goal with |- context [let (_, _) := ?x in _] => destruct x end). match goal with |- context [if negb ?x then _ else _] => destruct (negb x); [reflexivity|] end. match goal with |- context [m_err (if ?x then m else set_err m)] => destruct x end; [|reflexivity]. destruct (m_err m); reflexivity.
Qed.
Lemma agl_keeps l ok m : keeps m (add_global_list l ok m).
Proof. split; [|apply agl_err]. unfold add_global_list. destruct (if m_gerr m then _ else _) as (s, e). destruct (e || negb ok); reflexivity. Qed.
Lemma acl_keeps l : forall m, keeps m (add_configs avail l m).
Proof. induction l as [|t l IH]; intros m; [apply keeps_refl|]. cbn [add_configs]. assert (X := acs_keeps t (fun _ => false) false m). destruct (m_err _); [exact X|]. eapply keeps_trans; [exact X|apply IH]. Qed.
Lemma load_keeps f m : keeps m (load f m).
Proof.
  unfold load_file. destruct (files f) as [t|]; [|apply keeps_err]. unfold parse_json. destruct (rec_dict t) as (d, []).
  - destruct (lookup d (bs "name")); [apply acs_keeps|]. assert (X : keeps m (match lookup d (bs "options") with Some v => let (l, ok) := rec_list v in add_global_list l ok m | None => m end)) by (destruct (lookup d (bs "options")) as [v|]; [destruct (rec_list v); apply agl_keeps|apply keeps_refl]).
    destruct (lookup d (bs "configs")) as [v|]; [|exact X]. eapply keeps_trans; [exact X|]. destruct (rec_list v) as (l, []); [apply acl_keeps|apply keeps_err].
  - destruct (rec_list t) as (l, []); [apply acl_keeps|apply keeps_err].
Qed.
Lemma import_keeps m : keeps m (import m).
Proof. unfold import_builtin. revert m. induction builtins as [|b l IH]; intro m; [apply keeps_refl|]. cbn [fold_left]. eapply keeps_trans; [apply acs_keeps|apply IH]. Qed.
Lemma loop_keeps fuel : forall m s, keeps m (fst (load_loop files avail fuel m s)).
Proof.
  induction fuel as [|f IH]; intros m s; [apply keeps_err|]. cbn [load_loop]. destruct (read_word [44; 40; 41] s) as (n, s1). assert (X : keeps m (match n with [] => set_err m | _ => load n m end)) by (destruct n; [apply keeps_err|apply load_keeps]). destruct (m_err _); [exact X|]. destruct (read_char s1) as (c, s2). eapply keeps_trans; [exact X|]. destruct (s_good s2 && (c =? 44)); [apply IH|]. cbn [fst]. destruct (c =? 41); [apply keeps_refl|apply keeps_err].
Qed.
Lemma args_err fuel opts : forall s acc, let '(_, e, _) := args_loop fuel true opts s acc in e = true.
Proof.
  induction fuel as [|f IH]; intros s acc; [reflexivity|]. cbn [args_loop]. destruct (read_word cseps s) as (key, s1).
  assert (X : forall a s0, let '(_, e, _) := (let (c, s2) := read_char s0 in if s_good s2 && (c =? 44) then args_loop f true opts s2 a else if c =? 41 then (a, true, s2) else ([], true, s2)) in e = true).
  { intros a s0. destruct (read_char s0) as (c, s2). destruct (s_good s2 && (c =? 44)); [apply IH|]. destruct (c =? 41); reflexivity. }
  destruct key as [|k0 key]; [apply X|]. destruct (negb _ && negb _); [reflexivity|]. destruct (read_value s1) as ((v, e), s2). rewrite orb_true_r. reflexivity.
Qed.
Lemma item_keeps m s ret : keeps m (fst (fst (item files avail m s ret))).
Proof.
  unfold item. destruct (read_word cseps s) as (key, s1). destruct (keq key (bs "load")).
  - unfold handle_load. destruct (read_char s1) as (c, s2). destruct (c =? 40); [|apply keeps_err]. assert (X := loop_keeps (S (length (s_rest s2))) m s2). destruct (load_loop _ _ _ _ _) as (m1, s3). exact X.
  - destruct (lookup (m_spec m) key) as [cs|].
    + destruct (parse_args (m_err m) (options_for m cs) s1) as ((args, e), s2). destruct e; [apply keeps_err|apply keeps_refl].
    + destruct (read_value s1) as ((v, e), s2). destruct (e || m_err m) eqn:Ee; [apply keeps_err|]. apply orb_false_iff in Ee. destruct Ee as (_ & Ee). destruct (keq key (bs "metadata")); [split; [reflexivity|auto]|]. destruct (is_option m key); (split; [reflexivity|auto]).
Qed.
Lemma items_keeps fuel : forall m s ret, keeps m (fst (items_loop files avail fuel m s ret)).
Proof.
  induction fuel as [|f IH]; intros m s ret; [apply keeps_err|]. cbn [items_loop]. assert (X := item_keeps m s ret). destruct (item files avail m s ret) as ((m1, ret1), s1). cbn [fst] in X. destruct (m_err m1); [exact X|]. destruct (read_char s1) as (c, s2). eapply keeps_trans; [exact X|]. destruct (s_good s2 && (c =? 44)); [apply IH|]. destruct (s_good s2); [apply keeps_err|apply keeps_refl].
Qed.
Lemma pcs_keeps text m : keeps m (fst (parse_cs text m)).
Proof.
  unfold parse_configstring. destruct (read_char (s_open text)) as (c, s1). destruct (s_good s1); [|apply import_keeps]. eapply keeps_trans; [apply import_keeps|apply items_keeps].
Qed.

(* ---------- the channels of the configs ---------- *)
Definition good_config (m : mgr) (cfg : cspec * arglist) (c : chan) : Prop :=
  ch_spec c = fst cfg /\ config_options depth m cfg = Some (ch_opts c) /\ opts_check avail (ch_opts c) = false /\ cs_check (fst cfg) (ch_opts c) = false.
Lemma chans_ok l : forall m m' cl, m_err m = false -> make_chans m l = Some (m', cl) ->
  (m' = m /\ Forall2 (good_config m) l cl) \/ (m' = set_err m /\ cl = []).
Proof.
  induction l as [|p l IH]; intros m m' cl He H; cbn [CfgMgrModel.make_chans] in H; [injection H as <- <-; left; split; [reflexivity|constructor]|]. destruct (config_options depth m p) as [o|] eqn:Eo; [|discriminate H]. destruct (opts_check avail o || cs_check (fst p) o) eqn:Ec; [injection H as <- <-; right; split; reflexivity|]. apply orb_false_iff in Ec. destruct Ec as (Ec1 & Ec2).
  destruct (make_chans m l) as [(m1, l1)|] eqn:E1; [|discriminate H]. injection H as <- <-. destruct (IH m m1 l1 He E1) as [(-> & F)|(-> & ->)]; [left|right].
  - rewrite He. split; [reflexivity|]. constructor; [repeat split; assumption|exact F].
  - split; reflexivity.
Qed.
Lemma check_ok l : forall m m2, m_err m = false -> check_loop m l = Some m2 -> exists cl, make_chans m l = Some (m2, cl).
Proof.
  induction l as [|p l IH]; intros m m2 He H; cbn [CfgMgrModel.check_loop CfgMgrModel.make_chans] in *; [injection H as <-; eexists; reflexivity|]. destruct (config_options depth m p) as [o|] eqn:Eo; [|discriminate H]. rewrite orb_comm. destruct (cs_check (fst p) o || opts_check avail o); [cbn [m_err set_err] in H; injection H as <-; eexists; reflexivity|]. rewrite He in H. destruct (IH m m2 He H) as (cl & ->). eexists. reflexivity.
Qed.
Lemma check_err l m m2 : m_err m = true -> check_loop m l = Some m2 -> m_err m2 = true.
Proof. intros He. destruct l as [|p l]; cbn [CfgMgrModel.check_loop]; [intro H; injection H as <-; exact He|]. destruct (config_options depth m p) as [o|]; [|discriminate]. destruct (cs_check (fst p) o || opts_check avail o); [intro H; injection H as <-; reflexivity|]. rewrite He. intro H. injection H as <-. exact He. Qed.
Lemma check_extra l : forall m m2, check_loop m l = Some m2 -> m_extra m2 = m_extra m.
Proof. induction l as [|p l IH]; intros m m2; cbn [CfgMgrModel.check_loop]; [intro H; injection H as <-; reflexivity|]. destruct (config_options depth m p) as [o|]; [|discriminate]. destruct (cs_check (fst p) o || opts_check avail o); [intro H; injection H as <-; reflexivity|]. destruct (m_err m); [intro H; injection H as <-; reflexivity|apply IH]. Qed.
Lemma chans_extra l : forall m m' cl, make_chans m l = Some (m', cl) -> m_extra m' = m_extra m.
Proof. induction l as [|p l IH]; intros m m' cl; cbn [CfgMgrModel.make_chans]; [intro H; injection H as <- <-; reflexivity|]. destruct (config_options depth m p) as [o|]; [|discriminate]. destruct (_ || _); [intro H; injection H as <- <-; reflexivity|]. destruct (make_chans m l) as [(m1, l1)|] eqn:E; [|discriminate]. intro H. injection H as <- <-. apply (IH m m1 l1 E). Qed.

(* check() finds an error if and only if add() fails. *)
Theorem C61_check text m e : check text false m = Some e -> exists m', add text m = Some (m', negb e).
Proof.
  unfold CfgMgrModel.check, CfgMgrModel.add, CfgMgrModel.impl_add, parse. destruct (parse_cs text m) as (m1, l). destruct (check_loop m1 l) as [m2|] eqn:E; [|discriminate]. intro H. injection H as <-. cbn [negb andb]. destruct (m_err m1) eqn:He.
  - rewrite (check_err l m1 m2 He E). cbn [orb negb]. cbn [add_chans m_extra]. destruct (m_extra m1); eexists; [cbv zeta; cbn [add_chans m_err]; rewrite He|]; reflexivity.
  - destruct (check_ok l m1 m2 He E) as (cl & X). rewrite X. change (m_extra (add_chans m2 cl)) with (m_extra m2). destruct (m_extra m2); eexists; [cbv zeta; cbn [add_chans m_err]; rewrite orb_false_r; reflexivity|rewrite orb_true_r; reflexivity].
Qed.
Theorem C61_check_extra text m e : check text true m = Some e -> exists m', add_extra_ok text m = Some (m', negb e).
Proof.
  unfold CfgMgrModel.check, CfgMgrModel.add_extra_ok, CfgMgrModel.impl_add, parse. destruct (parse_cs text m) as (m1, l). destruct (check_loop m1 l) as [m2|] eqn:E; [|discriminate]. intro H. injection H as <-. cbn [negb andb]. rewrite orb_false_r. destruct (m_err m1) eqn:He.
  - rewrite (check_err l m1 m2 He E). eexists. cbn [add_chans m_err]. rewrite He. reflexivity.
  - destruct (check_ok l m1 m2 He E) as (cl & X). rewrite X. eexists. reflexivity.
Qed.
(* Success: one channel for each config, in order, with its options; they come after the existing channels. *)
Theorem C61_success text m m' l : add text m = Some (m', true) -> snd (parse_cs text m) = l ->
  exists new, m_chans m' = m_chans m ++ new /\ Forall2 (good_config (fst (parse_cs text m))) l new /\ m_err m' = false /\ m_extra m' = [].
Proof.
  unfold CfgMgrModel.add, CfgMgrModel.impl_add, parse. assert (K := pcs_keeps text m). destruct (parse_cs text m) as (m1, l0). cbn [fst snd] in *. intros H <-. destruct K as (K & _). destruct (m_err m1) eqn:He.
  - exfalso. cbn [add_chans m_extra] in H. destruct (m_extra m1); injection H as _ H; cbn [m_err add_chans set_err] in H; [rewrite He in H|]; discriminate H.
  - destruct (make_chans m1 l0) as [(m2, cl)|] eqn:E; [|discriminate H]. destruct (chans_ok l0 m1 m2 cl He E) as [(-> & F)|(-> & ->)].
    + cbn [add_chans m_extra] in H. destruct (m_extra m1) eqn:Ex; [|injection H as _ H; discriminate H]. injection H as <- H. exists cl. cbn [add_chans m_chans m_err m_extra]. rewrite K. auto.
    + exfalso. cbn [add_chans m_extra set_err] in H. destruct (m_extra m1); injection H as _ H; discriminate H.
Qed.
(* An error in the text or in the options: no channel is added. *)
Theorem C61_failure text m m' : add_extra_ok text m = Some (m', false) -> m_chans m' = m_chans m.
Proof.
  unfold CfgMgrModel.add_extra_ok, CfgMgrModel.impl_add, parse. assert (K := pcs_keeps text m). destruct (parse_cs text m) as (m1, l0). cbn [fst] in K. destruct K as (K & _). destruct (m_err m1) eqn:He.
  - intro H. injection H as <- _. cbn [add_chans m_chans]. rewrite app_nil_r. exact K.
  - destruct (make_chans m1 l0) as [(m2, cl)|] eqn:E; [|discriminate]. intro H. injection H as <- H. destruct (chans_ok l0 m1 m2 cl He E) as [(-> & F)|(-> & ->)]; [cbn [add_chans m_err] in H; rewrite He in H; discriminate H|]. cbn [add_chans m_chans set_err]. rewrite app_nil_r. exact K.
Qed.
(* After an error every later call fails and adds nothing. *)
Theorem C61_sticky text m : m_err m = true -> exists m', add text m = Some (m', false) /\ m_chans m' = m_chans m /\ m_err m' = true.
Proof.
  intro He. unfold CfgMgrModel.add, CfgMgrModel.impl_add, parse. assert (K := pcs_keeps text m). destruct (parse_cs text m) as (m1, l0). cbn [fst] in K. destruct K as (K & Ke). rewrite (Ke He). cbn [add_chans m_extra]. destruct (m_extra m1); eexists; (split; [cbn [add_chans m_err set_err]; rewrite ?(Ke He); reflexivity|]); cbn [add_chans m_chans set_err m_err]; rewrite app_nil_r; auto.
Qed.
(* Texts of configs and parameters without unknown names: the call succeeds if and only if the options of each
   config are acceptable, and then the channels have the names of the configs. *)
Theorem C61_items text items ps m m' b : let m1 := import m in
  items <> [] -> ctext [] (ccommas item_tokens items) text -> m_err m1 = false -> Forall (item_fits m1) items -> params m1 items ps -> extras_of ps = [] -> m_extra m1 = [] ->
  add text m = Some (m', b) ->
  (b = true <-> forall cfg o, In cfg (configs_of m1 items) -> config_options depth (fst (parse_cs text m)) cfg = Some o -> opts_check avail o = false /\ cs_check (fst cfg) o = false) /\
  (b = true -> map (fun c => cs_name (ch_spec c)) (m_chans m') = map (fun c => cs_name (ch_spec c)) (m_chans m) ++ map (fun cfg => cs_name (fst cfg)) (configs_of m1 items)).
Proof.
  intros m1 Hi A He F P Hx Hm H. destruct (C60_items files avail builtins text items ps m Hi A He F P) as (m2 & E & (S1 & S2 & S3 & S4 & S5 & S6) & Hd & Hex). fold m1 in E, S1, S2, S3, S4, S5, S6, Hd, Hex. rewrite Hx, Hm in Hex. cbn [rev app] in Hex. rewrite He in S5. split.
  - split.
    + intros -> cfg o Hc Ho. destruct (C61_success text m m' _ H eq_refl) as (new & _ & F2 & _). rewrite E in F2. cbn [fst snd] in F2. rewrite E in Ho. cbn [fst] in Ho. clear -F2 Hc Ho. induction F2 as [|x c l l' (Q1 & Q2 & Q3 & Q4) F2 IH]; [contradiction|]. destruct Hc as [->|Hc]; [|auto]. rewrite Q2 in Ho. injection Ho as <-. split; assumption.
    + intro Hall. unfold CfgMgrModel.add, CfgMgrModel.impl_add, parse in H. rewrite E in H, Hall. cbn [fst] in Hall. rewrite S5 in H. destruct (make_chans m2 (configs_of m1 items)) as [(m3, cl)|] eqn:Ec; [|discriminate H].
      assert (X : m3 = m2). { clear -Ec Hall. revert m3 cl Ec. induction (configs_of m1 items) as [|p l IH]; intros m3 cl Ec; cbn [CfgMgrModel.make_chans] in Ec; [congruence|]. destruct (config_options depth m2 p) as [o|] eqn:Eo; [|discriminate Ec]. destruct (Hall p o (or_introl eq_refl) Eo) as (Q1 & Q2). rewrite Q1, Q2 in Ec. cbn [orb] in Ec. destruct (make_chans m2 l) as [(m4, l4)|] eqn:E4; [|discriminate Ec]. injection Ec as <- _. apply (IH ltac:(intros cfg o' Hi; apply Hall; right; exact Hi) m4 l4 eq_refl). }
      subst m3. cbn [add_chans m_extra] in H. rewrite Hex in H. injection H as _ <-. cbn [add_chans m_err]. rewrite S5. reflexivity.
  - intros ->. destruct (C61_success text m m' _ H eq_refl) as (new & Ec & F2 & _). rewrite E in F2. cbn [fst snd] in F2. rewrite Ec, map_app. f_equal. clear -F2. induction F2 as [|x c l l' (Q1 & _) F2 IH]; [reflexivity|]. cbn [map]. rewrite Q1, IH. reflexivity.
Qed.
End MGR.

(* get_channel: the first channel with the name *)
Theorem C61_get_channel name m c : get_channel name m = Some c <-> exists l1 l2, m_chans m = l1 ++ c :: l2 /\ cs_name (ch_spec c) = name /\ forall d, In d l1 -> cs_name (ch_spec d) <> name.
Proof.
  unfold get_channel. induction (m_chans m) as [|d l IH]; cbn [find]; [split; [discriminate|intros (l1 & l2 & E & _); destruct l1; discriminate E]|]. destruct (keq (cs_name (ch_spec d)) name) eqn:E.
  - apply keq_spec in E. split; [intro H; injection H as <-; exists [], l; split; [reflexivity|]; split; [exact E|intros d' []]|]. intros (l1 & l2 & E1 & E2 & Hd). destruct l1 as [|d' l1]; [injection E1 as <- _; reflexivity|]. injection E1 as <- _. exfalso. apply (Hd d); [left; reflexivity|exact E].
  - apply keq_false in E. rewrite IH. split; intros (l1 & l2 & E1 & E2 & Hd).
    + exists (d :: l1), l2. split; [rewrite E1; reflexivity|]. split; [exact E2|]. intros d' [<-|D]; [exact E|auto].
    + destruct l1 as [|d' l1]; [injection E1 as -> _; contradiction|]. injection E1 as -> E1. exists l1, l2. split; [exact E1|]. split; [exact E2|]. intros y Hy. apply Hd. right. exact Hy.
Qed.
(* add() can fail and still add channels: an unknown parameter is only noticed afterwards *)
Theorem C61_unknown_refuted : exists m text m', m_err m = false /\ m_chans m = [] /\ add (fun _ => None) [] [] 3 text m = Some (m', false) /\ length (m_chans m') = 1%nat.
Proof. exists ex_mgr, (bs "prof,foo"). eexists. split; [reflexivity|]. split; [reflexivity|]. split; [vm_compute; reflexivity|reflexivity]. Qed.
(* unknown parameters accepted by one call make the next call fail *)
Theorem C61_extra_refuted : exists m text1 m1 text2, m_err m = false /\ add_extra_ok (fun _ => None) [] [] 3 text1 m = Some (m1, true) /\
  option_map snd (add (fun _ => None) [] [] 3 text2 m) = Some true /\ option_map snd (add (fun _ => None) [] [] 3 text2 m1) = Some false.
Proof. exists ex_mgr, (bs "foo=1"). eexists. exists (bs "prof"). split; [reflexivity|]. split; [vm_compute; reflexivity|]. split; vm_compute; reflexivity. Qed.
Example C61_ex : exists m', add (fun _ => None) [] [] 3 (bs "prof(x=1), mem,prof") ex_mgr = Some (m', true) /\ map (fun c => cs_name (ch_spec c)) (m_chans m') = [bs "prof"; bs "prof"] /\
  check (fun _ => None) [] [] 3 (bs "prof(x=1), mem,prof") false ex_mgr = Some false /\ check (fun _ => None) [] [] 3 (bs "prof(mem=maybe)") false ex_mgr = Some true /\ check (fun _ => None) [] [] 3 (bs "prof(y)") false ex_mgr = Some true.
Proof. eexists. split; [vm_compute; reflexivity|]. repeat split; vm_compute; reflexivity. Qed.
