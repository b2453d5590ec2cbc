(* C62: config and option specifications are read as written *)
From Coq Require Import Strings.Ascii Strings.String.
From Verif Require Import Base TextModel ParseModel ParseSpec ParseProofs ParseProps RConfigModel JsonModel JsonOutSpec JsonProofs2 CfgModel CfgMgrModel CfgSpec CfgProofs CfgProps.
Open Scope N_scope.

(* the last value of a key *)
Definition field (d : list (bytes * sval)) (k : string) : option sval := lookup (rev d) (bs k).
Definition words (l : list bytes) : sval := SList (map SWord l).
Definition pairs (l : list (bytes * bytes)) : sval := SDict (map (fun p => (fst p, SWord (snd p))) l).
Definition dflt {A} (d : A) (o : option A) : A := match o with Some x => x | None => d end.
(* what the text of an option spec says *)
Record odesc := mkod { d_name : bytes; d_type : option bytes; d_cat : option bytes; d_services : option (list bytes); d_inherit : option (list bytes); d_config : option (list (bytes * bytes)); d_query : option (list (bytes * bytes)) }.
Definition list_ok (o : option (list bytes)) : Prop := match o with Some l => ~ In [] l | None => True end.
Definition dict_ok (o : option (list (bytes * bytes))) : Prop := match o with Some l => l <> [] /\ ~ In [] (map fst l) | None => True end.
Definition describes_option (d : list (bytes * sval)) (f : odesc) : Prop :=
  d <> [] /\ field d "name" = Some (SWord (d_name f)) /\ field d "type" = option_map SWord (d_type f) /\ field d "category" = option_map SWord (d_cat f) /\
  field d "services" = option_map words (d_services f) /\ field d "inherit" = option_map words (d_inherit f) /\
  field d "config" = option_map pairs (d_config f) /\ field d "query" = option_map pairs (d_query f) /\
  list_ok (d_services f) /\ list_ok (d_inherit f) /\ dict_ok (d_config f) /\ dict_ok (d_query f).
Definition same_map (a b : list (bytes * bytes)) : Prop := forall k, lookup a k = lookup b k.
Definition option_is (o : opt) (f : odesc) : Prop :=
  op_type o = dflt [] (d_type f) /\ op_cat o = dflt [] (d_cat f) /\ op_services o = dflt [] (d_services f) /\ op_inherit o = dflt [] (d_inherit f) /\
  same_map (op_config o) (rev (dflt [] (d_config f))) /\ same_map (op_query o) (rev (dflt [] (d_query f))).

Lemma find_lookup (l : list (bytes * bytes)) k : (match find (fun x => if list_eq_dec N.eq_dec (fst x) k then true else false) l with Some x => Some (snd x) | None => None end) = lookup l k.
Proof. induction l as [|(x, v) l IH]; [reflexivity|]. cbn [find lookup fst]. unfold keq. destruct (list_eq_dec N.eq_dec x k) as [->|Ne]; [destruct (list_eq_dec N.eq_dec k k); [reflexivity|congruence]|]. destruct (list_eq_dec N.eq_dec k x); [congruence|exact IH]. Qed.
Lemma find_lookup_s ws (l : list (bytes * sval)) k : (match find (fun x => if list_eq_dec N.eq_dec (fst x) k then true else false) l with Some x => Some (elem_text ws (snd x)) | None => None end) = option_map (elem_text ws) (lookup l k).
Proof. induction l as [|(x, v) l IH]; [reflexivity|]. cbn [find lookup fst]. unfold keq. destruct (list_eq_dec N.eq_dec x k) as [->|Ne]; [destruct (list_eq_dec N.eq_dec k k); [reflexivity|congruence]|]. destruct (list_eq_dec N.eq_dec k x); [congruence|exact IH]. Qed.
(* no key is empty: read_dict leaves such entries out *)
Lemma dict_loop_keys fuel : forall s ret, ~ In [] (map fst ret) -> ~ In ([] : bytes) (map fst (fst (dict_loop fuel s ret))).
Proof.
  induction fuel as [|f IH]; intros s ret H; (assert (Hr : ~ In [] (map fst (rev ret))) by (rewrite map_rev, <- in_rev; exact H)); [exact Hr|]. cbn [dict_loop]. destruct (read_word [c_colon] s) as (k, s1). destruct (read_char s1) as (c, s2). destruct (negb (c =? c_colon)); [exact Hr|]. destruct (read_elem [c_comma; c_rbrace] s2) as [(v, s3)|]; [|exact Hr]. destruct (read_char s3) as (c3, s4).
  assert (H1 : ~ In [] (map fst (match k with [] => ret | _ => (k, v) :: ret end))). { destruct k as [|a k]; [exact H|]. cbn [map fst]. intros [D|D]; [discriminate D|contradiction]. }
  destruct (s_good s4 && (c3 =? c_comma)); [apply IH; exact H1|]. cbn [fst]. rewrite map_rev, <- in_rev. exact H1.
Qed.
Lemma rec_dict_ok ws d : spaces ws -> d <> [] -> exists m, rec_dict (stext ws (SDict d)) = (m, true) /\ (forall k, k <> [] -> lookup m k = option_map (elem_text ws) (lookup (rev d) k)) /\ lookup m [] = None.
Proof.
  intros Hw Hd. unfold rec_dict. destruct (rec_dict_assign (stext ws (SDict d))) as (l, ok) eqn:E. assert (X := C47_dict ws d (bs "x") Hw Hd ltac:(discriminate)). rewrite E in X. cbn [fst snd] in X. destruct X as (-> & _). exists (kmap (rev l)). split; [reflexivity|]. split.
  - intros k Hk. assert (X := C47_dict ws d k Hw Hd Hk). rewrite E in X. cbn [fst snd] in X. destruct X as (_ & X). unfold dict_lookup in X. rewrite find_lookup, find_lookup_s in X. rewrite kmap_lookup. exact X.
  - rewrite kmap_lookup. apply lookup_none. rewrite map_rev, <- in_rev. unfold rec_dict_assign in E. destruct (read_char _) as (c, s1). destruct (c =? c_lbrace); [|injection E as <-; intros []]. match type of E with ?x = _ => assert (El : l = fst x) by (rewrite E; reflexivity) end. rewrite El. apply dict_loop_keys. intros [].
Qed.
Lemma words_ok ws l : spaces ws -> ~ In [] l -> rec_list (stext ws (words l)) = (l, true).
Proof.
  intros Hw Hl. unfold words. rewrite C47_list by exact Hw. f_equal. rewrite map_map. cbn [elem_text]. rewrite List.map_id. induction l as [|x l IH]; [reflexivity|]. cbn [filter]. destruct x as [|c x]; [exfalso; apply Hl; left; reflexivity|]. cbn [nonempty]. f_equal. apply IH. intro D. apply Hl. right. exact D.
Qed.
Lemma pairs_ok ws l : spaces ws -> l <> [] -> ~ In [] (map fst l) -> exists m, rec_dict (stext ws (pairs l)) = (m, true) /\ same_map m (rev l).
Proof.
  intros Hw Hl Hn. unfold pairs. destruct (rec_dict_ok ws (map (fun p => (fst p, SWord (snd p))) l) Hw) as (m & E & H1 & H2); [destruct l; [congruence|discriminate]|]. exists m. split; [exact E|]. intro k. destruct k as [|c k].
  - rewrite H2. symmetry. apply lookup_none. rewrite map_rev, <- in_rev. exact Hn.
  - rewrite H1 by discriminate. rewrite <- map_rev. generalize (c :: k) as key. clear. intro key. induction (rev l) as [|(x, v) r IH]; [reflexivity|]. cbn [map lookup fst snd]. destruct (keq key x); [reflexivity|exact IH].
Qed.
Lemma elem_dict ws d : elem_text ws (SDict d) = stext ws (SDict d). Proof. reflexivity. Qed.
Lemma words_text ws l : elem_text ws (words l) = stext ws (words l). Proof. reflexivity. Qed.
Lemma pairs_text ws l : elem_text ws (pairs l) = stext ws (pairs l). Proof. reflexivity. Qed.

Lemma option_parsed ws d f : spaces ws -> describes_option d f -> exists o, parse_spec (fst (rec_dict (stext ws (SDict d)))) = Some (d_name f, o) /\ option_is o f.
Proof.
  intros Hw (Hd & Hn & Ht & Hc & Hs & Hi & Hcf & Hq & Ks & Ki & Kc & Kq). destruct (rec_dict_ok ws d Hw Hd) as (m & E & H & _). rewrite E. cbn [fst]. unfold parse_spec.
  unfold field in *. rewrite !(H (bs "services")), !(H (bs "inherit")), !(H (bs "config")), !(H (bs "query")), !(H (bs "name")), !(H (bs "type")), !(H (bs "category")) by discriminate. rewrite Hn, Ht, Hc, Hs, Hi, Hcf, Hq.
  assert (L : forall o, list_ok o -> (match option_map (elem_text ws) (option_map words o) with Some v => rec_list v | None => ([], true) end) = (dflt [] o, true)). { intros [l|] K; [cbn [option_map]; rewrite words_text; apply words_ok; assumption|reflexivity]. }
  assert (D : forall o, dict_ok o -> exists q, (match option_map (elem_text ws) (option_map pairs o) with Some v => rec_dict v | None => ([], true) end) = (q, true) /\ same_map q (rev (dflt [] o))). { intros [l|] K; [destruct K; cbn [option_map]; rewrite pairs_text; apply pairs_ok; assumption|exists []; split; [reflexivity|intro; reflexivity]]. }
  assert (Tx : forall o, (match option_map (elem_text ws) (option_map SWord o) with Some v => v | None => [] end) = dflt [] o) by (intros [x|]; reflexivity).
  rewrite !L by assumption. destruct (D (d_config f) Kc) as (cf & -> & Ecf).
  assert (Q : exists q, (match option_map (elem_text ws) (option_map pairs (d_query f)) with
    | Some v => let (q, is_dict) := rec_dict v in if is_dict then (q, true) else let (l, ok) := rec_list v in let (qs, e) := parse_query_args l in (qs, ok && negb e)
    | None => ([], true) end) = (q, true) /\ same_map q (rev (dflt [] (d_query f)))).
  { destruct (d_query f) as [l|]; [|exists []; split; [reflexivity|intro; reflexivity]]. cbn [option_map]. rewrite pairs_text. destruct (pairs_ok ws l Hw (proj1 Kq) (proj2 Kq)) as (q & -> & Eq). exists q. auto. }
  destruct Q as (q & -> & Eq). cbn [option_map elem_text andb]. rewrite !Tx. eexists. split; [reflexivity|]. repeat split; assumption.
Qed.
(* Option specs: each option is as described; a later spec of the same name replaces the earlier one. *)
Theorem C62_options ws ds fs m : spaces ws -> Forall2 describes_option ds fs -> m_gerr m = false -> m_err m = false ->
  exists m', add_global_options (stext ws (SList (map SDict ds))) m = m' /\ m_err m' = false /\ m_gerr m' = false /\ m_spec m' = m_spec m /\ m_chans m' = m_chans m /\
  forall k, match find (fun f => keq (d_name f) k) (rev fs) with Some f => exists o, lookup (m_gopts m') k = Some o /\ option_is o f | None => lookup (m_gopts m') k = lookup (m_gopts m) k end.
Proof.
  intros Hw F Hg He. eexists. split; [reflexivity|]. unfold add_global_options, add_global_list. rewrite C47_list by exact Hw. rewrite Hg.
  assert (Ef : filter nonempty (map (elem_text ws) (map SDict ds)) = map (fun d => stext ws (SDict d)) ds). { clear. induction ds as [|d ds IH]; [reflexivity|]. cbn [map filter]. rewrite elem_dict. change (nonempty (stext ws (SDict d))) with true. cbv iota. f_equal. exact IH. }
  rewrite Ef.
  assert (X : forall s, exists s', add_specs (map (fun d => stext ws (SDict d)) ds) s = (s', false) /\ forall k, match find (fun f => keq (d_name f) k) (rev fs) with Some f => exists o, lookup s' k = Some o /\ option_is o f | None => lookup s' k = lookup s k end).
  { clear -Hw F. induction F as [|d f ds fs H F IH]; intro s; [exists s; split; reflexivity|]. cbn [map add_specs]. destruct (option_parsed ws d f Hw H) as (o & -> & Ho). destruct (IH ((d_name f, o) :: s)) as (s' & E & Hs). exists s'. split; [exact E|]. intro k. specialize (Hs k). cbn [rev].
    assert (Q : find (fun f => keq (d_name f) k) (rev fs ++ [f]) = match find (fun f => keq (d_name f) k) (rev fs) with Some g => Some g | None => if keq (d_name f) k then Some f else None end). { clear. induction (rev fs) as [|g r IH]; cbn [app find]; [reflexivity|]. destruct (keq (d_name g) k); [reflexivity|exact IH]. }
    rewrite Q. destruct (find _ (rev fs)) as [g|]; [exact Hs|]. cbn [lookup] in Hs. destruct (keq (d_name f) k) eqn:Ek.
    - apply keq_spec in Ek. subst k. rewrite keq_refl in Hs. eauto.
    - apply keq_false in Ek. rewrite (proj2 (keq_false k (d_name f))) in Hs by congruence. exact Hs. }
  destruct (X (m_gopts m)) as (s' & -> & Hs). cbn [orb negb]. cbn [set_gopts m_err m_gerr m_spec m_chans m_gopts]. repeat split; try assumption.
Qed.

(* ---------- configs ---------- *)
Record cdesc := mkcd { c_name : bytes; c_services : option (list bytes); c_cats : option (list bytes); c_opts : list odesc; c_config : option (list (bytes * bytes)); c_defaults : option (list (bytes * bytes)); c_alias : option (list bytes) }.
Definition describes_config (d : list (bytes * sval)) (f : cdesc) : Prop :=
  d <> [] /\ field d "name" = Some (SWord (c_name f)) /\ field d "services" = option_map words (c_services f) /\ field d "categories" = option_map words (c_cats f) /\
  (field d "options" = None /\ c_opts f = [] \/ exists ds, field d "options" = Some (SList (map SDict ds)) /\ Forall2 describes_option ds (c_opts f)) /\
  field d "config" = option_map pairs (c_config f) /\ field d "defaults" = option_map pairs (c_defaults f) /\ field d "alias" = option_map words (c_alias f) /\
  list_ok (c_services f) /\ list_ok (c_cats f) /\ dict_ok (c_config f) /\ dict_ok (c_defaults f) /\ list_ok (c_alias f).
Definition options_are (s : ospec) (fs : list odesc) : Prop :=
  forall k, match find (fun f => keq (d_name f) k) (rev fs) with Some f => exists o, lookup s k = Some o /\ option_is o f | None => lookup s k = None end.
(* the channel's initial configuration: the services follow what CALI_SERVICES_ENABLE says *)
Definition config_is (cs : cspec) (f : cdesc) (check : options -> bool) : Prop :=
  cs_name cs = c_name f /\ cs_cats cs = dflt [] (c_cats f) /\ options_are (cs_opts cs) (c_opts f) /\ cs_check cs = check /\
  same_map (cs_defaults cs) (rev (dflt [] (c_defaults f))) /\
  (forall k, k <> services_key \/ dflt [] (c_services f) = [] -> lookup (cs_cfg cs) k = lookup (rev (dflt [] (c_config f))) k) /\
  (dflt [] (c_services f) <> [] -> lookup (cs_cfg cs) services_key = Some (dflt [] (lookup (rev (dflt [] (c_config f))) services_key) ++ join_list (dflt [] (c_services f)))).
Lemma emplace_lookup s k v x : lookup (emplace s k v) x = match lookup s x with Some c => Some c | None => if keq x k then Some v else None end.
Proof.
  unfold emplace. destruct (lookup s k) as [c|] eqn:E.
  - destruct (lookup s x) eqn:Ex; [reflexivity|]. destruct (keq x k) eqn:Ek; [|reflexivity]. apply keq_spec in Ek. congruence.
  - rewrite lookup_app. destruct (lookup s x); [reflexivity|]. cbn [lookup]. reflexivity.
Qed.
Lemma aliases_lookup al v : forall s x, lookup (fold_left (fun s a => emplace s a v) al s) x = match lookup s x with Some c => Some c | None => if mem x al then Some v else None end.
Proof.
  induction al as [|a al IH]; intros s x; [cbn; destruct (lookup s x); reflexivity|]. cbn [fold_left]. rewrite IH, emplace_lookup. destruct (lookup s x); [reflexivity|]. cbn [mem existsb]. fold (mem x al). destruct (keq x a); reflexivity.
Qed.
Lemma options_parsed ws ds fs : spaces ws -> Forall2 describes_option ds fs -> exists s, rec_list (stext ws (SList (map SDict ds))) = (map (fun d => stext ws (SDict d)) ds, true) /\ add_specs (map (fun d => stext ws (SDict d)) ds) [] = (s, false) /\ options_are s fs.
Proof.
  intros Hw F. destruct (C62_options ws ds fs (mkm [] [] false [] [] [] false []) Hw F eq_refl eq_refl) as (m' & E & _ & Hge & _ & _ & Hk). unfold add_global_options in E. rewrite C47_list in E |- * by exact Hw.
  assert (Ef : filter nonempty (map (elem_text ws) (map SDict ds)) = map (fun d => stext ws (SDict d)) ds). { clear. induction ds as [|d ds IH]; [reflexivity|]. cbn [map filter]. rewrite elem_dict. change (nonempty (stext ws (SDict d))) with true. cbv iota. f_equal. exact IH. }
  rewrite Ef in *. unfold add_global_list in E. cbn [m_gerr m_gopts] in E. destruct (add_specs _ []) as (s, e). exists s. split; [reflexivity|]. cbn [orb negb] in E. assert (e = false). { destruct e; [|reflexivity]. subst m'. cbn in Hge. exact Hge. } subst e. split; [reflexivity|]. intro k. specialize (Hk k). subst m'. cbn [orb negb set_gopts m_gopts] in Hk. exact Hk.
Qed.
(* A config spec whose services are available defines the config, under its name and its aliases; nothing else
   changes. *)
Theorem C62_config avail ws d f check ignore m : spaces ws -> describes_config d f -> m_err m = false -> lookup (m_spec m) (c_name f) = None ->
  (forall s, In s (dflt [] (c_services f)) -> In s avail) ->
  let m' := add_config_spec avail (stext ws (SDict d)) check ignore m in
  exists cs, config_is cs f check /\ m_err m' = false /\ m_gopts m' = m_gopts m /\ m_chans m' = m_chans m /\
  (forall k, lookup (m_spec m') k = match lookup (m_spec m) k with Some c => Some c | None => if mem k (c_name f :: dflt [] (c_alias f)) then Some cs else None end).
Proof.
  intros Hw (Hd & Hn & Hs & Hc & Ho & Hcf & Hdf & Hal & Ks & Kc & Kcf & Kdf & Kal) He Hnew Hav m'. destruct (rec_dict_ok ws d Hw Hd) as (D & E & H & _).
  assert (Fld : forall k, bs k <> [] -> lookup D (bs k) = option_map (elem_text ws) (field d k)) by (intros k Hk; apply H; exact Hk).
  assert (L : forall k o, bs k <> [] -> field d k = option_map words o -> list_ok o -> (match lookup D (bs k) with Some v => rec_list v | None => ([], true) end) = (dflt [] o, true)). { intros k o Hk Ef K. rewrite (Fld k Hk), Ef. destruct o as [l|]; [cbn [option_map]; rewrite words_text; apply words_ok; assumption|reflexivity]. }
  assert (P : forall k o, bs k <> [] -> field d k = option_map pairs o -> dict_ok o -> exists q, (match lookup D (bs k) with Some v => rec_dict v | None => ([], true) end) = (q, true) /\ same_map q (rev (dflt [] o))). { intros k o Hk Ef K. rewrite (Fld k Hk), Ef. destruct o as [l|]; [destruct K; cbn [option_map]; rewrite pairs_text; apply pairs_ok; assumption|exists []; split; [reflexivity|intro; reflexivity]]. }
  assert (O : exists ol s, (match lookup D (bs "options") with Some v => rec_list v | None => ([], true) end) = (ol, true) /\ fst (add_specs ol []) = s /\ options_are s (c_opts f)).
  { rewrite (Fld "options"%string) by discriminate. destruct Ho as [(-> & ->)|(ds & -> & F)]; [exists [], []; repeat split|]. destruct (options_parsed ws ds (c_opts f) Hw F) as (s & E1 & E2 & E3). exists (map (fun d => stext ws (SDict d)) ds), s. cbn [option_map]. split; [exact E1|]. rewrite E2. auto. }
  destruct O as (ol & os & Eo & Eos & Hos). destruct (P "config"%string (c_config f) ltac:(discriminate) Hcf Kcf) as (cf & Ecf & Hcfm). destruct (P "defaults"%string (c_defaults f) ltac:(discriminate) Hdf Kdf) as (df & Edf & Hdfm).
  subst m'. unfold add_config_spec. rewrite E. cbn [negb]. rewrite (Fld "name"%string) by discriminate. rewrite Hn. cbn [option_map elem_text]. rewrite Hnew, He.
  rewrite (L "services"%string (c_services f) ltac:(discriminate) Hs Ks), (L "categories"%string (c_cats f) ltac:(discriminate) Hc Kc), (L "alias"%string (c_alias f) ltac:(discriminate) Hal Kal), Eo, Ecf, Edf.
  assert (Hall : forallb (fun s => mem s avail) (dflt [] (c_services f)) = true) by (apply forallb_forall; intros s Hi; apply mem_spec, Hav, Hi). rewrite Hall. cbn [negb andb]. rewrite He, Eos. cbv zeta.
  eexists. split; [|split; [|split; [|split]]].
  5:{ intro k. cbn [set_spec m_spec]. rewrite aliases_lookup, emplace_lookup. destruct (lookup (m_spec m) k); [reflexivity|]. cbn [mem existsb]. destruct (keq k (c_name f)); reflexivity. }
  2:{ exact He. } 2:{ reflexivity. } 2:{ reflexivity. }
  split; [reflexivity|]. split; [reflexivity|]. split; [exact Hos|]. split; [reflexivity|]. split; [exact Hdfm|]. cbn [cs_cfg]. split.
  - intros k Hk. destruct (dflt [] (c_services f)) as [|s0 sl]; [apply Hcfm|]. cbn [lookup]. destruct Hk as [Hk|Hk]; [|discriminate Hk]. rewrite (proj2 (keq_false k services_key) Hk). apply Hcfm.
  - intro Hk. destruct (dflt [] (c_services f)) as [|s0 sl]; [congruence|]. cbn [lookup]. rewrite keq_refl, (Hcfm services_key). destruct (lookup (rev (dflt [] (c_config f))) services_key); reflexivity.
Qed.
(* A config that needs a service which is not available is left out. *)
Theorem C62_unavailable avail ws d f check ignore m s : spaces ws -> describes_config d f -> m_err m = false -> lookup (m_spec m) (c_name f) = None ->
  In s (dflt [] (c_services f)) -> ~ In s avail -> add_config_spec avail (stext ws (SDict d)) check ignore m = m.
Proof.
  intros Hw (Hd & Hn & Hs & _ & _ & _ & _ & _ & Ks & _) He Hnew Hi Hna. destruct (rec_dict_ok ws d Hw Hd) as (D & E & H & _). unfold add_config_spec. rewrite E. cbn [negb]. rewrite (H (bs "name")) by discriminate. unfold field in *. rewrite Hn. cbn [option_map elem_text]. rewrite Hnew, He. rewrite (H (bs "services")) by discriminate. rewrite Hs. destruct (c_services f) as [l|]; [|contradiction]. cbn [option_map dflt] in *. rewrite words_text, words_ok by assumption.
  assert (Hall : forallb (fun s => mem s avail) l = false). { destruct (forallb _ l) eqn:F; [|reflexivity]. rewrite forallb_forall in F. apply F, mem_spec in Hi. contradiction. } rewrite Hall. reflexivity.
Qed.
(* A second spec of the same name is an error, for a builtin it is ignored. *)
Theorem C62_exists avail ws d f check ignore m cs : spaces ws -> describes_config d f -> lookup (m_spec m) (c_name f) = Some cs ->
  add_config_spec avail (stext ws (SDict d)) check ignore m = if ignore then m else set_err m.
Proof.
  intros Hw (Hd & Hn & _) Hx. destruct (rec_dict_ok ws d Hw Hd) as (D & E & H & _). unfold add_config_spec. rewrite E. cbn [negb]. rewrite (H (bs "name")) by discriminate. unfold field in *. rewrite Hn. cbn [option_map elem_text]. rewrite Hx. reflexivity.
Qed.
Theorem C62_no_name avail ws d check ignore m : spaces ws -> d <> [] -> field d "name" = None -> add_config_spec avail (stext ws (SDict d)) check ignore m = set_err m.
Proof.
  intros Hw Hd Hn. destruct (rec_dict_ok ws d Hw Hd) as (D & E & H & _). unfold add_config_spec. rewrite E. cbn [negb]. rewrite (H (bs "name")) by discriminate. unfold field in *. rewrite Hn. reflexivity.
Qed.
Definition w (s : string) : sval := SWord (bs s).
Definition empty_mgr : mgr := mkm [] [] false [] [] [] false [].
(* An option without a name in a config spec: no error, but the options after it are lost. *)
Theorem C62_bad_option_refuted : exists json m', m' = add_config_spec [] json (fun _ => false) false empty_mgr /\
  json = stext [] (SDict [(bs "name", w "c"); (bs "options", SList [SDict [(bs "type", w "bool")]; SDict [(bs "name", w "x")]])]) /\
  m_err m' = false /\ option_map cs_opts (lookup (m_spec m') (bs "c")) = Some [].
Proof. eexists. eexists. split; [reflexivity|]. split; [reflexivity|]. split; vm_compute; reflexivity. Qed.
(* Services of the spec are appended to CALI_SERVICES_ENABLE without a separator. *)
Theorem C62_services_refuted : exists json, json = stext [] (SDict [(bs "name", w "c"); (bs "services", SList [w "event"; w "timer"]); (bs "config", SDict [(bs "CALI_SERVICES_ENABLE", w "trace")])]) /\
  option_map (fun cs => lookup (cs_cfg cs) services_key) (lookup (m_spec (add_config_spec [bs "event"; bs "timer"] json (fun _ => false) false empty_mgr)) (bs "c")) = Some (Some (bs "traceevent,timer")).
Proof. eexists. split; [reflexivity|]. vm_compute. reflexivity. Qed.
(* An empty dictionary in an option spec is an error. *)
Theorem C62_empty_refuted : m_err (add_global_options (stext [] (SList [SDict [(bs "name", w "x"); (bs "config", SDict [])]])) empty_mgr) = true.
Proof. vm_compute. reflexivity. Qed.

Definition ex_d : list (bytes * sval) := [(bs "alias", words [bs "d"]); (bs "name", w "c"); (bs "services", words [bs "event"]); (bs "description", w "text"); (bs "options", SList [SDict [(bs "name", w "x"); (bs "type", w "bool"); (bs "config", pairs [(bs "K", bs "{}")])]]); (bs "defaults", pairs [(bs "x", bs "true")])].
Definition ex_f : cdesc := mkcd (bs "c") (Some [bs "event"]) None [mkod (bs "x") (Some (bs "bool")) None None None (Some [(bs "K", bs "{}")]) None] None (Some [(bs "x", bs "true")]) (Some [bs "d"]).
Example C62_ex_describes : describes_config ex_d ex_f.
Proof.
  split; [discriminate|]. split; [reflexivity|]. split; [reflexivity|]. split; [reflexivity|]. split.
  - right. exists [[(bs "name", w "x"); (bs "type", w "bool"); (bs "config", pairs [(bs "K", bs "{}")])]]. split; [reflexivity|]. constructor; [|constructor]. split; [discriminate|]. repeat (split; [first [reflexivity|exact Logic.I]|]). split; [|exact Logic.I]. split; [discriminate|]. intros [D|[]]. discriminate D.
  - repeat (split; [reflexivity|]). split; [intros [D|[]]; discriminate D|]. split; [exact Logic.I|]. split; [exact Logic.I|]. split; [split; [discriminate|intros [D|[]]; discriminate D]|]. intros [D|[]]. discriminate D.
Qed.
Example C62_ex : exists cs, lookup (m_spec (add_config_spec [bs "event"] (stext [32] (SDict ex_d)) (fun _ => false) false empty_mgr)) (bs "d") = Some cs /\ cs_name cs = bs "c" /\ cs_defaults cs = [(bs "x", bs "true")] /\ lookup (cs_cfg cs) services_key = Some (bs "event").
Proof. eexists. split; [vm_compute; reflexivity|]. repeat split. Qed.
