From Coq Require Import Strings.Ascii Strings.String.
From Verif Require Import Base TextModel ParseModel ParseSpec ParseProofs RConfigModel FilterModel NamesModel ArgsModel ArgsSpec ArgsProps FmtStrModel FmtStrProofs QueryModel QuerySpec QueryProofs QueryProps QArgsModel QArgsSpec QArgsProofs.
From Coq Require Import Lia.
Open Scope N_scope. Open Scope list_scope.

Lemma kw_get_app a b k : kw_get (a ++ b) k = match kw_get b k with Some v => Some v | None => kw_get a k end.
Proof.
  unfold kw_get. rewrite rev_app_distr. generalize (rev b) (rev a). intros l m. induction l as [|x l IH]; cbn [app find]; [reflexivity|].
  destruct (beq (fst x) k); [reflexivity|exact IH].
Qed.
Lemma kw_given o names k : NoDup names -> kw_get (flat_map (fun a => match o a with Some v => [(a, v)] | None => [] end) names) k =
  (if in_dec (list_eq_dec N.eq_dec) k names then o k else None).
Proof.
  induction 1 as [|a l Ha Hl IH]; [reflexivity|]. cbn [flat_map]. rewrite kw_get_app, IH.
  destruct (in_dec (list_eq_dec N.eq_dec) k l) as [Hi|Hi].
  - destruct (in_dec (list_eq_dec N.eq_dec) k (a :: l)) as [_|Hn]; [|exfalso; apply Hn; right; exact Hi].
    destruct (o k); [reflexivity|]. destruct (o a) as [v|]; [|reflexivity]. unfold kw_get. cbn [rev app find fst].
    replace (beq a k) with false; [reflexivity|]. symmetry. apply beq_false. intros ->. contradiction.
  - destruct (list_eq_dec N.eq_dec a k) as [->|Hn].
    + destruct (in_dec (list_eq_dec N.eq_dec) k (k :: l)) as [_|Hn]; [|exfalso; apply Hn; left; reflexivity].
      destruct (o k) as [v|]; [|reflexivity]. unfold kw_get. cbn [rev app find fst]. rewrite beq_refl. reflexivity.
    + destruct (in_dec (list_eq_dec N.eq_dec) k (a :: l)) as [[Hc|Hc]|_]; [contradiction|contradiction|].
      destruct (o a) as [v|]; [|reflexivity]. unfold kw_get. cbn [rev app find fst]. rewrite (proj2 (beq_false a k) Hn). reflexivity.
Qed.
Lemma find_first {A} (f : A -> bool) l d : find f l = Some d -> exists pre post, l = pre ++ d :: post /\ f d = true /\ forall x, In x pre -> f x = false.
Proof.
  induction l as [|a l IH]; [discriminate|]. cbn [find]. destruct (f a) eqn:E.
  - intro H. injection H as ->. exists [], l. split; [reflexivity|]. split; [exact E|intros x []].
  - intro H. destruct (IH H) as (pre & post & -> & Hd & Hp). exists (a :: pre), post. split; [reflexivity|]. split; [exact Hd|].
    intros x [<-|Hx]; [exact E|apply Hp, Hx].
Qed.
(* the table of formatters *)
Definition fmt_of (x : string * N * nat * list string) : fsig := let '(n, id, lo, names) := x in mkf id (bs n) lo (List.length names) (map bs names).
Lemma formats_eq : format_defs = map fmt_of formatters.
Proof. reflexivity. Qed.
Lemma formats_nodup : Forall (fun x => NoDup (map bs (snd x))) formatters.
Proof. repeat (apply Forall_cons; [cbn [snd map]; repeat (apply NoDup_cons; [vm_compute; intuition discriminate|]); apply NoDup_nil|]). apply Forall_nil. Qed.
Lemma formats_min : Forall (fun x => snd (fst x) = 0%nat \/ (snd (fst x) = 1%nat /\ hd_error (snd x) = Some (fst (fst (fst x))))) formatters.
Proof. repeat (apply Forall_cons; [cbn; auto|]). apply Forall_nil. Qed.

Lemma format_ok o q q1 ok : step_format o q = (q1, ok) -> ok = true /\ format_means o q q1 /\
  (q1 = q \/ exists d kw, q1 = set_format q d kw).
Proof.
  unfold step_format. rewrite formats_eq. set (f := fun d => match o (f_name d) with Some _ => true | None => false end).
  destruct (find f (map fmt_of formatters)) as [d|] eqn:E; intro H; injection H as <- <-.
  2:{ split; [reflexivity|]. split; [|left; reflexivity]. left. split; [|reflexivity]. intros x Hx Hg.
      pose proof (find_none _ _ E (fmt_of x) (in_map _ _ _ Hx)) as Hf. unfold f in Hf. destruct x as [[[n id] lo] names]. cbn [fmt_of f_name fst] in *. unfold is_given in Hg. destruct (o (bs n)); [discriminate|contradiction]. }
  destruct (find_first _ _ _ E) as (pre0 & post0 & Ef & Hd & Hp).
  apply map_eq_app in Ef as (pre & rest & Ef & Epre & Erest). apply map_eq_cons in Erest as (x & post & -> & Ex & _).
  destruct x as [[[n id] lo] names]. cbn [fmt_of] in Ex. subst d.
  assert (Hin : In (n, id, lo, names) formatters) by (rewrite Ef; apply in_or_app; right; left; reflexivity).
  unfold f in Hd. cbn [f_name] in Hd.
  assert (Hg : is_given o (bs n)) by (unfold is_given; destruct (o (bs n)); congruence).
  pose proof (proj1 (Forall_forall _ _) formats_nodup _ Hin) as Hnd. cbn [snd] in Hnd.
  assert (Hfn : firstn (List.length names) (map bs names) = map bs names) by (rewrite <- (map_length bs names); apply firstn_all).
  split; [|split].
  - cbn [f_min]. apply Nat.leb_le. destruct (proj1 (Forall_forall _ _) formats_min _ Hin) as [Z|[Z1 Z2]]; cbn [fst snd] in *; [rewrite Z; apply Nat.le_0_l|].
    rewrite Z1. unfold set_kw. cbn [f_max f_args]. rewrite Hfn. destruct names as [|n0 names]; [discriminate|]. cbn [hd_error] in Z2. injection Z2 as ->. cbn [map flat_map].
    unfold is_given in Hg. destruct (o (bs n)) as [v|]; [|congruence]. unfold kw_size.
    match goal with |- (1 <= length (nodup ?dec ?l))%nat => assert (Hk : In (bs n) (nodup dec l)) end.
    { apply nodup_In. rewrite map_app. apply in_or_app. right. cbn [app map fst]. left. reflexivity. }
    destruct (nodup _ _); [destruct Hk|cbn; lia].
  - right. exists pre, post, n, id, lo, names. eexists. eexists. split; [exact Ef|]. split.
    { intros x Hx Hc. specialize (Hp (fmt_of x)). rewrite <- Epre in Hp. specialize (Hp (in_map _ _ _ Hx)). unfold f in Hp. destruct x as [[[n' id'] lo'] names']. cbn [fmt_of f_name fst] in *. unfold is_given in Hc. destruct (o (bs n')); [discriminate|contradiction]. }
    split; [exact Hg|]. split; [reflexivity|]. split; [reflexivity|]. split; [reflexivity|].
    intro k. unfold set_kw. cbn [f_max f_args]. rewrite Hfn, kw_get_app, kw_given by exact Hnd. reflexivity.
  - right. eexists. eexists. reflexivity.
Qed.

Lemma opt_none {A} (text : A -> bytes -> Prop) x : opt_is text None x -> x = None. Proof. intro H. inversion H. reflexivity. Qed.
Lemma extract_taken l p l' : extract_path l = (p, l') -> path_taken l l' p.
Proof.
  unfold extract_path. destruct (erase_first (bs "path") l) as [b1 l1] eqn:E1. destruct (erase_first (bs "prop:nested") l1) as [b2 l2] eqn:E2. intro E. injection E as <- <-.
  exists l1, b1, b2. split; [apply erase_spec, E1|]. split; [apply erase_spec, E2|reflexivity].
Qed.

(* the aggregation options *)
Lemma aggregate_ok o c q : opt_is aggr_text (o (bs "aggregate")) (co_aggr c) -> opt_is key_text (o (bs "aggregate-key")) (co_key c) ->
  exists asel agg gsel grp gp, step_aggregate o q = mkqy asel agg gsel grp gp (q_ssel q) (q_sel q) (q_spath q) (q_fsel q) (q_flt q) (q_osel q) (q_ord q) (q_fmt q) (q_alias q) (q_unit q) (q_pre q) /\
  match co_aggr c with
  | Some l =>
      (exists ops, agg = q_agg q ++ ops /\ Forall2 (fun c o => exists id col, agg_call c id col /\ op_is o id c) l ops) /\
      asel = match l with [] => SelDefault | _ => SelList end /\
      match co_key c with
      | None => gsel = SelDefault /\ grp = q_grp q /\ gp = q_gpath q
      | Some KNone => gsel = SelNone /\ path_taken (q_grp q) grp gp
      | Some (KList k) => gsel = SelList /\ path_taken (q_grp q ++ k) grp gp
      end
  | None => agg = q_agg q /\ asel = q_asel q /\ gsel = q_gsel q /\ grp = q_grp q /\ gp = q_gpath q
  end.
Proof.
  intros Ha Hk. unfold step_aggregate. inversion Ha as [E1 E2|l t Ht E1 E2].
  { exists (q_asel q), (q_agg q), (q_gsel q), (q_grp q), (q_gpath q). split; [destruct q; reflexivity|]. repeat split. }
  assert (Hq1 : exists asel agg, match t with [] => set_aggr q SelDefault (q_agg q) SelDefault | _ => set_aggr q SelList (qcalls (S (length t)) (s_open t) (q_agg q)) SelDefault end = set_aggr q asel agg SelDefault /\
     (exists ops, agg = q_agg q ++ ops /\ Forall2 (fun c o => exists id col, agg_call c id col /\ op_is o id c) l ops) /\ asel = match l with [] => SelDefault | _ => SelList end).
  { destruct Ht as [[-> ->]|(Hl & Hc & Ht)].
    - exists SelDefault, (q_agg q). split; [reflexivity|]. split; [|reflexivity]. exists []. split; [rewrite app_nil_r; reflexivity|constructor].
    - destruct (qcalls_ok l Hl Hc (S (length t)) (s_open t) (q_agg q)) as (ops & E & F); [split; [exact Ht|left; reflexivity]|cbn; lia|].
      exists SelList. eexists. split; [|split; [exists ops; split; [exact E|exact F]|destruct l; [congruence|reflexivity]]].
      destruct t as [|t0 t]; [|reflexivity]. exfalso. destruct l as [|x l]; [congruence|]. unfold ccommas, ccall in Ht. cbn [app] in Ht. apply ctext_cons in Ht. congruence. }
  destruct Hq1 as (asel & agg & Eq1 & Hops & Has). rewrite Eq1. inversion Hk as [K1 K2|k t' Hkt K1 K2].
  { exists asel, agg, SelDefault, (q_grp q), (q_gpath q). split; [reflexivity|]. split; [exact Hops|]. split; [exact Has|]. repeat split. }
  cbn [q_grp set_aggr]. destruct k as [|k]; cbn [key_text] in Hkt.
  - subst t'. rewrite beq_refl. destruct (extract_path (q_grp q)) as [p l'] eqn:Ep.
    exists asel, agg, SelNone, l', p. split; [reflexivity|]. split; [exact Hops|]. split; [exact Has|]. split; [reflexivity|apply extract_taken, Ep].
  - destruct Hkt as [(Hk1 & Hk2 & Hk3) Hn]. rewrite (proj2 (beq_false t' (bs "none")) Hn). rewrite Hk3, split_join by assumption.
    destruct (extract_path (q_grp q ++ k)) as [p l'] eqn:Ep.
    exists asel, agg, SelList, l', p. split; [reflexivity|]. split; [exact Hops|]. split; [exact Has|]. split; [reflexivity|apply extract_taken, Ep].
Qed.

(* C74: the options change the query as they say *)
Theorem C74_options : forall o c q0, options_are o c -> exists q, apply_options o q0 = Some q /\ options_mean o c q0 q.
Proof.
  intros o c q0 (Hw & Ha & Hg & Hk & Hs). unfold apply_options.
  set (qa := step_select o q0). set (qb := step_attributes o qa). set (qc := step_aggregate o qb). set (qd := step_sort o qc).
  destruct (step_format o qd) as [q ok] eqn:Ef. apply format_ok in Ef as (-> & Hf & Hq). exists q. split; [reflexivity|].
  assert (Ea : qa = mkqy (q_asel q0) (q_agg q0) (q_gsel q0) (q_grp q0) (q_gpath q0) (q_ssel q0) (q_sel q0) (q_spath q0) (q_fsel qa) (q_flt qa) (q_osel q0) (q_ord q0) (q_fmt q0) (q_alias q0) (q_unit q0) (q_pre q0) /\
    match co_where c with Some l => Forall2 cond_is l (q_flt qa) /\ q_fsel qa = SelList | None => q_flt qa = q_flt q0 /\ q_fsel qa = q_fsel q0 end).
  { unfold qa, step_select. inversion Hw as [E1 E2|l t Ht E1 E2]; [destruct q0; split; [reflexivity|split; reflexivity]|].
    split; [reflexivity|]. cbn [q_flt q_fsel set_filter]. split; [apply selectors_ok, Ht|reflexivity]. }
  assert (Eb : qb = mkqy (q_asel qa) (q_agg qa) (q_gsel qa) (q_grp qa) (q_gpath qa) (q_ssel qb) (q_sel qb) (q_spath qa) (q_fsel qa) (q_flt qa) (q_osel qa) (q_ord qa) (q_fmt qa) (q_alias qa) (q_unit qa) (q_pre qa) /\
    match co_attrs c with Some l => q_sel qb = q_sel qa ++ l /\ q_ssel qb = SelList | None => q_sel qb = q_sel qa /\ q_ssel qb = q_ssel qa end).
  { clearbody qa. unfold qb, step_attributes. inversion Ha as [E1 E2|l t (T1 & T2 & T3) E1 E2]; [destruct qa; split; [reflexivity|split; reflexivity]|].
    split; [reflexivity|]. cbn [q_sel q_ssel set_select]. rewrite T3, split_join by assumption. split; reflexivity. }
  destruct (aggregate_ok o c qb Hg Hk) as (asel & agg & gsel & grp & gp & Ec & Hagg). fold qc in Ec.
  assert (Ed : qd = mkqy (q_asel qc) (q_agg qc) (q_gsel qc) (q_grp qc) (q_gpath qc) (q_ssel qc) (q_sel qc) (q_spath qc) (q_fsel qc) (q_flt qc) (q_osel qd) (q_ord qd) (q_fmt qc) (q_alias qc) (q_unit qc) (q_pre qc) /\
    match co_sort c with Some l => q_ord qd = q_ord qc ++ map (fun a => (a, true)) l /\ q_osel qd = SelList | None => q_ord qd = q_ord qc /\ q_osel qd = q_osel qc end).
  { clearbody qc. unfold qd, step_sort. inversion Hs as [E1 E2|l t (T1 & T2 & T3) E1 E2]; [destruct qc; split; [reflexivity|split; reflexivity]|].
    split; [reflexivity|]. cbn [q_ord q_osel set_order]. rewrite T3, split_join by assumption. split; reflexivity. }
  clearbody qa qb qc qd. destruct Ea as [Ea Hwa]. destruct Eb as [Eb Hab]. destruct Ed as [Ed Hsd].
  assert (Efld : q = mkqy (q_asel qd) (q_agg qd) (q_gsel qd) (q_grp qd) (q_gpath qd) (q_ssel qd) (q_sel qd) (q_spath qd) (q_fsel qd) (q_flt qd) (q_osel qd) (q_ord qd) (q_fmt q) (q_alias qd) (q_unit qd) (q_pre qd)).
  { destruct Hq as [->|(d & kw & ->)]; [destruct qd; reflexivity|reflexivity]. }
  clear Hq. rewrite Ed in Efld. cbn [q_asel q_agg q_gsel q_grp q_gpath q_ssel q_sel q_spath q_fsel q_flt q_osel q_ord q_fmt q_alias q_unit q_pre] in Efld.
  rewrite Ec in Efld. cbn [q_asel q_agg q_gsel q_grp q_gpath q_ssel q_sel q_spath q_fsel q_flt q_osel q_ord q_fmt q_alias q_unit q_pre] in Efld.
  assert (Fm : q_fmt qd = q_fmt q0). { rewrite Ed. cbn [q_fmt]. rewrite Ec. cbn [q_fmt]. rewrite Eb. cbn [q_fmt]. rewrite Ea. reflexivity. }
  assert (Om : q_ord qc = q_ord q0 /\ q_osel qc = q_osel q0). { rewrite Ec. cbn [q_ord q_osel]. rewrite Eb. cbn [q_ord q_osel]. rewrite Ea. split; reflexivity. }
  destruct Om as [Om1 Om2]. rewrite Om1, Om2 in Hsd.
  assert (Sm : q_sel qa = q_sel q0 /\ q_ssel qa = q_ssel q0) by (rewrite Ea; split; reflexivity). destruct Sm as [Sm1 Sm2]. rewrite Sm1, Sm2 in Hab.
  assert (Gm : q_agg qb = q_agg q0 /\ q_asel qb = q_asel q0 /\ q_gsel qb = q_gsel q0 /\ q_grp qb = q_grp q0 /\ q_gpath qb = q_gpath q0).
  { rewrite Eb. cbn [q_agg q_asel q_gsel q_grp q_gpath]. rewrite Ea. repeat split. }
  destruct Gm as (Gm1 & Gm2 & Gm3 & Gm4 & Gm5). rewrite Gm1, Gm2, Gm3, Gm4, Gm5 in Hagg.
  assert (Wm : q_flt qb = q_flt qa /\ q_fsel qb = q_fsel qa /\ q_spath qb = q_spath q0 /\ q_alias qb = q_alias q0 /\ q_unit qb = q_unit q0 /\ q_pre qb = q_pre q0).
  { rewrite Eb. cbn [q_flt q_fsel q_spath q_alias q_unit q_pre]. rewrite Ea. repeat split. }
  destruct Wm as (Wm1 & Wm2 & Wm3 & Wm4 & Wm5 & Wm6). rewrite <- Wm1, <- Wm2 in Hwa.
  unfold format_means, kw_of in Hf. rewrite Fm in Hf.
  unfold options_mean, format_means, kw_of.
  assert (P : q_flt q = q_flt qb /\ q_fsel q = q_fsel qb /\ q_sel q = q_sel qb /\ q_ssel q = q_ssel qb /\ q_spath q = q_spath qb /\ q_agg q = agg /\ q_asel q = asel /\ q_gsel q = gsel /\ q_grp q = grp /\ q_gpath q = gp /\ q_ord q = q_ord qd /\ q_osel q = q_osel qd /\ q_alias q = q_alias qb /\ q_unit q = q_unit qb /\ q_pre q = q_pre qb).
  { rewrite Efld. cbn [q_asel q_agg q_gsel q_grp q_gpath q_ssel q_sel q_spath q_fsel q_flt q_osel q_ord q_fmt q_alias q_unit q_pre]. repeat split. }
  destruct P as (P1 & P2 & P3 & P4 & P5 & P6 & P7 & P8 & P9 & P10 & P11 & P12 & P13 & P14 & P15).
  rewrite P1, P2, P3, P4, P5, P6, P7, P8, P9, P10, P11, P12, P13, P14, P15, Wm3, Wm4, Wm5, Wm6.
  split; [exact Hwa|]. split; [exact Hab|]. split; [reflexivity|]. split; [exact Hagg|]. split; [exact Hsd|]. split; [exact Hf|]. repeat split.
Qed.

Lemma find_ext' {A} (f g : A -> bool) l : (forall x, f x = g x) -> find f l = find g l.
Proof. intro H. induction l as [|x l IH]; [reflexivity|]. cbn [find]. rewrite H. destruct (g x); [reflexivity|exact IH]. Qed.
Lemma apply_ext o1 o2 q : (forall n, o1 n = o2 n) -> apply_options o1 q = apply_options o2 q.
Proof.
  intro Eo. unfold apply_options.
  replace (step_sort o1 (step_aggregate o1 (step_attributes o1 (step_select o1 q)))) with (step_sort o2 (step_aggregate o2 (step_attributes o2 (step_select o2 q))))
    by (unfold step_select, step_attributes, step_aggregate, step_sort; rewrite !Eo; reflexivity).
  generalize (step_sort o2 (step_aggregate o2 (step_attributes o2 (step_select o2 q)))). intro q'.
  assert (E : step_format o1 q' = step_format o2 q').
  { unfold step_format. rewrite (find_ext' _ (fun d => match o2 (f_name d) with Some _ => true | None => false end)) by (intro d; rewrite Eo; reflexivity).
    destruct (find _ format_defs) as [d|]; [|reflexivity].
    assert (Ek : forall kw, set_kw o1 d kw = set_kw o2 d kw). { intro kw. unfold set_kw. f_equal. apply flat_map_ext. intro k. rewrite Eo. reflexivity. }
    rewrite Ek. reflexivity. }
  rewrite E. reflexivity.
Qed.
(* the whole command line: the words are those of C71; without --query and --query-file the options change
   the query that passes everything through *)
Definition base_query (gp sp : bool) (file : bytes -> option bytes) (o : bytes -> option bytes) (q0 : query) : Prop :=
  match o (bs "query"), o (bs "query-file") with
  | Some t, _ => calql t = (q0, false)
  | None, Some f => exists t, file f = Some t /\ calql t = (q0, false)
  | None, None => q0 = no_query gp sp
  end.
Theorem C74_command_line : forall table ws tail c q0 gp sp file, table_ok table -> Forall (word_ok table) ws ->
  options_are (fun n => given n (all_sets ws)) c -> base_query gp sp file (fun n => given n (all_sets ws)) q0 ->
  exists a n q, parse_cmd table (cmdline ws ++ ending tail) = (a, n) /\ parse_query_args (fun n => if is_set table a n then Some (get_opt table a n []) else None) gp sp file = Some q /\ options_mean (fun n => given n (all_sets ws)) c q0 q.
Proof.
  intros table ws tail c q0 gp sp file Ht Hw Hc Hb.
  destruct (C71_command_line table ws tail Ht Hw) as (a & n & E & _ & _ & Hg & Hs & _).
  destruct (C74_options _ c q0 Hc) as (q & Eq & Hq). exists a, n, q. split; [exact E|]. split; [|exact Hq].
  set (o1 := fun n => if is_set table a n then Some (get_opt table a n []) else None). set (o2 := fun n => given n (all_sets ws)) in *.
  assert (Eo : forall n, o1 n = o2 n). { intro x. unfold o1, o2. rewrite Hs, Hg. destruct (given x (all_sets ws)); reflexivity. }
  assert (Ea : forall q, apply_options o1 q = apply_options o2 q).
  { intro q'. apply apply_ext. exact Eo. }
  unfold parse_query_args, base_query in *. rewrite !Eo. destruct (o2 (bs "query")) as [t|].
  - rewrite Hb. rewrite Ea. exact Eq.
  - destruct (o2 (bs "query-file")) as [f|].
    + destruct Hb as (t & -> & ->). rewrite Ea. exact Eq.
    + rewrite Ea, <- Hb. exact Eq.
Qed.

(* example: cali-query -q "format json(pretty)" --select "-a=1,b" --print-attributes x,y --aggregate "sum( t ),count"
   --aggregate-key path,z --sort-by u -t *)
Definition ex_opts (n : bytes) : option bytes :=
  option_map snd (find (fun x => beqb (fst x) n)
    [(bs "query", bs "format json(pretty) where c"); (bs "select", bs "-a=1,b"); (bs "attributes", bs "x,y"); (bs "aggregate", bs "sum( t ),count");
     (bs "aggregate-key", bs "path,z"); (bs "sort", bs "u"); (bs "table", [])]).
Definition ex_copts : copts :=
  mkco (Some [mkcnd true (bs "a") (Equals (bs "1")); mkcnd false (bs "b") Exists]) (Some [bs "x"; bs "y"])
    (Some [(bs "sum", Some [bs "t"]); (bs "count", None)]) (Some (KList [bs "path"; bs "z"])) (Some [bs "u"]).
Ltac names_tac := split; [discriminate|]; split; [repeat (apply Forall_cons; [split; [discriminate|vm_compute; intuition discriminate]|]); apply Forall_nil|reflexivity].
Lemma ex_options_are : options_are ex_opts ex_copts.
Proof.
  split; [|split; [|split; [|split]]].
  - apply (oi_some select_text). split; [discriminate|]. split; [|reflexivity]. apply Forall_cons; [|apply Forall_cons; [|apply Forall_nil]]; unfold sel_ok; cbn [cn_attr cn_not cn_test].
    + split; [discriminate|]. split; [intros x [<-|[]]; repeat split; discriminate|]. split; [discriminate|]. split; [discriminate|vm_compute; intuition discriminate].
    + split; [discriminate|]. split; [intros x [<-|[]]; repeat split; discriminate|]. split; [discriminate|exact Logic.I].
  - apply (oi_some names_text). names_tac.
  - apply (oi_some aggr_text). right. split; [discriminate|]. split.
    + apply Forall_cons; [|apply Forall_cons; [|apply Forall_nil]].
      * exists 1, (bs "sum#t"). exists "sum"%string, 1%nat, 1%nat, "sum#"%string, 1%nat. split; [cbn; auto|]. split; [reflexivity|]. split; [split; [cbn; lia|cbn; intuition discriminate]|reflexivity].
      * exists 0, (bs "count"). exists "count"%string, 0%nat, 0%nat, "count"%string, 0%nat. split; [cbn; auto|]. split; [reflexivity|]. split; [split; [cbn; lia|cbn; intuition discriminate]|reflexivity].
    + assert (P : forall c, (c =? 34) || (c =? 92) || isspace c || is_one_of c (bs ",()") = false -> plain (bs ",()") c).
      { intros c H. apply orb_false_iff in H as [H H4]. apply orb_false_iff in H as [H H3]. apply orb_false_iff in H as [H1 H2]. split; [apply N.eqb_neq, H1|]. split; [apply N.eqb_neq, H2|].
        intros [D|D]; [congruence|]. apply is_one_of_spec in D. congruence. }
      assert (W : forall l, forallb (fun c => negb ((c =? 34) || (c =? 92) || isspace c || is_one_of c (bs ",()"))) l = true -> spells (bs ",()") l l).
      { induction l as [|x l IH]; intro H; [constructor|]. cbn [forallb] in H. apply andb_true_iff in H as [H1 H2]. constructor; [apply P, negb_true_iff, H1|apply IH, H2]. }
      refine (ct_word (bs "sum") _ [] (bs "sum") (bs "( t ),count") _ _ _ _ _); [constructor|discriminate|apply W; reflexivity|split; [right; cbn; auto|split; discriminate]|].
      refine (ct_char 40 _ [] (bs " t ),count") _ _); [constructor|].
      refine (ct_word (bs "t") _ [32] (bs "t") (bs " ),count") _ _ _ _ _); [repeat constructor|discriminate|apply W; reflexivity|split; [left; reflexivity|split; discriminate]|].
      refine (ct_char 41 _ [32] (bs ",count") _ _); [repeat constructor|].
      refine (ct_char 44 _ [] (bs "count") _ _); [constructor|].
      refine (ct_word (bs "count") [] [] (bs "count") [] _ _ _ _ _); [constructor|discriminate|apply W; reflexivity|exact Logic.I|constructor; constructor].
  - apply (oi_some key_text). split; [names_tac|discriminate].
  - apply (oi_some names_text). names_tac.
Qed.
Example C74_example : options_are ex_opts ex_copts /\ exists q0 q, calql (bs "format json(pretty) where c") = (q0, false) /\
  parse_query_args ex_opts false false (fun _ => None) = Some q /\
  map c_name (q_flt q) = [bs "a"; bs "b"] /\ q_sel q = [bs "x"; bs "y"] /\ map o_args (q_agg q) = [[bs "t"]; []] /\ q_grp q = [bs "z"] /\ q_gpath q = true /\
  q_ord q = [(bs "u", true)] /\ option_map (fun x => f_name (fst x)) (q_fmt q) = Some (bs "table").
Proof.
  split; [exact ex_options_are|]. eexists. eexists. split; [vm_compute; reflexivity|]. split; [vm_compute; reflexivity|]. repeat split.
Qed.

(* --select "a<5": the documented comparisons < and > are read as "has an a" *)
Theorem C74_less_refuted : map (fun c => (c_op c, c_name c)) (parse_selectors (bs "a<5")) = [(OExist, bs "a")] /\
  map (fun c => (c_op c, c_name c)) (parse_selectors (bs "-a>5")) = [(ONotExist, bs "a")].
Proof. split; vm_compute; reflexivity. Qed.
(* an unknown function drops the rest of the list without an error *)
Definition one_opt (n v : string) (x : bytes) : option bytes := if beqb x (bs n) then Some (bs v) else None.
Theorem C74_unknown_function_refuted : exists q, parse_query_args (one_opt "aggregate" "total(x),sum(y)") false false (fun _ => None) = Some q /\ q_agg q = [] /\ q_asel q = SelList.
Proof. eexists. split; [vm_compute; reflexivity|]. split; reflexivity. Qed.
(* arguments of the query's formatter are kept for another formatter *)
Theorem C74_formatter_arguments_refuted : exists q, parse_query_args (fun n => if beqb n (bs "query") then Some (bs "format tree(path-attributes=x)") else one_opt "table" "" n) false false (fun _ => None) = Some q /\
  option_map (fun f => (f_name (fst f), kw_get (snd f) (bs "path-attributes"))) (q_fmt q) = Some (bs "table", Some (bs "x")).
Proof. eexists. split; vm_compute; reflexivity. Qed.
(* without a query the use_path members are whatever the memory held *)
Theorem C74_uninitialized_refuted : exists a b, parse_query_args (one_opt "attributes" "x") false false (fun _ => None) = Some a /\ parse_query_args (one_opt "attributes" "x") false true (fun _ => None) = Some b /\ q_spath a <> q_spath b.
Proof. eexists. eexists. split; [vm_compute; reflexivity|]. split; [vm_compute; reflexivity|]. discriminate. Qed.
(* a query text with an error, or a query file that cannot be read, is an error of the command line *)
Theorem C74_query_errors : forall o gp sp file,
  (forall t, o (bs "query") = Some t -> snd (calql t) = true -> parse_query_args o gp sp file = None) /\
  (forall f, o (bs "query") = None -> o (bs "query-file") = Some f ->
     match file f with None => True | Some t => snd (calql t) = true end -> parse_query_args o gp sp file = None).
Proof.
  intros o gp sp file. split.
  - intros t Ho He. unfold parse_query_args. rewrite Ho. destruct (calql t) as [q e]. cbn [snd] in He. rewrite He. reflexivity.
  - intros f Ho Hf He. unfold parse_query_args. rewrite Ho, Hf. destruct (file f) as [t|]; [|reflexivity].
    destruct (calql t) as [q e]. cbn [snd] in He. rewrite He. reflexivity.
Qed.
Example C74_query_errors_example : snd (calql (bs "select a where ((")) = true /\
  parse_query_args (one_opt "query" "select a where ((") false false (fun _ => None) = None /\ parse_query_args (one_opt "query-file" "x") false false (fun _ => None) = None.
Proof. vm_compute. auto. Qed.
(* whatever the --select text is: every condition of it has a test and a name and comes from one of the
   clauses; an empty clause adds none *)
Theorem C74_select_clauses : forall s,
  (forall c, In c (parse_selectors s) -> c_op c <> ONone /\ c_name c <> [] /\ exists w, In w (split 44 s) /\ parse_clause w = c) /\
  (List.length (parse_selectors s) + List.length (filter (fun w => match w with [] => true | _ => false end) (split 44 s)) <= List.length (split 44 s))%nat.
Proof.
  intro s. unfold parse_selectors. split.
  - intros c Hc. apply filter_In in Hc as [Hc Ho]. apply in_map_iff in Hc as (w & Ew & Hw).
    assert (Hn : c_op c <> ONone). { intro E. rewrite E in Ho. discriminate Ho. }
    split; [exact Hn|]. split; [|exists w; auto]. intro En. apply Hn. subst c. unfold parse_clause in *. destruct w as [|c0 r]; [reflexivity|].
    destruct (cut_cmp (if c0 =? 45 then r else c0 :: r)) as [name rest].
    match type of En with c_name (let '(op, value) := ?e in _) = _ => destruct e as [op value] end. cbn [c_name] in En. subst name. reflexivity.
  - generalize (split 44 s). induction l as [|w l IH]; [cbn; lia|]. cbn [map filter List.length].
    destruct w as [|x w]; [cbn [parse_clause c_op cop_none negb List.length]; lia|]. destruct (negb _); cbn [List.length]; lia.
Qed.
