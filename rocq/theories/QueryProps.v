(* C57: a CalQL text is parsed to the query it describes *)
From Coq Require Import Strings.Ascii Strings.String.
From Verif Require Import Base TextModel ParseModel ParseSpec ParseProofs ParseProps RConfigModel FilterModel QueryModel QuerySpec QueryProofs QueryProofs2 QueryProofs3.
Open Scope N_scope.

(* ---------- a clause ---------- *)
Definition kw_of (c : clause) : bytes :=
  match c with CAggregate _ => bs "aggregate" | CFormat _ => bs "format" | CGroup _ => bs "group" | CSelect _ => bs "select" | COrder _ => bs "order" | CWhere _ => bs "where" | CLet _ => bs "let" end.
Definition body (c : clause) : list token := tl (clause_tokens c).
Lemma clause_split c : clause_tokens c = TKey (kw_of c) :: body c. Proof. destruct c; reflexivity. Qed.
Inductive cl_step : clause -> query -> query -> Prop :=
| cs_agg l ops q : Forall2 op_of l ops -> cl_step (CAggregate l) q (fold_left add_agg ops q)
| cs_fmt f d kw q : format_call f (f_id d) kw -> cl_step (CFormat f) q (set_format q d kw)
| cs_grp l q : cl_step (CGroup l) q (fold_left add_group l q)
| cs_sel l cols q q' : sel_steps l cols q q' -> cl_step (CSelect l) q q'
| cs_ord l q : cl_step (COrder l) q (fold_left add_ord l q)
| cs_whr l ds q : Forall2 cond_is l ds -> cl_step (CWhere l) q (fold_left add_filter ds q)
| cs_let l ps q : Forall2 let_is l ps -> cl_step (CLet l) q (fold_left add_pre ps q).
Definition inner_kws : list bytes := [bs "asc"; bs "desc"; bs "unit"; bs "as"; bs "if"].
Lemma ends_weaken ks ks' r : incl ks ks' -> ends ks' r -> ends ks r.
Proof. intros I [F N]. split; [eapply follow_weaken; eassumption|exact N]. Qed.
Lemma fuel_ok {A} (f : A -> list token) l r s : (forall x, f x <> []) -> at_tokens (commas f l ++ r) s -> (length l <= S (length (s_rest s)))%nat.
Proof. intros N H. pose proof (at_len _ _ H) as L. rewrite app_length in L. pose proof (commas_len f l N). lia. Qed.
Lemma sel_tokens_ne x : sel_tokens x <> [].
Proof. unfold sel_tokens. destruct (si_what x); discriminate. Qed.
Lemma cond_tokens_ne x : cond_tokens x <> []. Proof. unfold cond_tokens. destruct (cn_not x); discriminate. Qed.
Lemma call_tokens_ne x : call_tokens x <> []. Proof. discriminate. Qed.
Lemma let_tokens_ne x : let_tokens x <> []. Proof. discriminate. Qed.
Lemma order_tokens_ne x : order_tokens x <> []. Proof. discriminate. Qed.
Lemma word_tokens_ne (x : bytes) : [TWord x] <> []. Proof. discriminate. Qed.
Lemma clause_parse c w t s r : clause_ok c -> lower w = kw_of c -> good t -> NoDup (map p_target (q_pre (st_q t)) ++ map li_target (lets c)) -> at_tokens (body c ++ r) s -> ends inner_kws r ->
  exists q kw s', clause_word w t s = (upd t q, kw, s') /\ cl_step c (st_q t) q /\ reached r kw s'.
Proof.
  intros Hok W Gt Hd H He. unfold clause_word, get_clause. rewrite W. destruct c as [l|f|l|l|l|l|l]; cbn [kw_of body clause_tokens tl lets clause_ok] in *.
  - change (option_map snd (find _ keywords)) with (Some KAggregate). cbn [parse_clause]. destruct Hok as [Hne Hl]. destruct (aggregate_ok _ l Hl t s r _ Gt Hne (fuel_ok _ l r s call_tokens_ne H) H He) as (ops & s' & E & F & A). rewrite E. cbn [fst snd]. eexists. eexists. eexists. split; [reflexivity|]. split; [constructor; exact F|]. right. split; [reflexivity|exact A].
  - change (option_map snd (find _ keywords)) with (Some KFormat). cbn [parse_clause]. destruct (format_ok _ f t s r Gt Hok H He) as (d & kw & s' & E & F & A). rewrite E. cbn [fst snd]. eexists. eexists. eexists. split; [reflexivity|]. split; [constructor; exact F|]. right. split; [reflexivity|exact A].
  - change (option_map snd (find _ keywords)) with (Some KGroup). destruct Hok as [Hne Hl]. destruct (at_key _ _ s H) as (wb & s1 & E1 & Wb & A1). cbv iota. rewrite E1, Wb, beq_refl. cbn [parse_clause]. destruct (groupby_ok _ l Hl t s1 r _ Gt Hne (fuel_ok _ l r s1 word_tokens_ne A1) A1 He) as (s' & E & A). rewrite E. cbn [fst snd]. eexists. eexists. eexists. split; [reflexivity|]. split; [constructor|]. right. split; [reflexivity|exact A].
  - change (option_map snd (find _ keywords)) with (Some KSelect). cbn [parse_clause]. destruct Hok as [Hne Hl]. destruct (select_ok l Hl t s r _ Gt Hne (fuel_ok _ l r s sel_tokens_ne H) H) as (cols & q & kw & s' & E & F & A); [eapply ends_weaken; [|exact He]; intros x; cbn; tauto|]. rewrite E. exists q, kw, s'. split; [reflexivity|]. split; [econstructor; exact F|exact A].
  - change (option_map snd (find _ keywords)) with (Some KSort). destruct Hok as [Hne Hl]. destruct (at_key _ _ s H) as (wb & s1 & E1 & Wb & A1). cbv iota. rewrite E1, Wb, beq_refl. cbn [parse_clause]. destruct (sort_ok l Hl t s1 r _ Gt Hne (fuel_ok _ l r s1 order_tokens_ne A1) A1) as (kw & s' & E & A); [eapply ends_weaken; [|exact He]; intros x; cbn; tauto|]. rewrite E. eexists. exists kw, s'. split; [reflexivity|]. split; [constructor|exact A].
  - change (option_map snd (find _ keywords)) with (Some KWhere). cbn [parse_clause]. destruct Hok as [Hne Hl]. destruct (where_ok _ l Hl t s r _ Gt Hne (fuel_ok _ l r s cond_tokens_ne H) H He) as (ds & s' & E & F & A). rewrite E. cbn [fst snd]. eexists. eexists. eexists. split; [reflexivity|]. split; [constructor; exact F|]. right. split; [reflexivity|exact A].
  - change (option_map snd (find _ keywords)) with (Some KLet). cbn [parse_clause]. destruct Hok as [Hne Hl]. destruct (let_ok l Hl t s r _ Gt Hne (fuel_ok _ l r s let_tokens_ne H) Hd H) as (ps & kw & s' & E & F & A); [eapply ends_weaken; [|exact He]; intros x; cbn; tauto|]. rewrite E. eexists. exists kw, s'. split; [reflexivity|]. split; [constructor; exact F|exact A].
Qed.
Lemma query_ends cl : ends inner_kws (query_tokens cl).
Proof.
  destruct cl as [|c cl]; [split; [exact Logic.I|discriminate]|]. unfold query_tokens. cbn [flat_map]. rewrite clause_split. cbn [app]. split; [|discriminate]. cbn [follow]. split; [|destruct c; split; discriminate].
  destruct c; cbn; intuition discriminate.
Qed.

(* ---------- all clauses ---------- *)
Inductive cl_steps : list clause -> query -> query -> Prop :=
| cst_nil q : cl_steps [] q q
| cst_cons c l q q1 q2 : cl_step c q q1 -> cl_steps l q1 q2 -> cl_steps (c :: l) q q2.
Lemma cl_steps_app a b q q1 q2 : cl_steps a q q1 -> cl_steps b q1 q2 -> cl_steps (a ++ b) q q2.
Proof. induction 1; intro H2; [exact H2|]. econstructor; [eassumption|]. auto. Qed.
Lemma fold_pre_targets ps q : map p_target (q_pre (fold_left add_pre ps q)) = map p_target (q_pre q) ++ map p_target ps.
Proof. revert q. induction ps as [|p ps IH]; intro q; [symmetry; apply app_nil_r|]. cbn [fold_left]. rewrite IH. cbn [q_pre add_pre map]. rewrite map_app, <- app_assoc. reflexivity. Qed.
Lemma let_is_targets l ps : Forall2 let_is l ps -> map p_target ps = map li_target l.
Proof. induction 1 as [|x y l ps H _ IH]; [reflexivity|]. cbn [map]. rewrite IH, (proj1 H). reflexivity. Qed.
Lemma item_pre x col q q' : item_effect x col q q' -> q_pre q' = q_pre q.
Proof. destruct 1; try reflexivity. destruct (q_ssel q); reflexivity. Qed.
Lemma names_pre x col q : q_pre (add_names x col q) = q_pre q.
Proof. unfold add_names. destruct (si_as x), (si_unit x); reflexivity. Qed.
Lemma sel_steps_pre l cols q q' : sel_steps l cols q q' -> q_pre q' = q_pre q.
Proof. induction 1 as [|x l col cols q q1 q2 H Hc _ IH]; [reflexivity|]. rewrite IH, names_pre. eapply item_pre. exact H. Qed.
Lemma fold_pre_other {A} (f : query -> A -> query) l q : (forall q x, q_pre (f q x) = q_pre q) -> q_pre (fold_left f l q) = q_pre q.
Proof. intro H. revert q. induction l as [|x l IH]; intro q; [reflexivity|]. cbn [fold_left]. rewrite IH. apply H. Qed.
Lemma step_targets c q q' : cl_step c q q' -> map p_target (q_pre q') = map p_target (q_pre q) ++ map li_target (lets c).
Proof.
  intro H. destruct H as [l ops q F|f d kw q F|l q|l cols q q' F|l q|l ds q F|l ps q F]; cbn [lets map]; try (rewrite app_nil_r).
  - rewrite fold_pre_other by (intros; reflexivity). reflexivity.
  - reflexivity.
  - rewrite fold_pre_other by (intros; reflexivity). reflexivity.
  - rewrite (sel_steps_pre _ _ _ _ F). reflexivity.
  - rewrite fold_pre_other by (intros; reflexivity). reflexivity.
  - rewrite fold_pre_other by (intros; reflexivity). reflexivity.
  - rewrite fold_pre_targets, (let_is_targets _ _ F). reflexivity.
Qed.
Lemma NoDup_app_l {A} (a b : list A) : NoDup (a ++ b) -> NoDup a.
Proof. induction a as [|x a IH]; intro H; [constructor|]. cbn [app] in H. apply NoDup_cons_iff in H. destruct H as [H1 H2]. constructor; [intro D; apply H1; apply in_or_app; left; exact D|auto]. Qed.
Lemma lower_kw c : lower (kw_of c) = kw_of c. Proof. destruct c; reflexivity. Qed.
Lemma chain_ok cl : forall c w t s fuel, Forall clause_ok (c :: cl) -> NoDup (map p_target (q_pre (st_q t)) ++ map li_target (flat_map lets (c :: cl))) -> lower w = kw_of c -> good t ->
  at_tokens (body c ++ query_tokens cl) s -> (length cl < fuel)%nat ->
  exists cl1 cl2 q s', cl = cl1 ++ cl2 /\ clause_chain fuel w t s = (upd t q, s') /\ cl_steps (c :: cl1) (st_q t) q /\ at_tokens (query_tokens cl2) s'.
Proof.
  induction cl as [|c2 cl IH]; intros c w t s fuel Hok Hd W Gt H Hf; (destruct fuel as [|f]; [lia|]); apply Forall_cons_iff in Hok; destruct Hok as [Hc Hok];
    cbn [flat_map] in Hd; rewrite map_app, app_assoc in Hd; (destruct (clause_parse c w t s _ Hc W Gt (NoDup_app_l _ _ Hd) H (query_ends _)) as (q & kw & s1 & E & S1 & R)); cbn [clause_chain]; rewrite E, upd_err, Gt.
  - assert (P : kw = [] /\ at_tokens (query_tokens []) s1) by (destruct R as [R|R]; exact R). destruct P as [-> A]. exists [], [], q, s1. split; [reflexivity|]. split; [reflexivity|]. split; [econstructor; [exact S1|constructor]|exact A].
  - destruct R as [R|[-> A]].
    + unfold query_tokens in R. cbn [flat_map] in R. rewrite clause_split in R. cbn [app kwpos] in R. destruct R as [-> A]. assert (N : kw_of c2 <> []) by (destruct c2; discriminate).
      destruct (IH c2 (kw_of c2) (upd t q) s1 f Hok) as (cl1 & cl2 & q2 & s2 & Ecl & E2 & S2 & A2); [|apply lower_kw|exact Gt|exact A|cbn [length] in Hf; lia|].
      { rewrite upd_q, (step_targets _ _ _ S1). exact Hd. }
      destruct (kw_of c2) as [|k0 k] eqn:Ek; [congruence|]. exists (c2 :: cl1), cl2, q2, s2. split; [cbn [app]; rewrite Ecl; reflexivity|]. split; [exact E2|]. split; [econstructor; [exact S1|exact S2]|exact A2].
    + exists [], (c2 :: cl), q, s1. split; [reflexivity|]. split; [reflexivity|]. split; [econstructor; [exact S1|constructor]|exact A].
Qed.
Lemma steps_targets cl q q' : cl_steps cl q q' -> map p_target (q_pre q') = map p_target (q_pre q) ++ map li_target (flat_map lets cl).
Proof. induction 1 as [|c l q q1 q2 H _ IH]; [symmetry; apply app_nil_r|]. rewrite IH, (step_targets _ _ _ H). cbn [flat_map]. rewrite map_app, app_assoc. reflexivity. Qed.
Lemma tokens_len cl : (length cl <= length (query_tokens cl))%nat.
Proof. induction cl as [|c cl IH]; [cbn; lia|]. unfold query_tokens in *. cbn [flat_map]. rewrite clause_split, app_length. cbn [length]. lia. Qed.
Lemma parse_loop_ok n : forall cl t s fuel, (length cl <= n)%nat -> Forall clause_ok cl -> NoDup (map p_target (q_pre (st_q t)) ++ map li_target (flat_map lets cl)) -> good t -> at_tokens (query_tokens cl) s -> (length cl < fuel)%nat ->
  exists q s', parse_loop fuel t s = (upd t q, s') /\ cl_steps cl (st_q t) q /\ at_tokens [] s'.
Proof.
  induction n as [|n IH]; intros cl t s fuel Hn Hok Hd Gt H Hf; (destruct fuel as [|f]; [lia|]); cbn [parse_loop]; rewrite Gt; cbn [negb andb].
  - destruct cl as [|c cl]; [|cbn in Hn; lia]. destruct (s_good s) eqn:Gs.
    + destruct (at_end_word wseps s H) as (s' & E & _ & A). rewrite E. exists (st_q t), s'. split; [rewrite upd_id; reflexivity|]. split; [constructor|exact A].
    + exists (st_q t), s. split; [rewrite upd_id; reflexivity|]. split; [constructor|exact H].
  - destruct cl as [|c cl].
    { destruct (s_good s) eqn:Gs.
      + destruct (at_end_word wseps s H) as (s' & E & _ & A). rewrite E. exists (st_q t), s'. split; [rewrite upd_id; reflexivity|]. split; [constructor|exact A].
      + exists (st_q t), s. split; [rewrite upd_id; reflexivity|]. split; [constructor|exact H]. }
    unfold query_tokens in H. cbn [flat_map] in H. rewrite clause_split in H. cbn [app] in H. rewrite (at_good _ _ _ H). destruct (at_key _ _ s H) as (w & s1 & E1 & W & A1). rewrite E1.
    fold (query_tokens cl) in A1. assert (Lf : (length cl < S (length (s_rest s1)))%nat). { pose proof (at_len _ _ A1) as L. rewrite app_length in L. pose proof (tokens_len cl). lia. }
    destruct w as [|w0 w]; [destruct c; discriminate W|].
    destruct (chain_ok cl c (w0 :: w) t s1 _ Hok Hd W Gt A1 Lf) as (cl1 & cl2 & q & s2 & Ecl & E2 & S2 & A2). rewrite E2.
    assert (Lc : (length cl = length cl1 + length cl2)%nat) by (rewrite Ecl, app_length; reflexivity).
    destruct (IH cl2 (upd t q) s2 f) as (q2 & s3 & E3 & S3 & A3).
    { cbn [length] in Hn. lia. } { apply Forall_cons_iff in Hok. destruct Hok as [_ Hok]. rewrite Ecl in Hok. apply Forall_app in Hok. apply Hok. }
    { rewrite upd_q, (steps_targets _ _ _ S2), <- app_assoc. rewrite Ecl in Hd. change (c :: cl1 ++ cl2) with ((c :: cl1) ++ cl2) in Hd. rewrite flat_map_app, map_app in Hd. exact Hd. }
    { exact Gt. } { exact A2. } { cbn [length] in Hf. lia. }
    exists q2, s3. split; [exact E3|]. split; [|exact A3]. rewrite Ecl. change (c :: cl1 ++ cl2) with ((c :: cl1) ++ cl2). eapply cl_steps_app; [exact S2|exact S3].
Qed.

(* ---------- the query described ---------- *)
(* before the path keywords are taken out *)
Definition described (cl : list clause) (q : query) : Prop :=
  Forall2 op_of (flat_map aggregations cl) (q_agg q) /\ q_asel q = listed SelNone (q_agg q) /\
  q_grp q = flat_map groups cl /\ q_gsel q = listed SelDefault (flat_map groups cl) /\
  (exists cols, Forall2 column_of (flat_map sel_items cl) cols /\
     fold_left sel_step (combine (flat_map sel_items cl) cols) (SelDefault, []) = (q_ssel q, q_sel q) /\
     q_alias q = names_given si_as (combine (flat_map sel_items cl) cols) /\ q_unit q = names_given si_unit (combine (flat_map sel_items cl) cols)) /\
  Forall2 cond_is (flat_map wheres cl) (q_flt q) /\ q_fsel q = listed SelNone (q_flt q) /\
  q_ord q = map (fun o => (fst o, match snd o with DDesc => false | _ => true end)) (flat_map orders cl) /\ q_osel q = listed SelNone (q_ord q) /\
  (match last_of (flat_map formats cl), q_fmt q with None, None => True | Some f, Some (d, kw) => format_call f (f_id d) kw | _, _ => False end) /\
  Forall2 let_is (flat_map lets cl) (q_pre q).
Lemma described_nil : described [] query0.
Proof.
  repeat (split; [first [constructor | reflexivity | (exists []; split; [constructor|repeat split])]|]). constructor.
Qed.
Lemma listed_app {A} n (l m : list A) : listed n (l ++ m) = match m with [] => listed n l | _ => SelList end.
Proof. destruct l, m; reflexivity. Qed.
Lemma fold_agg ops q : fold_left add_agg ops q = mkqy (match ops with [] => q_asel q | _ => SelList end) (q_agg q ++ ops) (q_gsel q) (q_grp q) (q_gpath q) (q_ssel q) (q_sel q) (q_spath q) (q_fsel q) (q_flt q) (q_osel q) (q_ord q) (q_fmt q) (q_alias q) (q_unit q) (q_pre q).
Proof. revert q. induction ops as [|o ops IH]; intro q; cbn [fold_left]; [rewrite app_nil_r; destruct q; reflexivity|]. rewrite IH. cbn. rewrite <- app_assoc. destruct ops; reflexivity. Qed.
Lemma fold_group ws q : fold_left add_group ws q = mkqy (q_asel q) (q_agg q) (match ws with [] => q_gsel q | _ => SelList end) (q_grp q ++ ws) (q_gpath q) (q_ssel q) (q_sel q) (q_spath q) (q_fsel q) (q_flt q) (q_osel q) (q_ord q) (q_fmt q) (q_alias q) (q_unit q) (q_pre q).
Proof. revert q. induction ws as [|o ws IH]; intro q; cbn [fold_left]; [rewrite app_nil_r; destruct q; reflexivity|]. rewrite IH. cbn. rewrite <- app_assoc. destruct ws; reflexivity. Qed.
Lemma fold_filter ds q : fold_left add_filter ds q = mkqy (q_asel q) (q_agg q) (q_gsel q) (q_grp q) (q_gpath q) (q_ssel q) (q_sel q) (q_spath q) (match ds with [] => q_fsel q | _ => SelList end) (q_flt q ++ ds) (q_osel q) (q_ord q) (q_fmt q) (q_alias q) (q_unit q) (q_pre q).
Proof. revert q. induction ds as [|o ds IH]; intro q; cbn [fold_left]; [rewrite app_nil_r; destruct q; reflexivity|]. rewrite IH. cbn. rewrite <- app_assoc. destruct ds; reflexivity. Qed.
Lemma fold_order ws q : fold_left add_ord ws q = mkqy (q_asel q) (q_agg q) (q_gsel q) (q_grp q) (q_gpath q) (q_ssel q) (q_sel q) (q_spath q) (q_fsel q) (q_flt q) (match ws with [] => q_osel q | _ => SelList end) (q_ord q ++ map (fun o => (fst o, match snd o with DDesc => false | _ => true end)) ws) (q_fmt q) (q_alias q) (q_unit q) (q_pre q).
Proof. revert q. induction ws as [|o ws IH]; intro q; cbn [fold_left map]; [rewrite app_nil_r; destruct q; reflexivity|]. rewrite IH. cbn. rewrite <- app_assoc. destruct ws; reflexivity. Qed.
Lemma fold_pre ps q : fold_left add_pre ps q = mkqy (q_asel q) (q_agg q) (q_gsel q) (q_grp q) (q_gpath q) (q_ssel q) (q_sel q) (q_spath q) (q_fsel q) (q_flt q) (q_osel q) (q_ord q) (q_fmt q) (q_alias q) (q_unit q) (q_pre q ++ ps).
Proof. revert q. induction ps as [|o ps IH]; intro q; cbn [fold_left]; [rewrite app_nil_r; destruct q; reflexivity|]. rewrite IH. cbn. rewrite <- app_assoc. reflexivity. Qed.
Definition sel_calls (l : list selitem) : list fcall := flat_map (fun s => match si_what s with SCall f a => [(f, Some a)] | _ => [] end) l.
Lemma fold_sel l cols q q' : sel_steps l cols q q' -> exists ops, Forall2 op_of (sel_calls l) ops /\ Forall2 column_of l cols /\
  q' = mkqy (match ops with [] => q_asel q | _ => SelList end) (q_agg q ++ ops) (q_gsel q) (q_grp q) (q_gpath q)
        (fst (fold_left sel_step (combine l cols) (q_ssel q, q_sel q))) (snd (fold_left sel_step (combine l cols) (q_ssel q, q_sel q))) (q_spath q) (q_fsel q) (q_flt q) (q_osel q) (q_ord q) (q_fmt q)
        (q_alias q ++ names_given si_as (combine l cols)) (q_unit q ++ names_given si_unit (combine l cols)) (q_pre q).
Proof.
  induction 1 as [q|x l col cols q q1 q2 He Hc S IH].
  - exists []. split; [constructor|]. split; [constructor|]. cbn. rewrite !app_nil_r. destruct q; reflexivity.
  - destruct IH as (ops & F1 & F2 & E). destruct He as [a u q|n a u q|f al a u o col q Ho Hcol].
    + exists ops. split; [exact F1|]. split; [constructor; [exact Hc|exact F2]|]. rewrite E. clear E. cbn [combine fold_left names_given flat_map fst snd si_as si_unit]. unfold add_names, sel_step at 3 6. cbn [si_as si_unit si_what fst snd]. destruct a, u; cbn; rewrite <- ?app_assoc; reflexivity.
    + exists ops. split; [exact F1|]. split; [constructor; [exact Hc|exact F2]|]. rewrite E. clear E. cbn [combine fold_left names_given flat_map fst snd si_as si_unit]. unfold add_names, sel_step at 3 6. cbn [si_as si_unit si_what fst snd]. destruct a, u; cbn; rewrite <- ?app_assoc; reflexivity.
    + exists (o :: ops). split; [constructor; [exact Ho|exact F1]|]. split; [constructor; [exact Hc|exact F2]|]. rewrite E. clear E. cbn [combine fold_left names_given flat_map fst snd si_as si_unit]. unfold add_names, sel_step at 3 6. cbn [si_as si_unit si_what fst snd]. destruct (q_ssel q) eqn:Es; destruct a, u; cbn; rewrite ?Es; rewrite <- ?app_assoc; destruct ops; reflexivity.
Qed.
Lemma F2_app {A B} (R : A -> B -> Prop) a b c d : Forall2 R a b -> Forall2 R c d -> Forall2 R (a ++ c) (b ++ d).
Proof. apply Forall2_app. Qed.
Lemma combine_app' {A B} (a a' : list A) (b b' : list B) : length a = length b -> combine (a ++ a') (b ++ b') = combine a b ++ combine a' b'.
Proof. revert b. induction a as [|x a IH]; intros [|y b] H; try discriminate H; [reflexivity|]. cbn [app combine]. rewrite IH by (injection H; auto). reflexivity. Qed.
Lemma F2len {A B} (R : A -> B -> Prop) a b : Forall2 R a b -> length a = length b. Proof. induction 1; cbn; auto. Qed.
Lemma described_step cl c q q' : described cl q -> cl_step c q q' -> described (cl ++ [c]) q'.
Proof.
  intros (H1 & H2 & H3 & H4 & (cols & H5 & H6 & H7 & H8) & H9 & H10 & H11 & H12 & H13 & H14) S. unfold described. rewrite !flat_map_app. cbn [flat_map].
  destruct S as [l ops q F|f d kw q F|l q|l cols2 q q' F|l q|l ds q F|l ps q F]; cbn [aggregations groups sel_items wheres orders formats lets]; rewrite ?app_nil_r.
  - rewrite fold_agg. cbn [q_agg q_asel q_grp q_gsel q_sel q_ssel q_alias q_unit q_flt q_fsel q_ord q_osel q_fmt q_pre]. split; [apply F2_app; assumption|]. split; [rewrite listed_app; destruct ops; [exact H2|reflexivity]|]. split; [exact H3|]. split; [exact H4|]. split; [exists cols; auto|]. auto 10.
  - cbn [q_agg q_asel q_grp q_gsel q_sel q_ssel q_alias q_unit q_flt q_fsel q_ord q_osel q_fmt q_pre set_format]. split; [exact H1|]. split; [exact H2|]. split; [exact H3|]. split; [exact H4|]. split; [exists cols; auto|]. split; [exact H9|]. split; [exact H10|]. split; [exact H11|]. split; [exact H12|]. split; [|exact H14]. unfold last_of. rewrite rev_app_distr. cbn [rev app]. exact F.
  - rewrite fold_group. cbn [q_agg q_asel q_grp q_gsel q_sel q_ssel q_alias q_unit q_flt q_fsel q_ord q_osel q_fmt q_pre]. split; [exact H1|]. split; [exact H2|]. split; [rewrite H3; reflexivity|]. split; [rewrite listed_app; destruct l; [exact H4|reflexivity]|]. split; [exists cols; auto|]. auto 10.
  - destruct (fold_sel _ _ _ _ F) as (ops & F1 & F2 & ->). cbn [q_agg q_asel q_grp q_gsel q_sel q_ssel q_alias q_unit q_flt q_fsel q_ord q_osel q_fmt q_pre]. split; [apply F2_app; assumption|]. split; [rewrite listed_app; destruct ops; [exact H2|reflexivity]|]. split; [exact H3|]. split; [exact H4|]. split.
    { exists (cols ++ cols2). split; [apply F2_app; assumption|]. rewrite combine_app' by (apply (F2len _ _ _ H5)). rewrite fold_left_app, H6. split; [destruct (fold_left sel_step (combine l cols2) (q_ssel q, q_sel q)); reflexivity|]. unfold names_given in *. rewrite !flat_map_app. rewrite <- H7, <- H8. split; reflexivity. }
    auto 10.
  - rewrite fold_order. cbn [q_agg q_asel q_grp q_gsel q_sel q_ssel q_alias q_unit q_flt q_fsel q_ord q_osel q_fmt q_pre]. split; [exact H1|]. split; [exact H2|]. split; [exact H3|]. split; [exact H4|]. split; [exists cols; auto|]. split; [exact H9|]. split; [exact H10|]. split; [rewrite map_app, <- H11; reflexivity|]. split; [rewrite listed_app; destruct l; [exact H12|reflexivity]|]. auto.
  - rewrite fold_filter. cbn [q_agg q_asel q_grp q_gsel q_sel q_ssel q_alias q_unit q_flt q_fsel q_ord q_osel q_fmt q_pre]. split; [exact H1|]. split; [exact H2|]. split; [exact H3|]. split; [exact H4|]. split; [exists cols; auto|]. split; [apply F2_app; assumption|]. split; [rewrite listed_app; destruct ds; [exact H10|reflexivity]|]. auto 10.
  - rewrite fold_pre. cbn [q_agg q_asel q_grp q_gsel q_sel q_ssel q_alias q_unit q_flt q_fsel q_ord q_osel q_fmt q_pre]. split; [exact H1|]. split; [exact H2|]. split; [exact H3|]. split; [exact H4|]. split; [exists cols; auto|]. split; [exact H9|]. split; [exact H10|]. split; [exact H11|]. split; [exact H12|]. split; [exact H13|]. apply F2_app; assumption.
Qed.
Lemma described_steps cl2 : forall cl q q', described cl q -> cl_steps cl2 q q' -> described (cl ++ cl2) q'.
Proof.
  induction cl2 as [|c cl2 IH]; intros cl q q' H S; inversion S; subst; [rewrite app_nil_r; exact H|].
  change (c :: cl2) with ([c] ++ cl2). rewrite app_assoc. eapply IH; [|eassumption]. eapply described_step; eassumption.
Qed.
(* the path keywords *)
Lemma erase_spec w l b l' : erase_first w l = (b, l') -> without_first w l l' b.
Proof.
  revert b l'. induction l as [|x l IH]; intros b l' E; cbn [erase_first] in E; [injection E as <- <-; constructor; intros []|].
  destruct (beq x w) eqn:Ex.
  - injection E as <- <-. apply beq_spec in Ex. subst x. apply (wf_some w [] l). intros [].
  - apply beq_false in Ex. destruct (erase_first w l) as [b1 l1]. injection E as <- <-. specialize (IH b1 l1 eq_refl). destruct IH as [l N|a c N].
    + constructor. intros [D|D]; contradiction.
    + apply (wf_some w (x :: a) c). intros [D|D]; contradiction.
Qed.
Lemma extract_spec l b l' : extract_path l = (b, l') -> path_taken l l' b.
Proof.
  unfold extract_path. destruct (erase_first (bs "path") l) as [b1 l1] eqn:E1. destruct (erase_first (bs "prop:nested") l1) as [b2 l2] eqn:E2. intro E. injection E as <- <-.
  exists l1, b1, b2. split; [apply erase_spec; exact E1|]. split; [apply erase_spec; exact E2|reflexivity].
Qed.

(* A text that spells valid clauses - keywords in any case, words quoted, escaped or bare, white space
   anywhere between tokens - is parsed without an error to the query that the clauses describe. *)
Theorem C57_query cl text : query_ok cl -> spelled (query_tokens cl) text -> exists q, calql text = (q, false) /\ describes cl q.
Proof.
  intros [Hok Hd] H. assert (A : at_tokens (query_tokens cl) (s_open text)) by (split; [exact H|left; reflexivity]).
  assert (Lf : (length cl < S (length text))%nat). { pose proof (at_len _ _ A) as L. pose proof (tokens_len cl). cbn [s_rest s_open] in L. lia. }
  destruct (parse_loop_ok (length cl) cl (mkst query0 false) (s_open text) _ (le_n _) Hok Hd eq_refl A Lf) as (q & s & E & S & A').
  pose proof (described_steps cl [] _ _ described_nil S) as D. cbn [app] in D.
  unfold calql. rewrite E. cbn [upd st_err st_q negb andb].
  assert (Ef : (if s_good s then let (c, s1) := read_char s in if s_good s1 && negb (c =? 0) && negb (c =? 10) then fail (mkst q false) else mkst q false else mkst q false) = mkst q false).
  { destruct (s_good s); [|reflexivity]. destruct (at_end_char s A') as (s1 & E1 & G1 & _). rewrite E1, G1. reflexivity. }
  unfold upd. cbn [st_err]. rewrite Ef. cbn [st_q st_err]. destruct (extract_path (q_sel q)) as [sp sl] eqn:Es. destruct (extract_path (q_grp q)) as [gp gl] eqn:Eg. eexists. split; [reflexivity|].
  destruct D as (H1 & H2 & H3 & H4 & (cols & H5 & H6 & H7 & H8) & H9 & H10 & H11 & H12 & H13 & H14).
  unfold describes. cbn [set_paths q_agg q_asel q_grp q_gsel q_gpath q_sel q_ssel q_spath q_alias q_unit q_flt q_fsel q_ord q_osel q_fmt q_pre].
  split. { clear - H1. induction H1 as [|c o l m (id & col & Ha & Ho & _) _ IH]; constructor; [exists id, col; auto|exact IH]. }
  split; [exact H2|]. split; [rewrite <- H3; apply extract_spec; exact Eg|]. split; [exact H4|].
  split. { exists cols, (q_sel q). split; [exact H5|]. split; [exact H6|]. split; [apply extract_spec; exact Es|]. split; [exact H7|exact H8]. }
  split; [exact H9|]. split; [exact H10|]. split; [exact H11|]. split; [exact H12|]. split; [exact H13|exact H14].
Qed.
