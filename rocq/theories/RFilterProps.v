(* C39: region filters *)
From Verif Require Import Base TextModel ParseModel ParseSpec ParseProofs ParseProps RFilterModel RFilterSpec RFilterProofs.
Open Scope N_scope.

Lemma joinc_flat ts t : joinc [c_comma] (ts ++ [t]) = flat_map (fun t => t ++ [c_comma]) ts ++ t.
Proof.
  destruct ts as [|x ts]; cbn [app joinc flat_map]; [apply app_nil_r|]. revert x. induction ts as [|y ts IH]; intro x; cbn [app flat_map]; rewrite <- !app_assoc; cbn [app]; [rewrite app_nil_r; reflexivity|].
  specialize (IH y). rewrite <- !app_assoc in IH. rewrite IH. cbn [app]. reflexivity.
Qed.
Lemma flat_len (ts : list bytes) r : (length ts <= length (flat_map (fun t => t ++ [c_comma]) ts ++ r))%nat.
Proof. induction ts as [|t ts IH]; cbn [flat_map length app]; [lia|]. rewrite <- !app_assoc. cbn [app]. rewrite app_length. cbn [length]. lia. Qed.
Lemma F2_snoc (A B : Type) (R : A -> B -> Prop) l m x : Forall2 R (l ++ [x]) m -> exists m' y, m = m' ++ [y] /\ Forall2 R l m' /\ R x y.
Proof. intro H. apply Forall2_app_inv_l in H as (m1 & m2 & H1 & H2 & ->). inversion H2 as [|? y ? ? Hy Hn]; subst. inversion Hn; subst. eauto. Qed.

Section RX.
Variable rx_ok : bytes -> bool.
Variable rx_match : bytes -> bytes -> bool.
Notation parse := (parse_filter_config rx_ok).
Definition collect (its : list fitem) : rfilter := fold_left (fun f it => add_item it f) its (mkF [] [] []).
Lemma collect_snoc its it : collect (its ++ [it]) = add_item it (collect its).
Proof. unfold collect. rewrite fold_left_app. reflexivity. Qed.
Lemma parse_collect ts its : ts <> [] -> Forall2 item_text ts its -> Forall (item_ok rx_ok) its ->
  parse (joinc [c_comma] ts) = inl (match f_match (collect its), f_starts (collect its), f_regex (collect its) with [], [], [] => None | _, _, _ => Some (collect its) end).
Proof.
  intros Hne H K. destruct (exists_last Hne) as (ts' & t & ->). destruct (F2_snoc _ _ _ _ _ _ H) as (its' & it & -> & H' & Ht). apply Forall_app in K as (K' & K2). apply Forall_cons_iff in K2 as (K2 & _).
  unfold parse_filter_config, s_open. rewrite joinc_flat. 
  destruct (items_read rx_ok ts' its' H' K' (mkF [] [] []) [] (S (length (flat_map (fun t => t ++ [c_comma]) ts' ++ t))) t) as (p' & ->); [assert (X := flat_len ts' t); lia|].
  assert (X := flat_len ts' t). replace (S (length (flat_map (fun t => t ++ [c_comma]) ts' ++ t)) - length ts')%nat with (S (length (flat_map (fun t => t ++ [c_comma]) ts' ++ t) - length ts'))%nat by lia.
  rewrite (last_read rx_ok t it _ p' _ Ht K2). fold (collect its'). rewrite <- collect_snoc. reflexivity.
Qed.
(* what the collected filter matches *)
Lemma ne_in w l : In w (filter nonempty l) <-> In w l /\ w <> [].
Proof. rewrite filter_In. destruct w; cbn; intuition congruence. Qed.
Lemma prefix_spec w v : (length w <=? length v)%nat && eqb_bytes w (firstn (length w) v) = true <-> exists r, v = w ++ r.
Proof.
  rewrite andb_true_iff, Nat.leb_le, eqb_bytes_spec. split.
  - intros (_ & E). exists (skipn (length w) v). rewrite E at 1. symmetry. apply firstn_skipn.
  - intros (r & ->). split; [rewrite app_length; lia|]. rewrite firstn_app, Nat.sub_diag, firstn_all. cbn [firstn]. rewrite app_nil_r. reflexivity.
Qed.
Lemma exact_spec w v : (length v =? length w)%nat && eqb_bytes w (firstn (length w) v) = true <-> v = w.
Proof.
  rewrite andb_true_iff, Nat.eqb_eq, eqb_bytes_spec. split.
  - intros (E & H). rewrite <- E, firstn_all in H. congruence.
  - intros ->. rewrite firstn_all. auto.
Qed.
Lemma rmatch_spec v f : rmatch rx_match v f = true <->
  (exists w r, In w (f_starts f) /\ v = w ++ r) \/ In v (f_match f) \/ (exists x, In x (f_regex f) /\ rx_match x v = true).
Proof.
  unfold rmatch. rewrite !orb_true_iff, !existsb_exists. split.
  - intros [[(w & H & E)|(w & H & E)]|(w & H & E)].
    + apply prefix_spec in E as (r & E). eauto.
    + apply exact_spec in E. subst. auto.
    + eauto.
  - intros [(w & r & H & E)|[H|(x & H & E)]].
    + left. left. exists w. split; [exact H|]. apply prefix_spec. eauto.
    + left. right. exists v. split; [exact H|]. apply exact_spec. reflexivity.
    + right. eauto.
Qed.
Lemma rmatch_collect its v : rmatch rx_match v (collect its) = true <-> exists it, In it its /\ selects rx_match it v.
Proof.
  rewrite rmatch_spec. induction its as [|it its IH] using rev_ind.
  - cbn. split; [intros [(? & ? & [] & _)|[[]|(? & [] & _)]]|intros (? & [] & _)].
  - rewrite collect_snoc. assert (S : (exists x, In x (its ++ [it]) /\ selects rx_match x v) <-> (exists x, In x its /\ selects rx_match x v) \/ selects rx_match it v).
    { split; [intros (x & H & E); apply in_app_iff in H as [H|[<-|[]]]; eauto|intros [(x & H & E)|E]; [exists x|exists it]; rewrite in_app_iff; cbn; auto]. }
    rewrite S, <- IH. clear S IH. destruct it as [w|l|l|l]; cbn [add_item f_starts f_match f_regex selects]; setoid_rewrite in_app_iff; setoid_rewrite ne_in.
    + cbn [In]. split; [intros [H|[[H|([H|[]] & H')]|H]]; subst; auto 6|intros [[H|[H|H]]|(H & ->)]; auto 8].
    + split; [intros [H|[[H|(H & H')]|H]]; eauto 6|intros [[H|[H|H]]|(w & H & H' & ->)]; auto 8].
    + split; [intros [(w & r & [H|(H & H')] & E)|[H|H]]; eauto 8|intros [[(w & r & H & E)|[H|H]]|(w & r & H & H' & ->)]; eauto 8].
    + split; [intros [H|[H|(x & [H|(H & H')] & E)]]; eauto 8|intros [[H|[H|(x & H & E)]]|(x & H & H' & E)]; eauto 10].
Qed.
Lemma collect_empty its : f_match (collect its) = [] /\ f_starts (collect its) = [] /\ f_regex (collect its) = [] <-> ~ exists it, In it its /\ has_pattern it.
Proof.
  induction its as [|it its IH] using rev_ind.
  - cbn. split; [intros _ (? & [] & _)|auto].
  - rewrite collect_snoc. assert (S : (exists x, In x (its ++ [it]) /\ has_pattern x) <-> (exists x, In x its /\ has_pattern x) \/ has_pattern it).
    { split; [intros (x & H & E); apply in_app_iff in H as [H|[<-|[]]]; eauto|intros [(x & H & E)|E]; [exists x|exists it]; rewrite in_app_iff; cbn; auto]. }
    assert (Fe : forall l, filter nonempty l = [] <-> ~ exists w, In w l /\ w <> []).
    { intro l. split; [intros E (w & H); apply ne_in in H; rewrite E in H; destruct H|]. intro N. destruct (filter nonempty l) as [|w r] eqn:E; [reflexivity|]. exfalso. apply N. exists w. apply ne_in. rewrite E. left. reflexivity. }
    assert (Ae : forall a b : list bytes, a ++ b = [] <-> a = [] /\ b = []) by (intros [|? ?] [|? ?]; cbn; split; intuition congruence).
    rewrite S. clear S. destruct it as [w|l|l|l]; cbn [add_item f_starts f_match f_regex has_pattern]; rewrite Ae, Fe; try tauto.
    assert (W : (exists w0, In w0 [w] /\ w0 <> []) <-> w <> []) by (split; [intros (x & [<-|[]] & H); exact H|intro H; exists w; cbn; auto]). rewrite W. tauto.
Qed.

Lemma any_dec its : (exists it, In it its /\ has_pattern it) \/ ~ exists it, In it its /\ has_pattern it.
Proof.
  assert (Nd : forall l : list bytes, (exists w, In w l /\ w <> []) \/ ~ exists w, In w l /\ w <> []).
  { induction l as [|w l [(x & H & E)|N]]; [right; intros (? & [] & _)|left; exists x; cbn; auto|]. destruct w as [|b w]; [right; intros (x & [<-|H] & E); [congruence|apply N; eauto]|left; eexists; split; [left; reflexivity|discriminate]]. }
  induction its as [|it its [(x & H & E)|N]]; [right; intros (? & [] & _)|left; exists x; cbn; auto|].
  assert (D : has_pattern it \/ ~ has_pattern it) by (destruct it as [w|l|l|l]; cbn [has_pattern]; [destruct w; [right; congruence|left; discriminate]|apply Nd..]).
  destruct D as [D|D]; [left; exists it; cbn; auto|right; intros (x & [<-|H] & E); [exact (D E)|apply N; eauto]].
Qed.

(* C39: a configuration text that spells a list of items - names, match(...), startswith(...), regex(...), with
   any quoting and white space - is accepted, and a region passes the filter exactly if it is selected by no
   exclude item and, if there are include patterns, by an include item *)
Theorem C39_pass ti ii te ie : ti <> [] -> te <> [] -> Forall2 item_text ti ii -> Forall2 item_text te ie ->
  Forall (fun it => Forall (fun r => rx_ok r = true) (regexes it)) (ii ++ ie) ->
  exists rf, from_config rx_ok (joinc [c_comma] ti) (joinc [c_comma] te) = (rf, None) /\
    (forall v, pass rx_match rf v = true <->
       ~ (exists it, In it ie /\ selects rx_match it v) /\
       ((exists it, In it ii /\ has_pattern it) -> exists it, In it ii /\ selects rx_match it v)) /\
    (has_filters rf = true <-> exists it, In it (ii ++ ie) /\ has_pattern it).
Proof.
  intros N1 N2 H1 H2 K. apply Forall_app in K as (K1 & K2). unfold from_config. rewrite (parse_collect ti ii N1 H1 K1), (parse_collect te ie N2 H2 K2).
  set (opt := fun its => match f_match (collect its), f_starts (collect its), f_regex (collect its) with [], [], [] => None | _, _, _ => Some (collect its) end). fold (opt ii) (opt ie).
  assert (O : forall its, opt its = None /\ ~ (exists it, In it its /\ has_pattern it) \/ opt its = Some (collect its) /\ exists it, In it its /\ has_pattern it).
  { intro its. assert (C := collect_empty its). assert (E : opt its = None /\ (f_match (collect its) = [] /\ f_starts (collect its) = [] /\ f_regex (collect its) = []) \/ opt its = Some (collect its) /\ ~ (f_match (collect its) = [] /\ f_starts (collect its) = [] /\ f_regex (collect its) = [])).
    { unfold opt. destruct (f_match (collect its)), (f_starts (collect its)), (f_regex (collect its)); (left; split; [reflexivity|auto]; fail) || (right; split; [reflexivity|]; intros (? & ? & ?); discriminate). }
    destruct E as [(E & Z)|(E & Z)]; [left; split; [exact E|apply C; exact Z]|right; split; [exact E|]]. destruct (any_dec its) as [Y|Y]; [exact Y|]. exfalso. apply Z, C, Y. }
  eexists. split; [reflexivity|]. split.
  - intro v. unfold pass. cbn [rf_excl rf_incl].
    assert (Se : forall its, (exists it, In it its /\ selects rx_match it v) -> exists it, In it its /\ has_pattern it).
    { intros its (it & H & S). exists it. split; [exact H|]. destruct it as [w|l|l|l]; cbn [selects has_pattern] in *; [tauto|destruct S as (w & ? & ? & ?); eauto|destruct S as (w & r & ? & ? & ?); eauto|destruct S as (w & ? & ? & ?); eauto]. }
    assert (X : (if match opt ie with Some e => rmatch rx_match v e | None => false end then true else false) = true <-> exists it, In it ie /\ selects rx_match it v).
    { destruct (O ie) as [(-> & N)|(-> & _)]; [split; [discriminate|intro H; exfalso; exact (N (Se ie H))]|]. rewrite <- rmatch_collect. destruct (rmatch rx_match v (collect ie)); split; auto. }
    destruct (match opt ie with Some e => rmatch rx_match v e | None => false end).
    + split; [discriminate|]. intros (H & _). exfalso. apply H, X. reflexivity.
    + assert (NX : ~ exists it, In it ie /\ selects rx_match it v) by (intro H; apply X in H; discriminate H). destruct (O ii) as [(-> & N)|(-> & P)].
      * split; [intros _; split; [exact NX|intro H; contradiction]|reflexivity].
      * rewrite rmatch_collect. split; [intro H; split; [exact NX|auto]|intros (_ & H); exact (H P)].
  - unfold has_filters. cbn [rf_excl rf_incl].
    assert (U : (exists it, In it (ii ++ ie) /\ has_pattern it) <-> (exists it, In it ii /\ has_pattern it) \/ exists it, In it ie /\ has_pattern it).
    { split; [intros (it & H & E); apply in_app_iff in H as [H|H]; eauto|intros [(it & H & E)|(it & H & E)]; exists it; rewrite in_app_iff; auto]. }
    rewrite U. destruct (O ie) as [(E1 & N)|(E1 & P)], (O ii) as [(E2 & N')|(E2 & P')]; rewrite E1, ?E2; (split; [intro; try discriminate; auto|auto]). intros [H|H]; contradiction.
Qed.
(* an item that is not closed, or a regular expression that does not compile, anywhere in the include or the
   exclude text after well-formed items: the error is reported and no filter is in effect *)
Definition broken (t : bytes) : Prop :=
  exists ts its rest, t = flat_map (fun x => x ++ [c_comma]) ts ++ rest /\ Forall2 item_text ts its /\ Forall (fun it => Forall (fun r => rx_ok r = true) (regexes it)) its /\
    ((exists kw k a l r, rest = k ++ c_lpar :: a ++ r /\ keyword kw /\ padded k kw /\ args_text a l /\ unclosed r) \/
     (exists i l r, rest = i ++ r /\ call_text k_regex i l /\ ~ Forall (fun r => rx_ok r = true) (regexes (FRegex l)))).
Lemma broken_error t : broken t -> exists e, parse t = inr e.
Proof.
  intros (ts & its & rest & -> & H & K & E). unfold parse_filter_config, s_open. assert (X := flat_len ts rest).
  destruct (items_read rx_ok ts its H K (mkF [] [] []) [] (S (length (flat_map (fun t => t ++ [c_comma]) ts ++ rest))) rest) as (p' & ->); [lia|].
  rewrite Nat.sub_succ_l by exact X. cbn [filter_loop].
  destruct E as [(kw & k & a & l & r & -> & Hk & Hp & Ha & U)|(i & l & r & -> & T & N)].
  - destruct (open_error rx_ok kw k a l r (fold_left (fun f it => add_item it f) its (mkF [] [] [])) p' Hk Hp Ha U) as (s' & ->). eauto.
  - destruct (regex_error rx_ok i l r (fold_left (fun f it => add_item it f) its (mkF [] [] [])) p' T N) as (x & s' & -> & _). eauto.
Qed.
Theorem C39_error incl excl : broken incl \/ broken excl ->
  (exists e, snd (from_config rx_ok incl excl) = Some e) /\ (forall v, pass rx_match (fst (from_config rx_ok incl excl)) v = true) /\ has_filters (fst (from_config rx_ok incl excl)) = false.
Proof.
  intro H. unfold from_config. destruct H as [H|H].
  - apply broken_error in H as (e & ->). cbn. split; [eauto|]. auto.
  - apply broken_error in H as (e & H). rewrite H. destruct (parse incl); cbn; (split; [eauto|auto]).
Qed.
End RX.

(* ---------- a concrete configuration ---------- *)
Lemma plain_spells w : forallb (fun c => negb (c =? 34) && negb (c =? 92) && negb (isspace c || is_one_of c f_seps)) w = true -> spells f_seps w w.
Proof.
  induction w as [|c w IH]; [constructor|]. cbn [forallb]. rewrite !andb_true_iff, !negb_true_iff, !N.eqb_neq. intros (((H1 & H2) & H3) & H4). constructor; [|exact (IH H4)]. split; [exact H1|]. split; [exact H2|]. intro D. apply delim_spec in D. congruence.
Qed.
Lemma pad_plain sp w sp' : spaces sp -> spaces sp' -> w <> [] -> forallb (fun c => negb (c =? 34) && negb (c =? 92) && negb (isspace c || is_one_of c f_seps)) w = true -> padded (sp ++ w ++ sp') w.
Proof. intros. exists sp, w, sp'. split; [reflexivity|]. split; [assumption|]. split; [assumption|]. split; [apply plain_spells; assumption|contradiction]. Qed.
Lemma pad_quote w : padded (quote w) w.
Proof. exists [], (quote w), []. split; [rewrite app_nil_r; reflexivity|]. split; [constructor|]. split; [constructor|]. split; [apply quote_spells|discriminate]. Qed.
(* include: foo , startswith("a b",x)      exclude: regex(.*z) *)
Definition ex_incl : list bytes := [[102; 111; 111; 32]; [32] ++ k_startswith ++ [40] ++ quote [97; 32; 98] ++ [44; 120; 41]].
Definition ex_excl : list bytes := [k_regex ++ [40; 46; 42; 122; 41]].
Definition ex_rx (r v : bytes) : bool := last v 0 =? 122.
Lemma sp1 : spaces [32]. Proof. constructor; [reflexivity|constructor]. Qed.
Example C39_ex_hyps : Forall2 item_text ex_incl [FName [102; 111; 111]; FStarts [[97; 32; 98]; [120]]] /\ Forall2 item_text ex_excl [FRegex [[46; 42; 122]]].
Proof.
  split.
  - constructor; [|constructor; [|constructor]].
    + split; [apply (pad_plain [] [102; 111; 111] [32]); [constructor|apply sp1|discriminate|reflexivity]|]. intros [H|[H|H]]; discriminate H.
    + left. exists ([32] ++ k_startswith ++ []), (quote [97; 32; 98] ++ 44 :: [] ++ [120] ++ []), []. split; [reflexivity|]. split; [apply pad_plain; [apply sp1|constructor|discriminate|reflexivity]|]. split; [|constructor].
      constructor; [apply pad_quote|]. constructor. apply pad_plain; [constructor|constructor|discriminate|reflexivity].
  - constructor; [|constructor]. left. exists ([] ++ k_regex ++ []), ([] ++ [46; 42; 122] ++ []), []. split; [reflexivity|]. split; [apply pad_plain; [constructor|constructor|discriminate|reflexivity]|]. split; [|constructor]. constructor. apply pad_plain; [constructor|constructor|discriminate|reflexivity].
Qed.
Example C39_ex : let rf := fst (from_config (fun _ => true) (joinc [c_comma] ex_incl) (joinc [c_comma] ex_excl)) in
  pass ex_rx rf [102; 111; 111] = true /\ pass ex_rx rf [97; 32; 98; 99] = true /\ pass ex_rx rf [97; 32; 98; 122] = false /\ pass ex_rx rf [120; 122] = false /\ pass ex_rx rf [102; 111] = false.
Proof. vm_compute. auto. Qed.
(* "foo,match(a" is broken *)
Example C39_ex_broken : broken (fun _ => true) ([102; 111; 111; 44] ++ k_match ++ [40; 97]).
Proof.
  exists [[] ++ [102; 111; 111] ++ []], [FName [102; 111; 111]], (k_match ++ [40; 97]). split; [reflexivity|]. split; [|split].
  - constructor; [|constructor]. split; [apply pad_plain; [constructor|constructor|discriminate|reflexivity]|]. intros [H|[H|H]]; discriminate H.
  - constructor; [constructor|constructor].
  - left. exists k_match, ([] ++ k_match ++ []), ([] ++ [97] ++ []), [[97]], []. split; [reflexivity|]. split; [left; reflexivity|]. split; [apply pad_plain; [constructor|constructor|discriminate|reflexivity]|]. split; [|exact Logic.I]. constructor. apply pad_plain; [constructor|constructor|discriminate|reflexivity].
Qed.
(* What the reader accepts besides: text after an item that is not a comma is ignored without an error, so that
   "a b" and "a(b),c" select a only; the quoted word "match" is still taken for the function, so that no filter
   can be written for a region called match except match(match) *)
Example C39_ignored : from_config (fun _ => true) [97; 32; 98] [] = (mkRF (Some (mkF [] [[97]] [])) None, None) /\
  from_config (fun _ => true) [97; 40; 98; 41; 44; 99] [] = (mkRF (Some (mkF [] [[97]] [])) None, None) /\
  from_config (fun _ => true) (quote k_match) [] = (mkRF None None, None).
Proof. vm_compute. auto. Qed.
