(* Proofs about the filter configuration reader *)
From Verif Require Import Base TextModel ParseModel ParseSpec ParseProofs ParseProps RFilterModel RFilterSpec.
Open Scope N_scope.

Definition fsep (c : N) : Prop := c = c_comma \/ c = c_lpar \/ c = c_rpar.
Definition stopc (r : bytes) : Prop := match r with [] => True | c :: _ => fsep c end.
Lemma fsep_ok c : fsep c -> sep_ok f_seps c.
Proof. intros [-> |[-> | ->]]; (split; [cbn; auto|split; [reflexivity|split; discriminate]]). Qed.
Lemma stops_pad sp r : spaces sp -> stopc r -> stops f_seps (sp ++ r).
Proof.
  intros Hs Hr. destruct r as [|c r].
  - rewrite app_nil_r. destruct sp as [|x sp]; [exact Logic.I|]. apply Forall_cons_iff in Hs as (Hx & _). split; [left; exact Hx|exact (isspace_not x Hx)].
  - apply stops_sep; [exact Hs|exact (fsep_ok c Hr)].
Qed.
Definition stand (s : stream) (rest : bytes) : Prop := exists p sp g, s = mks p (sp ++ rest) g /\ spaces sp /\ (g = true \/ sp ++ rest = []).
Lemma read_word_pad i w p r : padded i w -> stopc r -> exists s', read_word f_seps (mks p (i ++ r) true) = (w, s') /\ stand s' r.
Proof.
  intros (sp & i' & sp' & -> & Hsp & Hsp' & Hs & He) Hr. destruct i' as [|x i'].
  - rewrite (He eq_refl). inversion Hs; subst. cbn [app]. rewrite app_nil_r. unfold read_word. destruct r as [|c r].
    + rewrite app_nil_r. rewrite read_char_end by exact Hsp. cbn [s_good word_loop]. eexists. split; [reflexivity|]. exists (rev sp ++ p), [], false. split; [reflexivity|]. split; [constructor|right; reflexivity].
    + destruct (fsep_ok c Hr) as (Q1 & Q2 & Q3 & Q4). rewrite (read_char_ok sp p c r Hsp Q2). cbn [s_good s_unget s_prev s_rest]. rewrite loop_stop by (split; [right; exact Q1|auto]). cbn [rev alive]. eexists. split; [reflexivity|].
      exists (rev sp ++ p), [], true. split; [reflexivity|]. split; [constructor|left; reflexivity].
  - rewrite <- !app_assoc. rewrite (read_word_ok f_seps sp (x :: i') w p (sp' ++ r) Hsp Hs ltac:(discriminate) (stops_pad sp' r Hsp' Hr)). eexists. split; [reflexivity|]. eexists _, sp', (alive (sp' ++ r)). split; [reflexivity|]. split; [exact Hsp'|].
    destruct (sp' ++ r); [right; reflexivity|left; reflexivity].
Qed.
Lemma stand_char s c r : stand s (c :: r) -> isspace c = false -> exists p', read_char s = (c, mks p' r true).
Proof.
  intros (p & sp & g & -> & Hsp & Hg) Hc. assert (g = true) as -> by (destruct Hg as [H|H]; [exact H|destruct sp; discriminate H]). rewrite (read_char_ok sp p c r Hsp Hc). eexists. reflexivity.
Qed.
Lemma stand_end s : stand s [] -> exists s', read_char s = (255, s') /\ s_good s' = false.
Proof.
  intros (p & sp & g & -> & Hsp & Hg). rewrite app_nil_r in *. destruct g.
  - rewrite (read_char_end sp p Hsp). eexists. split; reflexivity.
  - destruct Hg as [Hg|Hg]; [discriminate Hg|]. subst sp. eexists. split; reflexivity.
Qed.
Lemma bare_args s r : stand s r -> (match r with [] => True | c :: _ => c = c_comma end) -> exists s', parse_args s = (Some [], s') /\ stand s' r.
Proof.
  intros S Hr. unfold parse_args. destruct S as (p & sp & g & -> & Hsp & Hg). destruct r as [|c r].
  - rewrite app_nil_r in *. destruct g.
    + rewrite (read_char_end sp p Hsp). change (255 =? c_lpar) with false. cbn [negb]. eexists. split; [reflexivity|]. exists (rev sp ++ p), [], false. split; [reflexivity|]. split; [constructor|right; reflexivity].
    + destruct Hg as [Hg|Hg]; [discriminate Hg|]. subst sp. eexists. split; [reflexivity|]. exists p, [], false. split; [reflexivity|]. split; [constructor|right; reflexivity].
  - subst c. assert (g = true) as -> by (destruct Hg as [H|H]; [exact H|destruct sp; discriminate H]). rewrite (read_char_ok sp p c_comma r Hsp eq_refl). change (c_comma =? c_lpar) with false. cbn [negb].
    eexists. split; [reflexivity|]. exists (rev sp ++ p), [], true. split; [reflexivity|]. split; [constructor|left; reflexivity].
Qed.
Lemma fsep_nospace c : fsep c -> isspace c = false. Proof. intro H. apply fsep_ok in H. apply H. Qed.

(* arguments up to a character that is no comma, or the end *)
Lemma args_ok a l : args_text a l -> forall r p ret fuel, stopc r -> (match r with c :: _ => c <> c_comma | [] => True end) -> (length a < fuel)%nat ->
  exists s', args_loop fuel (mks p (a ++ r) true) ret = (rev ret ++ filter nonempty l, match r with c :: _ => c | [] => 255 end, s') /\ match r with [] => s_good s' = false | _ :: r' => exists p', s' = mks p' r' true end.
Proof.
  induction 1 as [i w Hp|i w t l Hp Ht IH]; intros r p ret fuel Hr Hc Hf; (destruct fuel as [|fuel]; [lia|]); cbn [args_loop].
  - destruct (read_word_pad i w p r Hp Hr) as (s1 & -> & S1). assert (F : forall x, rev (match w with [] => ret | _ => w :: ret end) = x -> rev ret ++ filter nonempty [w] = x).
    { intros x <-. rewrite filter_rev_cons, rev_app_distr. cbn [filter]. destruct (nonempty w); reflexivity. }
    destruct r as [|c r].
    + destruct (stand_end s1 S1) as (s2 & -> & G). rewrite G. cbn [andb]. rewrite (F _ eq_refl). eexists. split; [reflexivity|exact G].
    + destruct (stand_char s1 c r S1 (fsep_nospace c Hr)) as (p' & ->). cbn [s_good andb]. rewrite (proj2 (N.eqb_neq c c_comma) Hc). rewrite (F _ eq_refl). eexists. split; [reflexivity|]. eexists. reflexivity.
  - rewrite <- app_assoc. cbn [app]. destruct (read_word_pad i w p (c_comma :: t ++ r) Hp (or_introl eq_refl)) as (s1 & -> & S1). destruct (stand_char s1 _ _ S1 eq_refl) as (p' & ->). cbn [s_good andb]. change (c_comma =? c_comma) with true. cbv iota.
    rewrite app_length in Hf. cbn [length] in Hf. destruct (IH r p' (match w with [] => ret | _ => w :: ret end) fuel Hr Hc ltac:(lia)) as (s' & -> & S'). exists s'. split; [|exact S'].
    f_equal. f_equal. rewrite filter_rev_cons, rev_app_distr, <- app_assoc. cbn [filter]. destruct (nonempty w); reflexivity.
Qed.
Lemma parse_args_ok s a l r : stand s (c_lpar :: a ++ c_rpar :: r) -> args_text a l -> exists p', parse_args s = (Some (filter nonempty l), mks p' r true).
Proof.
  intros S A. unfold parse_args. destruct (stand_char s _ _ S eq_refl) as (p' & ->). change (c_lpar =? c_lpar) with true. cbn [negb s_rest]. cbv iota.
  destruct (args_ok a l A (c_rpar :: r) p' [] (Datatypes.S (length (a ++ c_rpar :: r)))) as (s' & E & (p2 & ->)); [right; right; reflexivity|discriminate|rewrite app_length; lia|]. rewrite E. cbn [rev app]. change (c_rpar =? c_rpar) with true. eexists. reflexivity.
Qed.
(* an argument list that is not closed: the end of the text, or another opening parenthesis *)
Definition unclosed (r : bytes) : Prop := match r with [] => True | c :: _ => c = c_lpar end.
Lemma parse_args_open s a l r : stand s (c_lpar :: a ++ r) -> args_text a l -> unclosed r -> exists s', parse_args s = (None, s').
Proof.
  intros S A U. unfold parse_args. destruct (stand_char s _ _ S eq_refl) as (p' & ->). change (c_lpar =? c_lpar) with true. cbn [negb s_rest]. cbv iota.
  destruct (args_ok a l A r p' [] (Datatypes.S (length (a ++ r)))) as (s' & E & _).
  - destruct r; [exact Logic.I|]. right. left. exact U.
  - destruct r; [exact Logic.I|]. rewrite U. discriminate.
  - rewrite app_length. lia.
  - rewrite E. cbn [rev app]. exists s'. destruct r as [|c r]; [reflexivity|]. rewrite U. reflexivity.
Qed.

Lemma eqb_bytes_spec a b : eqb_bytes a b = true <-> a = b.
Proof. unfold eqb_bytes. destruct (list_eq_dec N.eq_dec a b); split; congruence. Qed.
Lemma eqb_bytes_neq a b : a <> b -> eqb_bytes a b = false.
Proof. unfold eqb_bytes. destruct (list_eq_dec N.eq_dec a b); congruence. Qed.

Section RX.
Variable rx_ok : bytes -> bool.
(* what an item adds to the filter *)
Definition add_item (it : fitem) (f : rfilter) : rfilter :=
  match it with
  | FName w => mkF (f_starts f) (f_match f ++ filter nonempty [w]) (f_regex f)
  | FMatch l => mkF (f_starts f) (f_match f ++ filter nonempty l) (f_regex f)
  | FStarts l => mkF (f_starts f ++ filter nonempty l) (f_match f) (f_regex f)
  | FRegex l => mkF (f_starts f) (f_match f) (f_regex f ++ filter nonempty l)
  end.
Definition item_ok (it : fitem) : Prop := Forall (fun r => rx_ok r = true) (regexes it).
Lemma find_none_ok l : Forall (fun r => rx_ok r = true) l -> find (fun r => negb (rx_ok r)) l = None.
Proof. induction 1 as [|r l H F IH]; [reflexivity|]. cbn [find]. rewrite H. exact IH. Qed.
Lemma stand_app p sp r : spaces sp -> stand (mks p (sp ++ r) true) r.
Proof. intro H. exists p, sp, true. auto. Qed.
Lemma call_ok kw i l p r : call_text kw i l -> exists s1 s2, read_word f_seps (mks p (i ++ r) true) = (kw, s1) /\ parse_args s1 = (Some (filter nonempty l), s2) /\ stand s2 r.
Proof.
  intros (k & a & sp & -> & Hk & Ha & Hsp). rewrite <- app_assoc. cbn [app]. rewrite <- app_assoc. cbn [app].
  destruct (read_word_pad k kw p (c_lpar :: a ++ c_rpar :: sp ++ r) Hk (or_intror (or_introl eq_refl))) as (s1 & E1 & S1). destruct (parse_args_ok s1 a l (sp ++ r) S1 Ha) as (p2 & E2).
  exists s1, (mks p2 (sp ++ r) true). split; [exact E1|]. split; [exact E2|exact (stand_app p2 sp r Hsp)].
Qed.
Lemma item_reads i it p r f : item_text i it -> item_ok it -> (match r with [] => True | c :: _ => c = c_comma end) -> exists s', filter_item rx_ok (mks p (i ++ r) true) f = (inl (add_item it f), s') /\ stand s' r.
Proof.
  intros T K Hc. assert (Hr : stopc r) by (destruct r as [|c r]; [exact Logic.I|left; exact Hc]). unfold filter_item.
  assert (FT : forall kw l, func_text kw i l -> exists s1 s2, read_word f_seps (mks p (i ++ r) true) = (kw, s1) /\ parse_args s1 = (Some (filter nonempty l), s2) /\ stand s2 r).
  { intros kw l [T1|(T1 & ->)]; [exact (call_ok kw i l p r T1)|]. destruct (read_word_pad i kw p r T1 Hr) as (s1 & E1 & S1). destruct (bare_args s1 r S1 Hc) as (s2 & E2 & S2). exists s1, s2. auto. }
  destruct it as [w|l|l|l]; cbn [item_text] in T.
  - destruct T as (Hp & Hk). destruct (read_word_pad i w p r Hp Hr) as (s1 & -> & S1). rewrite !eqb_bytes_neq by (intros ->; apply Hk; unfold keyword; auto). exists s1. split; [|exact S1]. destruct w as [|x w]; [|reflexivity].
    destruct f as [a b c]. cbn [add_item f_starts f_match f_regex filter nonempty]. rewrite app_nil_r. reflexivity.
  - destruct (FT k_match l T) as (s1 & s2 & -> & E2 & S2). change (eqb_bytes k_match k_match) with true. cbv iota. rewrite E2. eauto.
  - destruct (FT k_startswith l T) as (s1 & s2 & -> & E2 & S2). change (eqb_bytes k_startswith k_match) with false. change (eqb_bytes k_startswith k_startswith) with true. cbv iota. rewrite E2. eauto.
  - destruct (FT k_regex l T) as (s1 & s2 & -> & E2 & S2). change (eqb_bytes k_regex k_match) with false. change (eqb_bytes k_regex k_startswith) with false. change (eqb_bytes k_regex k_regex) with true. cbv iota. rewrite E2.
    rewrite (find_none_ok (filter nonempty l) K). eauto.
Qed.
(* the items before some more text *)
Lemma items_read ts its : Forall2 item_text ts its -> Forall item_ok its -> forall f p fuel rest, (length ts <= fuel)%nat ->
  exists p', filter_loop rx_ok fuel (mks p (flat_map (fun t => t ++ [c_comma]) ts ++ rest) true) f =
             filter_loop rx_ok (fuel - length ts) (mks p' rest true) (fold_left (fun f it => add_item it f) its f).
Proof.
  induction 1 as [|t it ts its Ht H IH]; intros K f p fuel rest Hf.
  - exists p. cbn [flat_map app length fold_left]. rewrite Nat.sub_0_r. reflexivity.
  - apply Forall_cons_iff in K as (K1 & K2). cbn [length] in Hf. destruct fuel as [|fuel]; [lia|]. cbn [flat_map filter_loop]. rewrite <- !app_assoc. cbn [app].
    destruct (item_reads t it p (c_comma :: flat_map (fun t => t ++ [c_comma]) ts ++ rest) f Ht K1 eq_refl) as (s1 & -> & S1). destruct (stand_char s1 _ _ S1 eq_refl) as (p' & ->). cbn [s_good andb]. change (c_comma =? c_comma) with true. cbv iota.
    destruct (IH K2 (add_item it f) p' fuel rest ltac:(lia)) as (p2 & E). exists p2. rewrite E. reflexivity.
Qed.
Lemma last_read t it f p fuel : item_text t it -> item_ok it -> filter_loop rx_ok (S fuel) (mks p t true) f = inl (add_item it f).
Proof.
  intros T K. cbn [filter_loop]. rewrite <- (app_nil_r t). destruct (item_reads t it p [] f T K Logic.I) as (s1 & -> & S1). destruct (stand_end s1 S1) as (s2 & -> & ->). reflexivity.
Qed.
(* the first error ends the parsing *)
Lemma open_error kw k a l r f p : keyword kw -> padded k kw -> args_text a l -> unclosed r -> exists s', filter_item rx_ok (mks p (k ++ c_lpar :: a ++ r) true) f = (inr (EParen kw), s').
Proof.
  intros Hk Hp Ha U. unfold filter_item. destruct (read_word_pad k kw p (c_lpar :: a ++ r) Hp (or_intror (or_introl eq_refl))) as (s1 & -> & S1). destruct (parse_args_open s1 a l r S1 Ha U) as (s2 & E2).
  destruct Hk as [-> |[-> | ->]].
  - change (eqb_bytes k_match k_match) with true. cbv iota. rewrite E2. eauto.
  - change (eqb_bytes k_startswith k_match) with false. change (eqb_bytes k_startswith k_startswith) with true. cbv iota. rewrite E2. eauto.
  - change (eqb_bytes k_regex k_match) with false. change (eqb_bytes k_regex k_startswith) with false. change (eqb_bytes k_regex k_regex) with true. cbv iota. rewrite E2. eauto.
Qed.
Lemma regex_error i l r f p : call_text k_regex i l -> ~ item_ok (FRegex l) -> exists x s', filter_item rx_ok (mks p (i ++ r) true) f = (inr (ERegex x), s') /\ In x l /\ rx_ok x = false.
Proof.
  intros T K. unfold filter_item. destruct (call_ok k_regex i l p r T) as (s1 & s2 & -> & E2 & S2). change (eqb_bytes k_regex k_match) with false. change (eqb_bytes k_regex k_startswith) with false. change (eqb_bytes k_regex k_regex) with true. cbv iota. rewrite E2.
  destruct (find (fun r0 => negb (rx_ok r0)) (filter nonempty l)) as [x|] eqn:E.
  - apply find_some in E as (Hin & Hx). exists x, s2. split; [reflexivity|]. apply filter_In in Hin as (Hin & _). split; [exact Hin|]. destruct (rx_ok x); [discriminate Hx|reflexivity].
  - exfalso. apply K. apply Forall_forall. intros x Hx. assert (N := List.find_none _ _ E x Hx). cbn in N. destruct (rx_ok x); [reflexivity|discriminate N].
Qed.
End RX.
