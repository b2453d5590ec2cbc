(* Reading config strings *)
From Coq Require Import Strings.Ascii Strings.String.
From Verif Require Import Base TextModel ParseModel ParseSpec ParseProofs ParseProps RConfigModel JsonModel CfgModel CfgMgrModel CfgSpec CfgProofs CfgTextSpec.
Open Scope N_scope.

Definition dsame (a b : bytes) : Prop := forall c, delim a c <-> delim b c.
Lemma spells_same a b i w : dsame a b -> spells a i w -> spells b i w.
Proof.
  intros E H. induction H as [|c i w (H1 & H2 & H3) H IH|c i w H IH|i w i' w' Hq H IH]; [constructor|constructor; [|exact IH]|constructor; exact IH|constructor; [exact Hq|exact IH]].
  split; [exact H1|split; [exact H2|]]. intro D. apply H3. apply E. exact D.
Qed.
Lemma stops_same a b t : dsame a b -> stops a t -> stops b t.
Proof. intros E. destruct t as [|c t]; [auto|]. intros (H & H'). split; [apply E; exact H|exact H']. Qed.
Definition cseps_of (k : ctok) : bytes := match k with CFile _ => [44; 40; 41] | _ => cseps end.
Lemma same_cseps k : dsame (cdelims k) (cseps_of k).
Proof. intro c. unfold delim. destruct k; cbn; intuition (subst; auto 12). Qed.

Definition tail_ok (tail : bytes) : Prop := match tail with [] => True | c :: _ => isspace c = false end.
Definition at_ (tail : bytes) (r : list ctok) (s : stream) : Prop := ctext tail r (s_rest s) /\ (s_good s = true \/ s_rest s = []).
Definition is_word (k : ctok) : Prop := match k with CName _ | CFile _ => True | _ => False end.
(* the next character *)
Definition next_ch (tail : bytes) (r : list ctok) : option N := match r with [] => hd_error tail | CChar c :: _ => Some c | CNest _ :: _ => Some 40 | _ => None end.

Lemma stream_eta s : s = mks (s_prev s) (s_rest s) (s_good s). Proof. destruct s; reflexivity. Qed.
Lemma ctext_cons tail k r t : ctext tail (k :: r) t -> t <> [].
Proof. intro H. inversion H; subst; intro E; apply app_eq_nil in E; destruct E as [_ E]; try discriminate E. apply app_eq_nil in E. destruct E. contradiction. Qed.
Lemma at_alive tail r p t : ctext tail r t -> at_ tail r (mks p t (alive t)).
Proof. intro H. split; [exact H|]. cbn [s_good s_rest]. destruct t; [right|left]; reflexivity. Qed.
Lemma at_cons_good tail k r s : at_ tail (k :: r) s -> s_good s = true.
Proof. intros [H [G|G]]; [exact G|]. rewrite G in H. apply ctext_cons in H. congruence. Qed.
Lemma at_word_ok tail k r s w : at_ tail (k :: r) s -> word_of k w -> exists s', read_word (cseps_of k) s = (w, s') /\ at_ tail r s'.
Proof.
  intros H Hw. assert (G := at_cons_good _ _ _ _ H). destruct H as [H _]. rewrite (stream_eta s), G. remember (s_rest s) as t eqn:Et. clear Et. remember (k :: r) as l eqn:El.
  destruct H as [|k' w' r' sp i t Hsp Hw' Hi Hs Ht Hr|c r' sp t Hsp Hc Hr|u r' sp t Hsp Hb Hr]; [discriminate El| | |]; injection El as <- <-; try destruct Hw.
  assert (w' = w) by (destruct k'; cbn in *; try contradiction; congruence). subst w'.
  rewrite (read_word_ok _ sp i w _ t Hsp (spells_same _ _ _ _ (same_cseps k') Hs) Hi (stops_same _ _ _ (same_cseps k') Ht)). eexists. split; [reflexivity|]. apply at_alive. exact Hr.
Qed.
Lemma at_char_ok tail c r s : at_ tail (CChar c :: r) s -> exists s', read_char s = (c, s') /\ s_good s' = true /\ at_ tail r s' /\ at_ tail (CChar c :: r) (s_unget s').
Proof.
  intro H. assert (G := at_cons_good _ _ _ _ H). destruct H as [H _]. rewrite (stream_eta s), G. remember (s_rest s) as t eqn:Et. clear Et. remember (CChar c :: r) as l eqn:El.
  destruct H as [|k' w' r' sp i t Hsp Hw' Hi Hs Ht Hr|c' r' sp t Hsp Hc Hr|u r' sp t Hsp Hb Hr]; [discriminate El| | |discriminate El]; injection El as -> ->; [destruct Hw'|].
  rewrite read_char_ok by assumption. eexists. split; [reflexivity|]. split; [reflexivity|]. split; [split; [exact Hr|left; reflexivity]|]. split; [|left; reflexivity]. exact (ct_char tail c r [] t (Forall_nil _) Hc Hr).
Qed.
Lemma at_nest_ok tail u r s : at_ tail (CNest u :: r) s -> exists s1 s2 s3, read_char s = (40, s1) /\ s_good s1 = true /\ read_nested_text 40 41 s1 = (u, s2) /\ read_char s2 = (41, s3) /\ at_ tail r s3.
Proof.
  intro H. assert (G := at_cons_good _ _ _ _ H). destruct H as [H _]. rewrite (stream_eta s), G. remember (s_rest s) as t eqn:Et. clear Et. remember (CNest u :: r) as l eqn:El.
  destruct H as [|k' w' r' sp i t Hsp Hw' Hi Hs Ht Hr|c' r' sp t Hsp Hc Hr|u' r' sp t Hsp Hb Hr]; [discriminate El| |discriminate El|]; injection El as -> ->; [destruct Hw'|].
  rewrite read_char_ok by (assumption || reflexivity). eexists. eexists. eexists. split; [reflexivity|]. split; [reflexivity|]. split; [apply read_nested_ok; try exact Hb; try (split; discriminate); discriminate|].
  split; [apply (read_char_ok []); [constructor|reflexivity]|]. split; [exact Hr|left; reflexivity].
Qed.
Lemma at_end_ok tail s : tail_ok tail -> at_ tail [] s ->
  match tail with
  | [] => exists s', read_char s = (255, s') /\ s_good s' = false /\ at_ tail [] s' /\ s_unget s' = s'
  | c :: _ => exists s', read_char s = (c, s') /\ s_good s' = true /\ at_ tail [] (s_unget s')
  end.
Proof.
  intros T [H G]. remember (s_rest s) as t eqn:Et. assert (X : exists sp, t = sp ++ tail /\ spaces sp) by (inversion H; subst; eauto). destruct X as (sp & -> & Hsp). clear H. destruct tail as [|c tail].
  - rewrite app_nil_r in Et. destruct (s_good s) eqn:E.
    + rewrite (stream_eta s), E, <- Et, read_char_end by exact Hsp. eexists. split; [reflexivity|]. split; [reflexivity|]. split; [split; [exact (ct_end [] [] (Forall_nil _))|right; reflexivity]|reflexivity].
    + destruct G as [G|G]; [discriminate G|]. rewrite app_nil_r in G. subst sp. exists s. unfold read_char. rewrite <- Et. cbn [length get_nonspace]. unfold s_get. rewrite E. split; [reflexivity|]. split; [reflexivity|]. split; [split; [rewrite <- Et; exact (ct_end [] [] (Forall_nil _))|right; symmetry; exact Et]|unfold s_unget; rewrite E; reflexivity].
  - destruct G as [G|G]; [|apply app_eq_nil in G; destruct G as [_ G]; discriminate G]. rewrite (stream_eta s), G, <- Et, read_char_ok by (exact Hsp || exact T). eexists. split; [reflexivity|]. split; [reflexivity|]. split; [exact (ct_end (c :: tail) [] (Forall_nil _))|left; reflexivity].
Qed.
(* looking at the next character *)
Definition char_or_end (r : list ctok) : Prop := match r with [] => True | CChar _ :: _ => True | _ => False end.
Lemma at_peek tail r s : tail_ok tail -> at_ tail r s -> char_or_end r ->
  match next_ch tail r with
  | Some c => exists s', read_char s = (c, s') /\ s_good s' = true /\ at_ tail r (s_unget s')
  | None => exists s', read_char s = (255, s') /\ s_good s' = false /\ at_ tail r s' /\ s_unget s' = s'
  end.
Proof.
  intros T H C. destruct r as [|[| |c|] r]; try contradiction.
  - assert (X := at_end_ok tail s T H). cbn [next_ch]. destruct tail; cbn [hd_error]; exact X.
  - destruct (at_char_ok _ _ _ _ H) as (s' & E & Gd & _ & A). exists s'. auto.
Qed.
Lemma ctext_len tail r t : ctext tail r t -> (length r <= length t)%nat.
Proof.
  induction 1 as [sp H|k w r sp i t Hsp Hw Hi Hs Ht Hr IH|c r sp t Hsp Hc Hr IH|u r sp t Hsp Hb Hr IH]; cbn [length]; [lia| | |]; rewrite !app_length; cbn [length]; rewrite ?app_length; cbn [length]; try lia. destruct i; [congruence|]. cbn [length]. lia.
Qed.

(* ---------- values ---------- *)
Definition no_value (o : option N) : Prop := match o with Some c => c <> 61 /\ c <> 40 | None => True end.
Lemma read_value_ok tail v r s : tail_ok tail -> value_ok v -> at_ tail (vtokens v ++ r) s -> (v = VNone -> char_or_end r /\ no_value (next_ch tail r)) ->
  exists s', read_value s = (vtext v, false, s') /\ at_ tail r s'.
Proof.
  intros T Hv H Hn. destruct v as [|w|u]; cbn [vtokens app vtext] in *.
  - destruct (Hn eq_refl) as (C & N). assert (P := at_peek tail r s T H C). unfold read_value. destruct (next_ch tail r) as [c|].
    + destruct P as (s' & E & _ & A). rewrite E. destruct N as (N1 & N2). rewrite (proj2 (N.eqb_neq c 61) N1), (proj2 (N.eqb_neq c 40) N2). exists (s_unget s'). auto.
    + destruct P as (s' & E & _ & A & U). rewrite E. change (255 =? 61) with false. change (255 =? 40) with false. cbv iota. rewrite U. exists s'. auto.
  - destruct (at_char_ok _ _ _ _ H) as (s1 & E & _ & A & _). destruct (at_word_ok tail (CName w) r s1 w A eq_refl) as (s2 & E2 & A2). unfold read_value. rewrite E. change (61 =? 61) with true. cbv iota. change (read_word cseps s1 = (w, s2)) in E2. rewrite E2. exists s2. destruct w; [contradiction|auto].
  - destruct (at_nest_ok _ _ _ _ H) as (s1 & s2 & s3 & E1 & _ & E2 & E3 & A). unfold read_value. rewrite E1. change (40 =? 61) with false. change (40 =? 40) with true. cbv iota. rewrite E2, E3. exists s3. auto.
Qed.

(* ---------- argument lists ---------- *)
Lemma or_true_v v : or_true (vtext v) = vvalue v.
Proof. unfold or_true, vvalue. destruct (vtext v); reflexivity. Qed.
Definition arg_ok (opts : ospec) (p : bytes * cvalue) : Prop := fst p <> [] /\ value_ok (snd p) /\ (fst p = bs "metadata" \/ known opts (fst p) = true).
Definition given (p : bytes * cvalue) : bytes * bytes := (fst p, vvalue (snd p)).
Lemma ccommas_cons {A} (f : A -> list ctok) x l r : ccommas f (x :: l) ++ r = f x ++ (match l with [] => r | _ => CChar 44 :: ccommas f l ++ r end).
Proof. cbn [ccommas]. destruct l as [|y l]; [cbn; rewrite app_nil_r; reflexivity|]. cbn [ccommas flat_map]. repeat (rewrite <- !app_assoc; cbn [app]). reflexivity. Qed.
(* one argument; then comes a comma, or something else *)
Lemma arg_step tail opts p r s fuel acc : tail_ok tail -> arg_ok opts p -> char_or_end r -> no_value (next_ch tail r) -> at_ tail (arg_tokens p ++ r) s ->
  exists s', at_ tail r s' /\ args_loop (S fuel) false opts s acc =
    let (c, s2) := read_char s' in
    if s_good s2 && (c =? 44) then args_loop fuel false opts s2 (acc ++ [given p]) else if c =? 41 then (acc ++ [given p], false, s2) else ([], true, s2).
Proof.
  intros T (H1 & H2 & H3) C N H. destruct p as (k, v). cbn [fst snd] in *. cbn [arg_tokens fst snd app] in H. destruct (at_word_ok tail (CName k) _ s k H eq_refl) as (s1 & E1 & A1). change (read_word cseps s = (k, s1)) in E1.
  destruct (read_value_ok tail v r s1 T H2 A1 ltac:(intros _; split; assumption)) as (s2 & E2 & A2). exists s2. split; [exact A2|]. cbn [args_loop]. rewrite E1. destruct k as [|a k]; [contradiction|]. set (key := a :: k) in *.
  assert (X : negb (match lookup opts key with Some _ => true | None => false end) && negb (keq key (bs "metadata")) = false). { destruct H3 as [H3|H3]; [rewrite (proj2 (keq_spec _ _) H3); apply andb_false_r|]. unfold known in H3. rewrite H3. reflexivity. }
  rewrite X, E2. cbn [orb]. rewrite or_true_v. reflexivity.
Qed.
Lemma args_run tail opts l : Forall (arg_ok opts) l -> l <> [] -> forall r s fuel acc, tail_ok tail -> char_or_end r -> no_value (next_ch tail r) -> at_ tail (ccommas arg_tokens l ++ r) s -> (length l <= fuel)%nat ->
  exists s' fuel', at_ tail r s' /\ (fuel = length l + fuel')%nat /\ args_loop fuel false opts s acc =
    let (c, s2) := read_char s' in
    if s_good s2 && (c =? 44) then args_loop fuel' false opts s2 (acc ++ map given l) else if c =? 41 then (acc ++ map given l, false, s2) else ([], true, s2).
Proof.
  intro H. induction H as [|p l Hp H IH]; [congruence|]. intros _ r s fuel acc T C N A L. rewrite ccommas_cons in A. destruct fuel as [|fuel]; [cbn [length] in L; lia|]. destruct l as [|q l].
  - destruct (arg_step tail opts p r s fuel acc T Hp C N A) as (s' & A' & E). exists s', fuel. split; [exact A'|]. split; [reflexivity|]. exact E.
  - destruct (arg_step tail opts p (CChar 44 :: ccommas arg_tokens (q :: l) ++ r) s fuel acc T Hp Logic.I ltac:(split; discriminate) A) as (s1 & A1 & E1). destruct (at_char_ok _ _ _ _ A1) as (s2 & E2 & G2 & A2 & _). rewrite E2, G2 in E1. change (44 =? 44) with true in E1. cbn [andb] in E1. cbv iota in E1.
    destruct (IH ltac:(discriminate) r s2 fuel (acc ++ [given p]) T C N A2 ltac:(cbn [length] in *; lia)) as (s' & f' & A' & Ef & E'). exists s', f'. split; [exact A'|]. split; [cbn [length] in *; lia|]. rewrite E1, E'. cbn [map]. rewrite <- app_assoc. reflexivity.
Qed.
(* no word before a separator *)
Lemma at_sep_word tail seps c r s : at_ tail (CChar c :: r) s -> sep_ok seps c -> exists s', read_word seps s = ([], s') /\ at_ tail (CChar c :: r) s'.
Proof.
  intros H (Hc1 & Hc2 & Hc3 & Hc4). assert (G := at_cons_good _ _ _ _ H). destruct H as [H _]. rewrite (stream_eta s), G. remember (s_rest s) as t eqn:Et. clear Et. remember (CChar c :: r) as l eqn:El.
  destruct H as [|k' w' r' sp i t Hsp Hw' Hi Hs Ht Hr|c' r' sp t Hsp Hc Hr|u r' sp t Hsp Hb Hr]; [discriminate El| | |discriminate El]; injection El as -> ->; [destruct Hw'|].
  unfold read_word. rewrite read_char_ok by assumption. cbn [s_good s_unget s_prev s_rest]. rewrite loop_stop by (split; [right; exact Hc1|split; assumption]). eexists. split; [reflexivity|]. split; [exact (ct_char tail c r [] t (Forall_nil _) Hc Hr)|left; reflexivity].
Qed.
Lemma ccommas_len l : (length l <= length (ccommas arg_tokens l))%nat.
Proof.
  destruct l as [|p l]; [cbn; lia|]. cbn [ccommas length]. rewrite app_length. unfold arg_tokens at 1. cbn [length]. assert (length l <= length (flat_map (fun y : bytes * cvalue => CChar 44%N :: arg_tokens y) l))%nat; [|lia]. induction l as [|q l IH]; [cbn; lia|]. cbn [flat_map length app]. rewrite app_length. lia.
Qed.
Lemma args_ok tail opts l r s : tail_ok tail -> Forall (arg_ok opts) l -> at_ tail (CChar 40 :: ccommas arg_tokens l ++ CChar 41 :: r) s ->
  exists s', parse_args false opts s = (map given l, false, s') /\ at_ tail r s'.
Proof.
  intros T Hl H. destruct (at_char_ok _ _ _ _ H) as (s1 & E1 & G1 & A1 & _). unfold parse_args. rewrite E1, G1. cbn [negb]. change (40 =? 40) with true. cbn [negb]. cbv iota. destruct l as [|p l].
  - cbn [ccommas app] in A1. destruct (at_sep_word tail cseps 41 r s1 A1) as (s2 & E2 & A2); [repeat split; try discriminate; cbn; auto|]. destruct (at_char_ok _ _ _ _ A2) as (s3 & E3 & G3 & A3 & _). cbn [args_loop]. rewrite E2, E3, G3. change (41 =? 44) with false. change (41 =? 41) with true. cbn [andb]. cbv iota. exists s3. auto.
  - assert (Len := ctext_len _ _ _ (proj1 A1)). rewrite app_length in Len. assert (Len2 := ccommas_len (p :: l)).
    destruct (args_run tail opts (p :: l) Hl ltac:(discriminate) (CChar 41 :: r) s1 (S (length (s_rest s1))) [] T Logic.I ltac:(split; discriminate) A1 ltac:(lia)) as (s2 & f' & A2 & _ & E). destruct (at_char_ok _ _ _ _ A2) as (s3 & E3 & G3 & A3 & _). rewrite E, E3, G3. change (41 =? 44) with false. change (41 =? 41) with true. cbn [andb]. cbv iota. exists s3. auto.
Qed.
