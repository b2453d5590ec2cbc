(* C36: reading words.  C47: lists and dictionaries. *)
From Verif Require Import Base TextModel ParseModel ParseSpec ParseProofs.
Open Scope N_scope.

(* C36: any spelling of a word (quotes, backslashes, plain characters), after white space and up to a
   delimiter or the end, is read as this word, and the stream then stands right before the delimiter *)
Theorem C36_word seps sp i w p rest : spaces sp -> spells seps i w -> i <> [] -> stops seps rest ->
  read_word seps (mks p (sp ++ i ++ rest) true) = (w, mks (rev (sp ++ i) ++ p) rest (match rest with [] => false | _ => true end)).
Proof. intros H1 H2 H3 H4. rewrite (read_word_ok seps sp i w p rest H1 H2 H3 H4). rewrite rev_app_distr, <- app_assoc. reflexivity. Qed.
(* in particular the quoted form of any text at all, and its form with every character escaped *)
Theorem C36_quoted seps sp w p rest : spaces sp -> stops seps rest ->
  fst (read_word seps (mks p (sp ++ quote w ++ rest) true)) = w /\ s_rest (snd (read_word seps (mks p (sp ++ quote w ++ rest) true))) = rest.
Proof. intros H1 H2. rewrite (read_word_ok seps sp (quote w) w p rest H1 (quote_spells seps w) ltac:(discriminate) H2). auto. Qed.
Theorem C36_escaped seps sp w p rest : spaces sp -> stops seps rest -> w <> [] ->
  fst (read_word seps (mks p (sp ++ flat_map (fun c => [92; c]) w ++ rest) true)) = w /\ s_rest (snd (read_word seps (mks p (sp ++ flat_map (fun c => [92; c]) w ++ rest) true))) = rest.
Proof.
  intros H1 H2 Hw. assert (S : spells seps (flat_map (fun c => [92; c]) w) w) by (clear; induction w; cbn [flat_map app]; constructor; auto).
  rewrite (read_word_ok seps sp _ w p rest H1 S) by (exact H2 || (destruct w; [congruence|discriminate])). auto.
Qed.
(* every input: the reader consumes white space and the spelling of the word it returns, and stops at a
   delimiter; or the input ends inside of quotes or after a backslash *)
Theorem C36_total seps s : exists sp i w rest, s = sp ++ i ++ rest /\ spaces sp /\
  fst (read_word seps (s_open s)) = w /\ s_rest (snd (read_word seps (s_open s))) = rest /\
  (spells seps i w /\ stops seps rest \/ cut_off seps i w /\ rest = []).
Proof. destruct (read_word_total seps s []) as (sp & i & w & r & E & H1 & H2 & R). exists sp, i, w, r. unfold s_open. rewrite R. auto. Qed.
(* spelled words are determined by their text *)
Theorem C36_unambiguous seps i w w' : spells seps i w -> spells seps i w' -> w = w'.
Proof.
  intros H H'. destruct i as [|c i]; [inversion H; inversion H'; reflexivity|].
  assert (E := read_word_ok seps [] (c :: i) w [] [] (Forall_nil _) H ltac:(discriminate) Logic.I). rewrite (read_word_ok seps [] (c :: i) w' [] [] (Forall_nil _) H' ltac:(discriminate) Logic.I) in E. congruence.
Qed.
(* nested text: the balanced text before the closing character, unchanged *)
Theorem C36_nested cs ce t p rest : cs <> 34 -> cs <> 92 -> ce <> 34 -> ce <> 92 -> cs <> ce -> balanced cs ce t ->
  read_nested_text cs ce (mks p (t ++ ce :: rest) true) = (t, mks (rev t ++ p) (ce :: rest) true).
Proof. intros. apply read_nested_ok; auto. Qed.
Example C36_example : spells [44] [97; 34; 44; 92; 34; 34; 92; 32; 98] [97; 44; 34; 32; 98] /\ stops [44] [44; 99] /\ fst (read_word [44] (s_open ([32; 97; 34; 44; 92; 34; 34; 92; 32; 98] ++ [44; 99]))) = [97; 44; 34; 32; 98].
Proof.
  split.
  - apply sp_char; [unfold plain, delim; repeat split; try lia; intros [H|[H|[]]]; discriminate H|].
    change [44; 34; 32; 98] with ([44; 34] ++ [32; 98]). apply (sp_quote [44] [44; 92; 34] [44; 34] [92; 32; 98] [32; 98]).
    + apply q_char; [lia|lia|]. apply q_esc. constructor.
    + apply sp_esc. apply sp_char; [unfold plain, delim; repeat split; try lia; intros [H|[H|[]]]; discriminate H|]. constructor.
  - split; [split; [right; left; reflexivity|split; discriminate]|]. vm_compute. reflexivity.
Qed.

(* ---------- lists ---------- *)
Definition sep_ok (seps : bytes) (c : N) : Prop := In c seps /\ isspace c = false /\ c <> 34 /\ c <> 92.
Lemma stops_sep seps sp c r : spaces sp -> sep_ok seps c -> stops seps (sp ++ c :: r).
Proof. intros Hs (H1 & H2 & H3 & H4). destruct sp as [|x sp]; cbn [app stops]; [split; [right; exact H1|auto]|]. apply Forall_cons_iff in Hs as (Hx & _). split; [left; exact Hx|exact (isspace_not x Hx)]. Qed.
Lemma alive_app sp c r : alive (sp ++ c :: r) = true. Proof. destruct sp; reflexivity. Qed.
Lemma filter_rev_cons (w : bytes) ret : (match w with [] => ret | _ => w :: ret end) = (if nonempty w then [w] else []) ++ ret.
Proof. destruct w; reflexivity. Qed.
Lemma stringlist_ok seps sep ws items words : sep_ok seps sep -> spaces ws -> Forall2 (fun i w => i <> [] /\ spells seps i w) items words -> forall p ret n, (length items <= n)%nat -> items <> [] ->
  stringlist_loop seps n (mks p (joinc (ws ++ [sep]) (map (fun i => ws ++ i) items) ++ ws) true) ret = rev ret ++ filter nonempty words.
Proof.
  intros Hsep Hws H.
  induction H as [|i w items words (Hi & Hs) H IH]; intros p ret n Hn Hne; [congruence|]. destruct n as [|n]; [cbn [length] in Hn; lia|]. cbn [stringlist_loop map joinc].
  destruct items as [|i2 items].
  - inversion H; subst. cbn [map flat_map]. rewrite app_nil_r, <- app_assoc. assert (St : stops seps ws). { destruct ws as [|x r]; [exact Logic.I|]. apply Forall_cons_iff in Hws as (Hx & _). split; [left; exact Hx|exact (isspace_not x Hx)]. }
    rewrite (read_word_ok seps ws i w p ws Hws Hs Hi St). assert (R : exists s2, read_char {| s_prev := rev i ++ rev ws ++ p; s_rest := ws; s_good := alive ws |} = (255, s2) /\ s_good s2 = false).
    { destruct ws as [|x r]; [eexists; split; reflexivity|]. cbn [alive]. rewrite read_char_end by exact Hws. eexists; split; reflexivity. }
    destruct R as (s2 & -> & G). rewrite G. cbn [andb]. rewrite filter_rev_cons, rev_app_distr. f_equal. cbn [filter]. destruct (nonempty w); reflexivity.
  - cbn [map flat_map]. rewrite <- !app_assoc. cbn [app]. rewrite (read_word_ok seps ws i w p _ Hws Hs Hi (stops_sep seps ws sep _ Hws Hsep)). rewrite alive_app. destruct Hsep as (Q1 & Q2 & Q3 & Q4). rewrite (read_char_ok ws _ sep _ Hws Q2). cbn [s_good andb]. rewrite (proj2 (is_one_of_spec sep seps) Q1).
    cbn [length] in Hn. specialize (IH (sep :: rev ws ++ rev i ++ rev ws ++ p) (match w with [] => ret | _ => w :: ret end) n ltac:(cbn [length]; lia) ltac:(discriminate)). cbn [map joinc] in IH. rewrite <- !app_assoc in IH. 
    match goal with |- stringlist_loop _ _ {| s_prev := ?a; s_rest := ?b; s_good := true |} _ = _ => match type of IH with stringlist_loop _ _ {| s_prev := _; s_rest := ?c; s_good := true |} _ = _ => replace b with c by reflexivity end end.
    rewrite IH. rewrite filter_rev_cons, rev_app_distr, <- app_assoc. f_equal. cbn [filter]. destruct (nonempty w); reflexivity.
Qed.

(* to_stringlist: the words between separators, empty words dropped *)
Theorem C36_stringlist seps sep ws items words : sep_ok seps sep -> spaces ws -> Forall2 (fun i w => i <> [] /\ spells seps i w) items words -> items <> [] ->
  to_stringlist seps (joinc (ws ++ [sep]) (map (fun i => ws ++ i) items) ++ ws) = filter nonempty words.
Proof.
  intros Hsep Hws H Hne. unfold to_stringlist, s_open. rewrite (stringlist_ok seps sep ws items words Hsep Hws H); [reflexivity| |exact Hne].
  clear. destruct items as [|i items]; cbn [length map joinc]; [lia|]. rewrite !app_length. assert (X : forall l, (length l <= length (flat_map (fun y => (ws ++ [sep]) ++ y) (map (fun i => ws ++ i) l)))%nat); [|specialize (X items); lia].
  induction l as [|y l IH]; cbn [map flat_map length]; [lia|]. rewrite !app_length. cbn [length]. lia.
Qed.

(* ---------- structured values ---------- *)
Definition sval_ind' (P : sval -> Prop) (Hw : forall w, P (SWord w)) (Hl : forall l, Forall P l -> P (SList l)) (Hd : forall l, Forall (fun x => P (snd x)) l -> P (SDict l)) : forall v, P v :=
  fix go v := match v with
  | SWord w => Hw w
  | SList l => Hl l ((fix g (l : list sval) : Forall P l := match l with [] => Forall_nil _ | x :: r => Forall_cons x (go x) (g r) end) l)
  | SDict l => Hd l ((fix g (l : list (bytes * sval)) : Forall (fun x => P (snd x)) l := match l with [] => Forall_nil _ | x :: r => Forall_cons x (go (snd x)) (g r) end) l)
  end.
Section BAL.
Variables (cs ce : N) (ws : bytes).
Hypothesis Hb : cs = c_lbrack /\ ce = c_rbrack \/ cs = c_lbrace /\ ce = c_rbrace.
Hypothesis Hws : spaces ws.
Lemma ws_bal : balanced cs ce ws.
Proof.
  clear -Hb Hws. induction Hws as [|c ws Hc Hw IH]; [constructor|]. destruct (isspace_not c Hc). apply b_char; auto; intros ->; destruct Hb as [(E1 & E2)|(E1 & E2)]; rewrite ?E1, ?E2 in Hc; discriminate Hc.
Qed.
Lemma quote_bal w : balanced cs ce (quote w).
Proof. unfold quote. apply (b_quote cs ce _ w [] (quote_body w)). constructor. Qed.
Lemma one_bal c : c <> 34 -> c <> 92 -> c <> c_lbrack -> c <> c_rbrack -> c <> c_lbrace -> c <> c_rbrace -> balanced cs ce [c].
Proof. intros. apply b_char; auto; try constructor; destruct Hb as [(-> & ->)|(-> & ->)]; auto. Qed.
Lemma comma_bal : balanced cs ce [c_comma]. Proof. apply one_bal; discriminate. Qed.
Lemma colon_bal : balanced cs ce [c_colon]. Proof. apply one_bal; discriminate. Qed.
Lemma join_bal sep l : balanced cs ce sep -> Forall (balanced cs ce) l -> balanced cs ce (joinc sep l).
Proof.
  intros Hs F. destruct F as [|x l Hx F]; cbn [joinc]; [constructor|]. apply balanced_app; [exact Hx|]. induction F as [|y l Hy F IH]; cbn [flat_map]; [constructor|]. apply balanced_app; [apply balanced_app; assumption|exact IH].
Qed.
Lemma wrap_bal o c t : (o = c_lbrack /\ c = c_rbrack \/ o = c_lbrace /\ c = c_rbrace) -> balanced cs ce t -> balanced cs ce ([o] ++ t ++ [c]).
Proof.
  intros Ho Ht. cbn [app]. destruct Hb as [(E1 & E2)|(E1 & E2)], Ho as [(-> & ->)|(-> & ->)].
  - rewrite <- E1, <- E2. apply (b_nest cs ce t []); [exact Ht|constructor].
  - apply b_char; try discriminate; try (rewrite ?E1, ?E2; discriminate). apply balanced_app; [exact Ht|]. apply b_char; try discriminate; try (rewrite ?E1, ?E2; discriminate). constructor.
  - apply b_char; try discriminate; try (rewrite ?E1, ?E2; discriminate). apply balanced_app; [exact Ht|]. apply b_char; try discriminate; try (rewrite ?E1, ?E2; discriminate). constructor.
  - rewrite <- E1, <- E2. apply (b_nest cs ce t []); [exact Ht|constructor].
Qed.
Lemma stext_bal v : balanced cs ce (stext ws v).
Proof.
  induction v as [w|l IH|l IH] using sval_ind'; cbn [stext].
  - apply quote_bal.
  - rewrite (app_assoc _ ws). apply wrap_bal; [auto|]. apply balanced_app; [|exact ws_bal]. apply join_bal; [apply balanced_app; [exact ws_bal|exact comma_bal]|]. apply Forall_forall. intros x Hx. apply in_map_iff in Hx as (v & <- & Hv). rewrite Forall_forall in IH. apply balanced_app; [exact ws_bal|exact (IH v Hv)].
  - rewrite (app_assoc _ ws). apply wrap_bal; [auto|]. apply balanced_app; [|exact ws_bal]. apply join_bal; [apply balanced_app; [exact ws_bal|exact comma_bal]|]. apply Forall_forall. intros x Hx. apply in_map_iff in Hx as (v & <- & Hv). rewrite Forall_forall in IH.
    repeat (apply balanced_app; [first [exact ws_bal|apply quote_bal|exact colon_bal]|]). exact (IH v Hv).
Qed.
End BAL.
(* the inside of the brackets is balanced as well *)
Lemma list_inner ws l : spaces ws -> balanced c_lbrack c_rbrack (joinc (ws ++ [c_comma]) (map (fun x => ws ++ stext ws x) l) ++ ws).
Proof.
  intro Hws. apply balanced_app; [|apply ws_bal; auto]. apply join_bal; [apply balanced_app; [apply ws_bal; auto|apply comma_bal; auto]|]. apply Forall_forall. intros x Hx. apply in_map_iff in Hx as (v & <- & Hv). apply balanced_app; [apply ws_bal; auto|apply stext_bal; auto].
Qed.
Lemma dict_inner ws l : spaces ws -> balanced c_lbrace c_rbrace (joinc (ws ++ [c_comma]) (map (fun x => ws ++ quote (fst x) ++ ws ++ [c_colon] ++ ws ++ stext ws (snd x)) l) ++ ws).
Proof.
  intro Hws. assert (W : balanced c_lbrace c_rbrace ws) by (apply ws_bal; auto). apply balanced_app; [|exact W]. apply join_bal; [apply balanced_app; [exact W|apply comma_bal; auto]|]. apply Forall_forall. intros x Hx. apply in_map_iff in Hx as (v & <- & Hv).
  repeat (apply balanced_app; [first [exact W|apply quote_bal; auto|apply colon_bal; auto]|]). apply stext_bal; auto.
Qed.
Lemma read_elem_ok seps sp ws v p r : spaces sp -> spaces ws -> stops seps r -> alive r = true ->
  exists p', read_elem seps (mks p (sp ++ stext ws v ++ r) true) = Some (elem_text ws v, mks p' r true).
Proof.
  intros Hsp Hws Hr Ha. unfold read_elem. destruct v as [w|l|l]; cbn [stext elem_text].
  - unfold quote. cbn [app]. rewrite read_char_ok by (exact Hsp || reflexivity). change (34 =? c_lbrace) with false. change (34 =? c_lbrack) with false. cbv iota. cbn [s_unget s_good s_prev s_rest].
    assert (E := read_word_ok seps [] (quote w) w (rev sp ++ p) r (Forall_nil _) (quote_spells seps w) ltac:(discriminate) Hr). unfold quote in E. cbn [app] in E. rewrite E, Ha. eexists. reflexivity.
  - set (t := joinc (ws ++ [c_comma]) (map (fun x => ws ++ stext ws x) l)). cbn [app]. rewrite read_char_ok by (exact Hsp || reflexivity). change (c_lbrack =? c_lbrace) with false. change (c_lbrack =? c_lbrack) with true. cbv iota.
    replace ((t ++ ws ++ [c_rbrack]) ++ r) with ((t ++ ws) ++ c_rbrack :: r) by (rewrite <- !app_assoc; reflexivity). rewrite read_nested_ok; [|split; discriminate|split; discriminate|discriminate|apply list_inner; exact Hws].
    change (c_rbrack :: r) with ([] ++ c_rbrack :: r). rewrite read_char_ok by (constructor || reflexivity). change (c_rbrack =? c_rbrack) with true. cbv iota. eexists. rewrite <- app_assoc. reflexivity.
  - set (t := joinc (ws ++ [c_comma]) _). cbn [app]. rewrite read_char_ok by (exact Hsp || reflexivity). change (c_lbrace =? c_lbrace) with true. cbv iota.
    replace ((t ++ ws ++ [c_rbrace]) ++ r) with ((t ++ ws) ++ c_rbrace :: r) by (rewrite <- !app_assoc; reflexivity). rewrite read_nested_ok; [|split; discriminate|split; discriminate|discriminate|apply dict_inner; exact Hws].
    change (c_rbrace :: r) with ([] ++ c_rbrace :: r). rewrite read_char_ok by (constructor || reflexivity). change (c_rbrace =? c_rbrace) with true. cbv iota. eexists. rewrite <- app_assoc. reflexivity.
Qed.
Lemma sep_comma b : sep_ok [c_comma; b] c_comma. Proof. repeat split; try discriminate. left. reflexivity. Qed.
Lemma sep_rbrack : sep_ok [c_comma; c_rbrack] c_rbrack. Proof. repeat split; try discriminate. right. left. reflexivity. Qed.
Lemma sep_rbrace : sep_ok [c_comma; c_rbrace] c_rbrace. Proof. repeat split; try discriminate. right. left. reflexivity. Qed.
Lemma list_loop_ok ws tail l : spaces ws -> l <> [] -> forall p ret n, (length l <= n)%nat ->
  list_loop n true (mks p (joinc (ws ++ [c_comma]) (map (fun x => ws ++ stext ws x) l) ++ ws ++ c_rbrack :: tail) true) ret = (rev ret ++ filter nonempty (map (elem_text ws) l), true).
Proof.
  intros Hws. induction l as [|v l IH]; intros Hl p ret n Hn; [congruence|]. destruct n as [|n]; [cbn [length] in Hn; lia|]. cbn [list_loop map joinc]. destruct l as [|v2 l].
  - cbn [map flat_map]. rewrite app_nil_r, <- app_assoc. destruct (read_elem_ok [c_comma; c_rbrack] ws ws v p (ws ++ c_rbrack :: tail) Hws Hws (stops_sep _ ws c_rbrack tail Hws sep_rbrack) (alive_app _ _ _)) as (p' & ->).
    rewrite read_char_ok by (exact Hws || reflexivity). cbn [s_good andb]. change (c_rbrack =? c_comma) with false. cbv iota. rewrite filter_rev_cons, rev_app_distr. cbn [negb orb map filter]. f_equal. f_equal. destruct (nonempty (elem_text ws v)); reflexivity.
  - cbn [map flat_map]. rewrite <- !app_assoc. cbn [app]. 
    match goal with |- context [mks p (ws ++ stext ws v ++ ws ++ c_comma :: ?b) true] => destruct (read_elem_ok [c_comma; c_rbrack] ws ws v p (ws ++ c_comma :: b) Hws Hws (stops_sep _ ws c_comma b Hws (sep_comma _)) (alive_app _ _ _)) as (p' & ->) end.
    rewrite read_char_ok by (exact Hws || reflexivity). cbn [s_good andb]. change (c_comma =? c_comma) with true. cbv iota.
    cbn [length] in Hn. specialize (IH ltac:(discriminate) (c_comma :: rev ws ++ p') (match elem_text ws v with [] => ret | _ => elem_text ws v :: ret end) n ltac:(cbn [length]; lia)). cbn [map joinc] in IH. rewrite <- !app_assoc in IH. cbn [app] in IH.
    etransitivity; [exact IH|]. rewrite filter_rev_cons, rev_app_distr, <- app_assoc. f_equal. f_equal. cbn [map filter]. destruct (nonempty (elem_text ws v)); reflexivity.
Qed.
(* C47: the text of a list is read into its elements: words unquoted, nested lists and dictionaries as text;
   only empty words are dropped *)
Theorem C47_list ws l : spaces ws -> rec_list (stext ws (SList l)) = (filter nonempty (map (elem_text ws) l), true).
Proof.
  intro Hws. unfold rec_list, s_open. cbn [stext]. set (txt := [c_lbrack] ++ _) at 1. assert (E := read_char_ok [] [] c_lbrack (joinc (ws ++ [c_comma]) (map (fun x => ws ++ stext ws x) l) ++ ws ++ [c_rbrack]) (Forall_nil _) eq_refl). cbn [app] in E. unfold txt. cbn [app]. rewrite E. change (c_lbrack =? c_lbrack) with true. cbv iota. cbn [rev app].
  destruct l as [|v l].
  - cbn [map joinc app filter]. cbn [list_loop]. unfold read_elem. rewrite read_char_ok by (exact Hws || reflexivity). change (c_rbrack =? c_lbrace) with false. change (c_rbrack =? c_lbrack) with false. cbv iota. cbn [s_unget s_good s_prev s_rest].
    assert (R : read_word [c_comma; c_rbrack] (mks (rev ws ++ [c_lbrack]) [c_rbrack] true) = ([], mks (rev ws ++ [c_lbrack]) [c_rbrack] true)) by (destruct (rev ws ++ [c_lbrack]); reflexivity). rewrite R.
    change [c_rbrack] with ([] ++ c_rbrack :: []) at 1. rewrite read_char_ok by (constructor || reflexivity). reflexivity.
  - rewrite list_loop_ok; [reflexivity|exact Hws|discriminate|]. 
    assert (X : forall l, (length l <= length (flat_map (fun y => (ws ++ [c_comma]) ++ y) (map (fun x => ws ++ stext ws x) l)))%nat). { induction l0 as [|y l0 IH]; cbn [map flat_map length]; [lia|]. rewrite !app_length. cbn [length]. lia. }
    cbn [map joinc length]. rewrite !app_length. specialize (X l). cbn [length]. lia.
Qed.
Lemma dict_loop_ok ws tail l : spaces ws -> l <> [] -> forall p ret n, (length l <= n)%nat ->
  dict_loop n (mks p (joinc (ws ++ [c_comma]) (map (fun x => ws ++ quote (fst x) ++ ws ++ [c_colon] ++ ws ++ stext ws (snd x)) l) ++ ws ++ c_rbrace :: tail) true) ret =
  (rev ret ++ filter (fun x => nonempty (fst x)) (map (fun x => (fst x, elem_text ws (snd x))) l), true).
Proof.
  intros Hws. assert (Sc : sep_ok [c_colon] c_colon) by (repeat split; try discriminate; left; reflexivity).
  induction l as [|(k, v) l IH]; intros Hl p ret n Hn; [congruence|]. destruct n as [|n]; [cbn [length] in Hn; lia|]. cbn [dict_loop map joinc fst snd].
  assert (FC : forall A : Type, forall x : A, forall r : list (bytes * bytes), (match k with [] => r | _ => (k, elem_text ws v) :: r end) = (if nonempty k then [(k, elem_text ws v)] else []) ++ r) by (intros; destruct k; reflexivity). specialize (FC nat 0%nat).
  destruct l as [|(k2, v2) l].
  - cbn [map flat_map]. rewrite app_nil_r, <- !app_assoc. cbn [app].
    rewrite (read_word_ok [c_colon] ws (quote k) k p _ Hws (quote_spells _ k) ltac:(discriminate) (stops_sep _ ws c_colon _ Hws Sc)). rewrite alive_app. rewrite read_char_ok by (exact Hws || reflexivity). change (c_colon =? c_colon) with true. cbn [negb].
    match goal with |- context [read_elem _ {| s_prev := ?q; s_rest := _; s_good := true |}] => destruct (read_elem_ok [c_comma; c_rbrace] ws ws v q (ws ++ c_rbrace :: tail) Hws Hws (stops_sep _ ws c_rbrace tail Hws sep_rbrace) (alive_app _ _ _)) as (p' & E) end. rewrite E. clear E.
    rewrite read_char_ok by (exact Hws || reflexivity). cbn [s_good andb]. change (c_rbrace =? c_comma) with false. change (c_rbrace =? c_rbrace) with true. cbv iota. rewrite FC, rev_app_distr. cbn [map filter fst snd]. f_equal. f_equal. destruct (nonempty k); reflexivity.
  - cbn [map flat_map fst snd]. rewrite <- !app_assoc. cbn [app].
    rewrite (read_word_ok [c_colon] ws (quote k) k p _ Hws (quote_spells _ k) ltac:(discriminate) (stops_sep _ ws c_colon _ Hws Sc)). rewrite alive_app. rewrite read_char_ok by (exact Hws || reflexivity). change (c_colon =? c_colon) with true. cbn [negb].
    match goal with |- context [read_elem _ {| s_prev := ?q; s_rest := ws ++ stext ws v ++ ws ++ c_comma :: ?b; s_good := true |}] => destruct (read_elem_ok [c_comma; c_rbrace] ws ws v q (ws ++ c_comma :: b) Hws Hws (stops_sep _ ws c_comma b Hws (sep_comma _)) (alive_app _ _ _)) as (p' & E) end. rewrite E. clear E.
    rewrite read_char_ok by (exact Hws || reflexivity). cbn [s_good andb]. change (c_comma =? c_comma) with true. cbv iota.
    cbn [length] in Hn. specialize (IH ltac:(discriminate) (c_comma :: rev ws ++ p') (match k with [] => ret | _ => (k, elem_text ws v) :: ret end) n ltac:(cbn [length]; lia)). cbn [map joinc fst snd] in IH. rewrite <- !app_assoc in IH. cbn [app] in IH.
    etransitivity; [exact IH|]. rewrite FC, rev_app_distr, <- app_assoc. f_equal. f_equal. cbn [map filter fst snd]. destruct (nonempty k); reflexivity.
Qed.
Lemma filter_rev {A} (f : A -> bool) l : rev (filter f l) = filter f (rev l).
Proof. induction l as [|x l IH]; cbn [filter rev]; [reflexivity|]. rewrite filter_app. cbn [filter]. destruct (f x); cbn [rev]; rewrite IH; [reflexivity|rewrite app_nil_r; reflexivity]. Qed.
(* the text of a dictionary gives its key/value pairs; of several values of a key the last one counts; only
   empty keys are dropped.  An empty dictionary is an error (C47_empty_dict_refuted). *)
Theorem C47_dict ws l k : spaces ws -> l <> [] -> k <> [] ->
  snd (rec_dict_assign (stext ws (SDict l))) = true /\
  dict_lookup (fst (rec_dict_assign (stext ws (SDict l)))) k =
    match find (fun x => if list_eq_dec N.eq_dec (fst x) k then true else false) (rev l) with Some x => Some (elem_text ws (snd x)) | None => None end.
Proof.
  intros Hws Hl Hk. assert (R : rec_dict_assign (stext ws (SDict l)) = (filter (fun x => nonempty (fst x)) (map (fun x => (fst x, elem_text ws (snd x))) l), true)).
  { unfold rec_dict_assign, s_open. cbn [stext]. match goal with |- context [mks [] ([c_lbrace] ++ ?b) true] => set (txt := b) end. assert (E := read_char_ok [] [] c_lbrace txt (Forall_nil _) eq_refl). cbn [app] in *. rewrite E. change (c_lbrace =? c_lbrace) with true. cbv iota. cbn [rev app].
    unfold txt. rewrite dict_loop_ok; [reflexivity|exact Hws|exact Hl|]. cbn [length].
    assert (X : forall l, (length l <= length (flat_map (fun y => (ws ++ [c_comma]) ++ y) (map (fun x => ws ++ quote (fst x) ++ ws ++ [c_colon] ++ ws ++ stext ws (snd x)) l)))%nat). { clear. induction l as [|y l0 IH]; cbn [map flat_map length]; [lia|]. rewrite !app_length. cbn [length]. lia. }
    destruct l as [|x l]; [congruence|]. cbn [map joinc length]. rewrite !app_length. specialize (X l). cbn [length]. cbn [length] in X.
 cbn [app] in X. lia. }
  rewrite R. cbn [fst snd]. split; [reflexivity|]. unfold dict_lookup. rewrite filter_rev, <- map_rev. generalize (rev l). clear -Hk. induction l as [|(a, v) l IH]; cbn [map filter find fst snd]; [reflexivity|].
  destruct (list_eq_dec N.eq_dec a k) as [->|E].
  - replace (nonempty k) with true by (destruct k; [congruence|reflexivity]). cbn [find fst snd]. destruct (list_eq_dec N.eq_dec k k); [reflexivity|congruence].
  - destruct (nonempty a); [cbn [find fst snd]; destruct (list_eq_dec N.eq_dec a k); [congruence|exact IH]|exact IH].
Qed.
(* Refuted: the empty dictionary is a dictionary; empty words of a list are kept *)
Theorem C47_empty_dict_refuted : snd (rec_dict_assign (stext [] (SDict []))) = false.
Proof. vm_compute. reflexivity. Qed.
Theorem C47_empty_word_refuted : exists l, map (elem_text []) l <> fst (rec_list (stext [] (SList l))).
Proof. exists [SWord [97]; SWord []; SWord [98]]. vm_compute. discriminate. Qed.
Example C47_example : let v := SList [SWord [97; 44; 34]; SDict [([107], SList [SWord [125]])]] in spaces [32] /\ rec_list (stext [32] v) = ([[97; 44; 34]; stext [32] (SDict [([107], SList [SWord [125]])])], true).
Proof. split; [constructor; [reflexivity|constructor]|]. vm_compute. reflexivity. Qed.
