(* C71: command lines are understood as documented. *)
From Coq Require Import String.
From Verif Require Import Base NamesModel NamesProps RConfigModel ArgsModel ArgsSpec.
Import ListNotations.
Open Scope N_scope.
Open Scope list_scope.

Lemma find_opt_spec f l : forall i, match find_opt f l i with
  | Some k => exists j o, k = (i + j)%nat /\ nth_error l j = Some o /\ f o = true
  | None => forall o, In o l -> f o = false
  end.
Proof.
  induction l as [|x l IH]; intro i; cbn [find_opt]; [intros o []|]. destruct (f x) eqn:E; [exists 0%nat, x; repeat split; auto; lia|].
  specialize (IH (S i)). destruct (find_opt f l (S i)) as [k|].
  - destruct IH as (j & o & -> & H1 & H2). exists (S j), o. repeat split; auto. lia.
  - intros o [<-|Ho]; auto.
Qed.
Section A.
Variable table : list opt.
Hypothesis Htab : table_ok table.
Lemma by_long_ok o n : In o table -> o_long o = Some n -> exists i, by_long table n = Some i /\ nth_error table i = Some o.
Proof.
  intros Hi Hn. unfold by_long. pose proof (find_opt_spec (fun o => match o_long o with Some n' => beqb n' n | None => false end) table 0) as H.
  destruct (find_opt _ table 0) as [k|].
  - destruct H as (j & o' & -> & H1 & H2). exists j. split; auto. destruct (o_long o') as [n'|] eqn:E; [|discriminate]. apply beqb_eq in H2. subst n'.
    rewrite (tb_long _ Htab o o' n Hi (nth_error_In _ _ H1) Hn E). auto.
  - specialize (H o Hi). cbn beta in H. rewrite Hn in H. rewrite (proj2 (beqb_eq n n) eq_refl) in H. discriminate.
Qed.
Lemma by_short_ok o c : In o table -> o_short o = Some c -> exists i, by_short table c = Some i /\ nth_error table i = Some o.
Proof.
  intros Hi Hn. unfold by_short. pose proof (find_opt_spec (fun o => match o_short o with Some k => k =? c | None => false end) table 0) as H.
  destruct (find_opt _ table 0) as [k|].
  - destruct H as (j & o' & -> & H1 & H2). exists j. split; auto. destruct (o_short o') as [n'|] eqn:E; [|discriminate]. apply N.eqb_eq in H2. subst n'.
    rewrite (tb_short _ Htab o o' c Hi (nth_error_In _ _ H1) Hn E). auto.
  - specialize (H o Hi). cbn beta in H. rewrite Hn, N.eqb_refl in H. discriminate.
Qed.
(* the state stands for a list of settings *)
Definition rep (s : ast) (L : list (opt * bytes)) : Prop := (forall i o, nth_error table i = Some o -> assoc i (a_act s) = given (o_name o) L) /\ (forall x, In x L -> In (fst x) table).
Lemma given_snoc name L o v : given name (L ++ [(o, v)]) = match given name L with Some x => Some x | None => if beqb (o_name o) name then Some v else None end.
Proof. unfold given. induction L as [|x L IH]; cbn; [destruct (beqb (o_name o) name); reflexivity|]. destruct (beqb (o_name (fst x)) name); auto. Qed.
Lemma assoc_snoc i l j v : assoc i (l ++ [(j, v)]) = match assoc i l with Some x => Some x | None => if (j =? i)%nat then Some v else None end.
Proof. induction l as [|[k w] l IH]; cbn; auto. destruct (k =? i)%nat; auto. Qed.
Lemma rep_activate s L i o v : rep s L -> nth_error table i = Some o -> rep (activate s i v) (L ++ [(o, v)]) /\ a_args (activate s i v) = a_args s.
Proof.
  intros (H1 & H2) Hi. split; [|unfold activate; destruct (assoc i (a_act s)); reflexivity]. split.
  - intros j o' Hj. rewrite given_snoc. rewrite <- (H1 j o' Hj). unfold activate. destruct (assoc i (a_act s)) as [x|] eqn:E.
    + destruct (assoc j (a_act s)) eqn:E2; auto. destruct (beqb (o_name o) (o_name o')) eqn:Eb; auto. apply beqb_eq in Eb.
      rewrite (H1 j o' Hj), <- Eb, <- (H1 i o Hi), E in E2. discriminate.
    + cbn [a_act]. rewrite assoc_snoc. destruct (assoc j (a_act s)); auto. destruct (Nat.eqb_spec i j) as [->|Hne].
      * assert (o = o') by congruence. subst o'. rewrite (proj2 (beqb_eq _ _) eq_refl). reflexivity.
      * destruct (beqb (o_name o) (o_name o')) eqn:Eb; auto. apply beqb_eq in Eb. exfalso. apply Hne.
        apply (proj1 (NoDup_nth_error (map o_name table)) (tb_names _ Htab) i j); [rewrite map_length; eapply nth_error_Some; congruence|].
        rewrite !nth_error_map, Hi, Hj. cbn. congruence.
  - intros x Hx. apply in_app_or in Hx as [Hx|[<-|[]]]; auto. cbn. eapply nth_error_In; eauto.
Qed.
Lemma cut_eq_none s : ~ In c_eq s -> cut_eq s = (s, None).
Proof. induction s as [|c s IH]; intro H; cbn; auto. destruct (N.eqb_spec c c_eq) as [->|]; [exfalso; apply H; left; auto|]. rewrite IH; auto. intro; apply H; right; auto. Qed.
Lemma cut_eq_some s v : ~ In c_eq s -> cut_eq (s ++ c_eq :: v) = (s, Some v).
Proof. induction s as [|c s IH]; intro H; cbn; [rewrite N.eqb_refl; auto|]. destruct (N.eqb_spec c c_eq) as [->|]; [exfalso; apply H; left; auto|]. rewrite IH; auto. intro; apply H; right; auto. Qed.

Definition short_ok (o : opt) : Prop := In o table /\ has_short o.
Lemma short_char o : short_ok o -> short_of o <> c_eq /\ short_of o <> c_dash /\ exists i, by_short table (short_of o) = Some i /\ nth_error table i = Some o.
Proof.
  intros (Hi & c & Hc). unfold short_of. rewrite Hc. destruct (tb_eq _ Htab o Hi) as (_ & H). destruct (H c Hc) as (H1 & H2). split; auto. split; auto. apply by_short_ok; auto.
Qed.
(* a group of short options before another one *)
Lemma shorts_group g : forall s L o v next, rep s L -> (forall o', In o' g -> short_ok o') ->
  exists s1, shorts table s (map short_of g ++ [short_of o]) v next = shorts table s1 [short_of o] v next /\ rep s1 (L ++ map (fun o => (o, [])) g) /\ a_args s1 = a_args s.
Proof.
  induction g as [|x g IH]; intros s L o v next Hr Hg; [exists s; rewrite app_nil_r; auto|].
  destruct (short_char x (Hg x (or_introl eq_refl))) as (_ & _ & i & Hi & Hx). destruct (rep_activate s L i x [] Hr Hx) as (R1 & R2).
  destruct (IH (activate s i []) _ o v next R1 ltac:(intros; apply Hg; right; auto)) as (s1 & E1 & E2 & E3).
  exists s1. cbn [map app]. split; [|split; [rewrite <- app_assoc in E2; exact E2|congruence]].
  rewrite <- E1. cbn [shorts]. rewrite Hi. destruct (map short_of g ++ [short_of o]) eqn:Z; [destruct g; discriminate|]. reflexivity.
Qed.
Lemma has_arg_ok i o : nth_error table i = Some o -> has_arg table i = o_arg o.
Proof. intro H. unfold has_arg. rewrite H. reflexivity. Qed.
Lemma noeq_group g : (forall o', In o' g -> short_ok o') -> ~ In c_eq (map short_of g).
Proof. intros H Z. apply in_map_iff in Z as (o & E & Ho). destruct (short_char o (H o Ho)) as (Z & _). congruence. Qed.

(* one word *)
Lemma dash2 x y r : x <> c_dash -> forall P : bytes -> ast * nat, forall Q S T,
  match x :: y with [] => Q | [45; 45] => S | 45 :: 45 :: rest => T rest | 45 :: rest => P rest | _ => r end = r.
Proof. intros H P Q S T. unfold c_dash in H. destruct x as [|p]; [reflexivity|]. repeat (destruct p as [p|p|]; try reflexivity). exfalso; apply H; reflexivity. Qed.
Lemma parse_plain s x r i : x <> [] -> hd 0 x <> c_dash -> parse_args table s (x :: r) i = parse_args table (mka (a_act s) (a_args s ++ [x])) r (S i).
Proof. intros H1 H2. destruct x as [|c x]; [congruence|]. cbn [hd] in H2. cbn [parse_args]. unfold c_dash in H2. destruct c as [|p]; [reflexivity|]. repeat (destruct p as [p|p|]; try reflexivity). exfalso; apply H2; reflexivity. Qed.
Lemma parse_long s n r i : n <> [] -> parse_args table s ((c_dash :: c_dash :: n) :: r) i =
  let (n, v) := cut_eq n in
  match by_long table n with
  | None => (s, i)
  | Some k => match (match v with Some t => t | None => [] end), has_arg table k, r with
    | [], true, y :: r' => parse_args table (activate s k y) r' (S (S i))
    | _, _, _ => parse_args table (activate s k (match v with Some t => t | None => [] end)) r (S i) end
  end.
Proof. intro H. destruct n as [|c n]; [congruence|]. reflexivity. Qed.
Lemma parse_short s c n r i : c <> c_dash -> parse_args table s ((c_dash :: c :: n) :: r) i =
  let (cs, v) := cut_eq (c :: n) in
  match shorts table s cs v (match r with y :: _ => Some y | [] => None end), r with
  | (s1, None), _ => (s1, i)
  | (s1, Some true), _ :: r' => parse_args table s1 r' (S (S i))
  | (s1, Some _), _ => parse_args table s1 r (S i)
  end.
Proof. intro H. cbn [parse_args]. unfold c_dash in *. destruct c as [|p]; [reflexivity|]. repeat (destruct p as [p|p|]; try reflexivity). exfalso; apply H; reflexivity. Qed.
Definition split_last {A} (l : list A) : l <> [] -> exists l' x, l = l' ++ [x].
Proof. intro H. destruct (exists_last H) as (l' & x & E). eauto. Qed.
Ltac useE1 E := match type of E with _ = ?rhs => match goal with |- context [shorts ?t ?a ?b ?d ?e] => replace (shorts t a b d e) with rhs by (symmetry; exact E) end end.
Lemma word_step w s L r i : word_ok table w -> rep s L -> exists s1, rep s1 (L ++ sets w) /\ a_args s1 = a_args s ++ rest_of w /\
  parse_args table s (argv_of w ++ r) i = parse_args table s1 r (i + length (argv_of w)).
Proof.
  intros Hw Hr. destruct w as [o|o v|o v|g|g o v|g o v|x]; cbn [word_ok argv_of sets rest_of] in *; rewrite ?app_nil_r.
  - destruct Hw as (Hi & (n & Hn) & Ha). destruct (tb_eq _ Htab o Hi) as (Q & _). destruct (Q n Hn) as (Q1 & Q2). unfold long_of. rewrite Hn. cbn [app length].
    destruct (by_long_ok o n Hi Hn) as (k & K1 & K2). destruct (rep_activate s L k o [] Hr K2) as (R1 & R2). exists (activate s k []). split; auto. split; auto.
    rewrite parse_long by auto. rewrite cut_eq_none by auto. rewrite K1, (has_arg_ok _ _ K2), Ha, Nat.add_1_r. reflexivity.
  - destruct Hw as (Hi & (n & Hn) & Ha). destruct (tb_eq _ Htab o Hi) as (Q & _). destruct (Q n Hn) as (Q1 & Q2). unfold long_of. rewrite Hn. cbn [app length].
    destruct (by_long_ok o n Hi Hn) as (k & K1 & K2). destruct (rep_activate s L k o v Hr K2) as (R1 & R2). exists (activate s k v). split; auto. split; auto.
    rewrite parse_long by (intro Z; apply app_eq_nil in Z as (Z & _); auto). rewrite cut_eq_some by auto. rewrite K1, (has_arg_ok _ _ K2), Nat.add_1_r.
    destruct v as [|c v]; [|reflexivity]. destruct Ha as [Ha|Ha]; [congruence|]. rewrite Ha. reflexivity.
  - destruct Hw as (Hi & (n & Hn) & Ha). destruct (tb_eq _ Htab o Hi) as (Q & _). destruct (Q n Hn) as (Q1 & Q2). unfold long_of. rewrite Hn. cbn [app length].
    destruct (by_long_ok o n Hi Hn) as (k & K1 & K2). destruct (rep_activate s L k o v Hr K2) as (R1 & R2). exists (activate s k v). split; auto. split; auto.
    rewrite parse_long by auto. rewrite cut_eq_none by auto. rewrite K1, (has_arg_ok _ _ K2), Ha. replace (i + 2)%nat with (S (S i)) by lia. reflexivity.
  - destruct Hw as (Hne & Hg & Ha). destruct (split_last g Hne) as (g' & o & ->). rewrite last_last in Ha. cbn [length].
    assert (Hg' : forall o', In o' g' -> short_ok o') by (intros; apply Hg; apply in_or_app; auto). assert (Ho : short_ok o) by (apply Hg; apply in_or_app; right; left; auto).
    destruct (shorts_group g' s L o None (match r with y :: _ => Some y | [] => None end) Hr Hg') as (s1 & E1 & E2 & E3).
    destruct (short_char o Ho) as (_ & _ & k & K1 & K2). destruct (rep_activate s1 _ k o [] E2 K2) as (R1 & R2). exists (activate s1 k []). rewrite map_app, app_assoc. split; auto. split; [congruence|].
    assert (Q : ~ In c_eq (map short_of (g' ++ [o]))) by (apply noeq_group; auto).
    cbn [app]. destruct (map short_of (g' ++ [o])) as [|c n] eqn:Em; [rewrite map_app in Em; destruct (map short_of g'); discriminate|].
    assert (Hc : c <> c_dash). { assert (In c (map short_of (g' ++ [o]))) by (rewrite Em; left; auto). apply in_map_iff in H as (x & <- & Hx). apply (short_char x (Hg x Hx)). }
    rewrite parse_short, cut_eq_none by auto. cbv beta iota.
    rewrite map_app in Em. cbn [map] in Em. rewrite Em in E1. useE1 E1. cbn [shorts]. rewrite K1, (has_arg_ok _ _ K2), Ha. rewrite Nat.add_1_r.
    destruct r; reflexivity.
  - assert (Hg' : forall o', In o' g -> short_ok o') by (intros; apply Hw; apply in_or_app; auto). assert (Ho : short_ok o) by (apply Hw; apply in_or_app; right; left; auto).
    destruct (shorts_group g s L o (Some v) (match r with y :: _ => Some y | [] => None end) Hr Hg') as (s1 & E1 & E2 & E3). cbn [length].
    destruct (short_char o Ho) as (_ & _ & k & K1 & K2). destruct (rep_activate s1 _ k o v E2 K2) as (R1 & R2). exists (activate s1 k v). rewrite app_assoc. split; auto. split; [congruence|].
    assert (Q : ~ In c_eq (map short_of (g ++ [o]))) by (apply noeq_group; intros o' Ho'; apply Hw; auto).
    rewrite map_app in Q. cbn [map] in Q. cbn [app]. replace (map short_of g ++ short_of o :: c_eq :: v) with ((map short_of g ++ [short_of o]) ++ c_eq :: v) by (rewrite <- app_assoc; reflexivity).
    destruct (map short_of g ++ [short_of o]) as [|c n] eqn:Em; [destruct (map short_of g); discriminate|].
    assert (Hc : c <> c_dash). { assert (In c (map short_of g ++ [short_of o])) by (rewrite Em; left; auto). apply in_app_or in H as [H|[<-|[]]]; [|apply (short_char o Ho)]. apply in_map_iff in H as (x & <- & Hx). apply (short_char x (Hg' x Hx)). }
    cbn [app]. rewrite parse_short by auto. change (c :: n ++ c_eq :: v) with ((c :: n) ++ c_eq :: v). rewrite cut_eq_some by auto. cbv beta iota. useE1 E1. cbn [shorts]. rewrite K1, Nat.add_1_r.
    destruct r; reflexivity.
  - destruct Hw as (Hw & Ha). assert (Hg' : forall o', In o' g -> short_ok o') by (intros; apply Hw; apply in_or_app; auto). assert (Ho : short_ok o) by (apply Hw; apply in_or_app; right; left; auto).
    destruct (shorts_group g s L o None (Some v) Hr Hg') as (s1 & E1 & E2 & E3). cbn [length].
    destruct (short_char o Ho) as (_ & _ & k & K1 & K2). destruct (rep_activate s1 _ k o v E2 K2) as (R1 & R2). exists (activate s1 k v). rewrite app_assoc. split; auto. split; [congruence|].
    assert (Q : ~ In c_eq (map short_of (g ++ [o]))) by (apply noeq_group; intros o' Ho'; apply Hw; auto).
    rewrite map_app in Q. cbn [map] in Q. cbn [app].
    destruct (map short_of g ++ [short_of o]) as [|c n] eqn:Em; [destruct (map short_of g); discriminate|].
    assert (Hc : c <> c_dash). { assert (In c (map short_of g ++ [short_of o])) by (rewrite Em; left; auto). apply in_app_or in H as [H|[<-|[]]]; [|apply (short_char o Ho)]. apply in_map_iff in H as (x & <- & Hx). apply (short_char x (Hg' x Hx)). }
    rewrite parse_short, cut_eq_none by auto. cbv beta iota. cbn [app]. useE1 E1. cbn [shorts]. rewrite K1, (has_arg_ok _ _ K2), Ha. replace (i + 2)%nat with (S (S i)) by lia. reflexivity.
  - destruct Hw as (H1 & H2). exists (mka (a_act s) (a_args s ++ [x])). cbn [app length]. split; [exact Hr|]. split; [reflexivity|]. rewrite parse_plain by auto. rewrite Nat.add_1_r. reflexivity.
Qed.
Lemma words_step ws : forall s L r i, Forall (word_ok table) ws -> rep s L -> exists s1, rep s1 (L ++ all_sets ws) /\ a_args s1 = a_args s ++ all_rest ws /\
  parse_args table s (cmdline ws ++ r) i = parse_args table s1 r (i + length (cmdline ws)).
Proof.
  induction ws as [|w ws IH]; intros s L r i Hw Hr; [exists s; cbn; rewrite !app_nil_r, Nat.add_0_r; auto|].
  destruct (word_step w s L (cmdline ws ++ r) i (Forall_inv Hw) Hr) as (s1 & A1 & A2 & A3). destruct (IH s1 _ r (i + length (argv_of w))%nat (Forall_inv_tail Hw) A1) as (s2 & B1 & B2 & B3).
  exists s2. cbn [all_sets all_rest cmdline flat_map]. fold (all_sets ws) (all_rest ws) (cmdline ws). split; [rewrite app_assoc; auto|]. split; [rewrite B2, A2, app_assoc; auto|].
  rewrite <- app_assoc, A3, B3, app_length, Nat.add_assoc. reflexivity.
Qed.
Lemma rep_init : rep (mka [] []) []. Proof. split; [reflexivity|intros x []]. Qed.
Lemma by_name_ok name : match by_name table name with Some i => exists o, nth_error table i = Some o /\ o_name o = name | None => forall o, In o table -> o_name o <> name end.
Proof.
  unfold by_name. pose proof (find_opt_spec (fun o => beqb (o_name o) name) table 0) as H. destruct (find_opt _ table 0) as [k|].
  - destruct H as (j & o & -> & H1 & H2). exists o. apply beqb_eq in H2. auto.
  - intros o Ho Z. specialize (H o Ho). cbn beta in H. rewrite (proj2 (beqb_eq _ _) Z) in H. discriminate.
Qed.
Lemma get_rep s L name def : rep s L -> get_opt table s name def = match given name L with Some v => v | None => def end /\ is_set table s name = match given name L with Some _ => true | None => false end.
Proof.
  intros (H1 & H2). unfold get_opt, is_set. pose proof (by_name_ok name) as B. destruct (by_name table name) as [i|].
  - destruct B as (o & Ho & <-). rewrite (H1 i o Ho). destruct (given (o_name o) L); auto.
  - assert (E : given name L = None); [|rewrite E; auto]. unfold given. destruct (find _ L) as [x|] eqn:Ef; auto. apply find_some in Ef as (Hx & Hb). apply beqb_eq in Hb. exfalso. exact (B _ (H2 x Hx) Hb).
Qed.
Lemma options_rep s L : rep s L -> options table s = filter (fun n => match given n L with Some _ => true | None => false end) (map o_name table).
Proof.
  intros (H1 & _). unfold options.
  assert (G : forall l k, (forall j o, nth_error l j = Some o -> nth_error table (k + j) = Some o) ->
    flat_map (fun i => match assoc i (a_act s), nth_error table i with Some _, Some o => [o_name o] | _, _ => [] end) (seq k (List.length l)) =
    filter (fun n => match given n L with Some _ => true | None => false end) (map o_name l)).
  { induction l as [|o l IH]; intros k Hk; [reflexivity|]. cbn [List.length seq flat_map map filter]. pose proof (Hk 0%nat o eq_refl) as H0. rewrite Nat.add_0_r in H0. rewrite (H1 k o H0), H0.
    rewrite (IH (S k)) by (intros j o' Hj; replace (S k + j)%nat with (k + S j)%nat by lia; apply Hk; auto). destruct (given (o_name o) L); reflexivity. }
  apply (G table 0%nat). auto.
Qed.
End A.

(* every command line made of the words above, possibly followed by "--" and anything else, is
   understood: each option has the value of its first occurrence, the other words are the arguments *)
Theorem C71_command_line : forall table ws tail, table_ok table -> Forall (word_ok table) ws ->
  exists s n, parse_cmd table (cmdline ws ++ ending tail) = (s, n) /\
    (1 + List.length (cmdline ws ++ ending tail) <= n)%nat /\
    a_args s = all_rest ws ++ ending_rest tail /\
    (forall name def, get_opt table s name def = match given name (all_sets ws) with Some v => v | None => def end) /\
    (forall name, is_set table s name = match given name (all_sets ws) with Some _ => true | None => false end) /\
    options table s = filter (fun n => match given n (all_sets ws) with Some _ => true | None => false end) (map o_name table).
Proof.
  intros table ws tail Ht Hw. set (T := ending tail) in *.
  destruct (words_step table Ht ws (mka [] []) [] T 1%nat Hw (rep_init table)) as (s1 & A1 & A2 & A3). cbn [app a_args] in A1, A2.
  assert (E : exists s n, parse_args table s1 T (1 + List.length (cmdline ws)) = (s, n) /\ (1 + List.length (cmdline ws ++ T) <= n)%nat /\ a_args s = all_rest ws ++ ending_rest tail /\ a_act s = a_act s1).
  { unfold T, ending, ending_rest. destruct tail as [l|].
    - eexists _, _. split; [reflexivity|]. cbn [a_args a_act]. rewrite app_length. cbn [List.length]. split; [lia|]. split; [congruence|reflexivity].
    - eexists _, _. split; [reflexivity|]. rewrite !app_nil_r. split; [lia|]. auto. }
  destruct E as (s & n & E1 & E2 & E3 & E4).
  assert (R : rep table s (all_sets ws)) by (destruct A1 as (R1 & R2); split; auto; intros i o Hi; rewrite E4; auto).
  assert (Res : (forall name def, get_opt table s name def = match given name (all_sets ws) with Some v => v | None => def end) /\
    (forall name, is_set table s name = match given name (all_sets ws) with Some _ => true | None => false end) /\
    options table s = filter (fun n => match given n (all_sets ws) with Some _ => true | None => false end) (map o_name table)).
  { split; [intros; apply (get_rep table s _ name def R)|]. split; [intros; apply (get_rep table s _ name [] R)|apply options_rep; auto]. }
  destruct (cmdline ws ++ T) as [|x r] eqn:El.
  - exists (mka [] []), 1%nat. cbn [parse_cmd]. split; [reflexivity|]. split; [cbn; lia|]. apply app_eq_nil in El as (El & ET).
    unfold T, ending in ET. destruct tail; [discriminate|]. assert (ws = []). { destruct ws as [|w ws]; auto. cbn in El. destruct w; discriminate. } subst ws.
    split; [reflexivity|]. cbn in A1, A3, E4. split; [|split].
    + intros. apply (get_rep table _ _ name def (rep_init table)).
    + intros. apply (get_rep table _ _ name [] (rep_init table)).
    + apply (options_rep table _ _ (rep_init table)).
  - exists s, n. cbn [parse_cmd]. rewrite A3, E1. split; [reflexivity|]. split; auto.
Qed.

(* an unknown option is reported by its position *)
Theorem C71_unknown_option : forall table ws x rest, table_ok table -> Forall (word_ok table) ws ->
  (exists n, x = c_dash :: c_dash :: n /\ n <> [] /\ forall o m, In o table -> o_long o = Some m -> m <> fst (cut_eq n)) \/
  (exists c n, x = c_dash :: c :: n /\ c <> c_dash /\ c <> c_eq /\ forall o, In o table -> o_short o <> Some c) ->
  exists s, parse_cmd table (cmdline ws ++ x :: rest) = (s, 1 + List.length (cmdline ws))%nat /\ nth_error (cmdline ws ++ x :: rest) (List.length (cmdline ws)) = Some x.
Proof.
  intros table ws x rest Ht Hw Hx. destruct (words_step table Ht ws (mka [] []) [] (x :: rest) 1%nat Hw (rep_init table)) as (s1 & A1 & A2 & A3).
  assert (E : parse_args table s1 (x :: rest) (1 + List.length (cmdline ws)) = (s1, (1 + List.length (cmdline ws))%nat)).
  { destruct Hx as [(n & -> & Hn & Hu)|(c & n & -> & Hc & He & Hu)].
    - rewrite parse_long by auto. destruct (cut_eq n) as [m v] eqn:Ec. cbn [fst] in Hu. unfold by_long. pose proof (find_opt_spec (fun o => match o_long o with Some k => beqb k m | None => false end) table 0) as H.
      destruct (find_opt _ table 0) as [k|]; [|reflexivity]. exfalso. destruct H as (j & o & _ & H1 & H2). destruct (o_long o) as [k'|] eqn:Eo; [|discriminate]. apply beqb_eq in H2. exact (Hu o k' (nth_error_In _ _ H1) Eo H2).
    - rewrite parse_short by auto. cbn [cut_eq]. destruct (N.eqb_spec c c_eq); [congruence|]. destruct (cut_eq n) as [cs v]. cbn [shorts]. unfold by_short.
      pose proof (find_opt_spec (fun o => match o_short o with Some k => k =? c | None => false end) table 0) as H.
      destruct (find_opt _ table 0) as [k|]; [|reflexivity]. exfalso. destruct H as (j & o & _ & H1 & H2). destruct (o_short o) as [k'|] eqn:Eo; [|discriminate]. apply N.eqb_eq in H2. subst k'. exact (Hu o (nth_error_In _ _ H1) Eo). }
  exists s1. split.
  - unfold parse_cmd. destruct (cmdline ws ++ x :: rest) as [|y r] eqn:El; [destruct (cmdline ws); discriminate|]. rewrite A3, E. reflexivity.
  - rewrite nth_error_app2 by lia. rewrite Nat.sub_diag. reflexivity.
Qed.

(* an empty value after '=' swallows the next word *)
Definition ax_q : opt := mkopt (bs "query") (Some (bs "query")) (Some 113) true.
Definition ax_v : opt := mkopt (bs "verbose") (Some (bs "verbose")) (Some 118) false.
Definition ax_o : opt := mkopt (bs "output") (Some (bs "output")) (Some 111) true.
Definition ax_t : opt := mkopt (bs "table") (Some (bs "table")) None false.
Definition ax_table : list opt := [ax_q; ax_v; ax_o; ax_t].
Theorem C71_empty_value_refuted : exists s n, parse_cmd ax_table [bs "--query="; bs "a.cali"] = (s, n) /\ get_opt ax_table s (bs "query") [] = bs "a.cali" /\ a_args s = [].
Proof. eexists _, _. split; [vm_compute; reflexivity|]. split; vm_compute; reflexivity. Qed.
(* a single dash is lost *)
Theorem C71_dash_refuted : exists s n, parse_cmd ax_table [bs "-"; bs "a.cali"] = (s, n) /\ a_args s = [bs "a.cali"].
Proof. eexists _, _. split; vm_compute; reflexivity. Qed.

Lemma ax_ok : table_ok ax_table.
Proof.
  constructor.
  - repeat (apply NoDup_cons; [cbn; intuition discriminate|]). constructor.
  - intros o o' n H H' E E'. cbn in H, H'. repeat (destruct H as [<-|H]); try contradiction; repeat (destruct H' as [<-|H']); try contradiction; try reflexivity; cbn in E, E'; try discriminate; exfalso; congruence || (rewrite <- E in E'; vm_compute in E'; discriminate).
  - intros o o' n H H' E E'. cbn in H, H'. repeat (destruct H as [<-|H]); try contradiction; repeat (destruct H' as [<-|H']); try contradiction; try reflexivity; cbn in E, E'; try discriminate; exfalso; congruence || (rewrite <- E in E'; vm_compute in E'; discriminate).
  - intros o H. cbn in H. split; intros x E; repeat (destruct H as [<-|H]); try contradiction; cbn in E; try discriminate; injection E as <-; (split; [discriminate|]); try discriminate; vm_compute; intuition discriminate.
Qed.
Definition ax_words : list word :=
  [LongFlag ax_t; Plain (bs "a.cali"); ShortNext [ax_v] ax_q (bs "SELECT *"); LongEq ax_o (bs "x=1"); Plain (bs "b.cali"); LongNext ax_o (bs "-y"); ShortEq [] ax_o (bs "z")].
Example C71_ex : table_ok ax_table /\ Forall (word_ok ax_table) ax_words /\
  cmdline ax_words ++ ending (Some [bs "-q"]) = [bs "--table"; bs "a.cali"; bs "-vq"; bs "SELECT *"; bs "--output=x=1"; bs "b.cali"; bs "--output"; bs "-y"; bs "-o=z"; bs "--"; bs "-q"] /\
  exists s n, parse_cmd ax_table (cmdline ax_words ++ ending (Some [bs "-q"])) = (s, n) /\ a_args s = [bs "a.cali"; bs "b.cali"; bs "-q"] /\ get_opt ax_table s (bs "output") [] = bs "x=1" /\ get_opt ax_table s (bs "query") [] = bs "SELECT *".
Proof.
  split; [exact ax_ok|]. split.
  { repeat (apply Forall_cons; [|]); [| | | | | | |constructor]; cbn [word_ok].
    - split; [cbn; auto|]. split; [eexists; reflexivity|reflexivity].
    - split; [discriminate|]. vm_compute. discriminate.
    - split; [|reflexivity]. intros o' [<-|[<-|[]]]; split; try (cbn; auto; fail); eexists; reflexivity.
    - split; [cbn; auto|]. split; [eexists; reflexivity|left; discriminate].
    - split; [discriminate|]. vm_compute. discriminate.
    - split; [cbn; auto|]. split; [eexists; reflexivity|reflexivity].
    - intros o' [<-|[]]; split; [cbn; auto|eexists; reflexivity]. }
  split; [vm_compute; reflexivity|]. eexists _, _. split; [vm_compute; reflexivity|]. split; [vm_compute; reflexivity|]. split; vm_compute; reflexivity.
Qed.
