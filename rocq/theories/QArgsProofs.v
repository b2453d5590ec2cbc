From Coq Require Import Strings.Ascii Strings.String.
From Verif Require Import Base TextModel ParseModel ParseSpec ParseProofs ParseProps RConfigModel FilterModel FmtStrModel FmtStrProofs QueryModel QuerySpec QueryProofs QArgsModel QArgsSpec.
From Coq Require Import Lia.
Open Scope N_scope. Open Scope list_scope.

(* ---------- names ---------- *)
Lemma split_join sep l : l <> [] -> Forall (fun n => n <> [] /\ ~ In sep n) l -> split sep (joinc [sep] l) = l.
Proof.
  unfold split, joinc. destruct l as [|x r]; [congruence|]. intros _ H. revert x H.
  induction r as [|y r IH]; intros x H; inversion H as [|? ? [Hx1 Hx2] Hr]; subst.
  - cbn [flat_map]. rewrite app_nil_r, split_acc by exact Hx2. cbn [app]. destruct x; [congruence|reflexivity].
  - cbn [flat_map app]. rewrite split_cons by exact Hx2. cbn [app]. f_equal. apply IH. exact Hr.
Qed.

(* ---------- selectors ---------- *)
Lemma cut_plain s r : (forall x, In x s -> x <> 44 /\ x <> 60 /\ x <> 61 /\ x <> 62) ->
  cut_cmp (s ++ r) = (s ++ fst (cut_cmp r), snd (cut_cmp r)).
Proof.
  induction s as [|c s IH]; intro H; cbn [app]; [destruct (cut_cmp r); reflexivity|].
  cbn [cut_cmp]. destruct (H c (or_introl eq_refl)) as (_ & H1 & H2 & H3). unfold is_cmp.
  rewrite (proj2 (N.eqb_neq c 60) H1), (proj2 (N.eqb_neq c 62) H3), (proj2 (N.eqb_neq c 61) H2). cbn [orb].
  rewrite IH by (intros x Hx; apply H; right; exact Hx). reflexivity.
Qed.
Lemma clause_ok c : sel_ok c -> cond_is c (parse_clause (sel_text c)) /\ c_op (parse_clause (sel_text c)) <> ONone.
Proof.
  destruct c as [neg a t]. unfold sel_ok, sel_text, cond_is. cbn [cn_not cn_attr cn_test]. intros (Ha & Hx & Hd & Ht).
  assert (Em : exists neg', (exists c0 r0, (if neg then bs "-" else []) ++ a ++ match t with Equals v => bs "=" ++ v | _ => [] end = c0 :: r0 /\ neg' = (c0 =? 45) /\ (if neg' then r0 else c0 :: r0) = a ++ match t with Equals v => bs "=" ++ v | _ => [] end) /\ neg' = neg).
  { destruct neg.
    - exists true. split; [|reflexivity]. eexists. eexists. split; [reflexivity|]. split; reflexivity.
    - exists false. split; [|reflexivity]. destruct a as [|c0 a]; [congruence|]. exists c0. eexists. split; [reflexivity|].
      specialize (Hd eq_refl). cbn [hd] in Hd. rewrite (proj2 (N.eqb_neq c0 45) Hd). split; reflexivity. }
  destruct Em as (neg' & (c0 & r0 & E & En & Er) & ->). rewrite E. unfold parse_clause. rewrite <- En. cbv zeta. match goal with |- context [cut_cmp ?X] => change X with (if neg then r0 else c0 :: r0 : list N) end. rewrite Er.
  rewrite (cut_plain a _ Hx).
  destruct t as [|v|v|v]; try contradiction.
  - cbn [cut_cmp fst snd]. rewrite app_nil_r. destruct a as [|c a]; [congruence|]. destruct neg; (split; [reflexivity|discriminate]).
  - destruct Ht as [Hv _]. change (bs "=" ++ v) with (61 :: v). cbn [cut_cmp]. change (is_cmp 61) with true. cbv iota. cbn [fst snd]. rewrite app_nil_r.
    destruct v as [|v0 v]; [congruence|]. destruct a as [|c a]; [congruence|]. destruct neg; (split; [reflexivity|discriminate]).
Qed.
Lemma sel_comma c : sel_ok c -> sel_text c <> [] /\ ~ In 44 (sel_text c).
Proof.
  destruct c as [neg a t]. unfold sel_ok, sel_text. cbn [cn_not cn_attr cn_test]. intros (Ha & Hx & _ & Ht). split.
  - destruct neg; [discriminate|]. destruct a; [congruence|discriminate].
  - intro H. apply in_app_or in H as [H|H]; [destruct neg; [destruct H as [H|[]]; discriminate|destruct H]|].
    apply in_app_or in H as [H|H]; [apply Hx in H; apply (proj1 H); reflexivity|].
    destruct t as [|v|v|v]; try contradiction. apply in_app_or in H as [[H|[]]|H]; [discriminate|]. apply (proj2 Ht), H.
Qed.
Lemma selectors_ok l t : select_text l t -> Forall2 cond_is l (parse_selectors t).
Proof.
  intros (Hl & H & ->). unfold parse_selectors. rewrite split_join.
  - clear Hl. induction H as [|c l Hc Hl IH]; [constructor|]. cbn [map filter]. destruct (clause_ok c Hc) as [H1 H2].
    destruct (c_op (parse_clause (sel_text c))) eqn:E; [contradiction|..]; cbn [cop_none negb]; constructor; assumption.
  - destruct l; [congruence|discriminate].
  - clear Hl. induction H as [|c l Hc Hl IH]; constructor; [apply sel_comma, Hc|exact IH].
Qed.

(* ---------- function calls ---------- *)
Definition at_c (r : list ctok) (s : stream) : Prop := ctext r (s_rest s) /\ (s_good s = true \/ s_rest s = []).
Lemma same_q c : In c (bs ",()") <-> In c qseps.
Proof. cbn. intuition (subst; auto). Qed.
Lemma same_qs : same (bs ",()") qseps.
Proof. intro c. unfold delim. rewrite same_q. reflexivity. Qed.
Lemma ctext_cons k r t : ctext (k :: r) t -> t <> [].
Proof. intro H. inversion H; subst; intro E; apply app_eq_nil in E; destruct E as [_ E]; [apply app_eq_nil in E; destruct E; contradiction|discriminate]. Qed.
Lemma ac_good k r s : at_c (k :: r) s -> s_good s = true.
Proof. intros [H [G|G]]; [exact G|]. apply ctext_cons in H. contradiction. Qed.
Lemma ac_word w r s : at_c (CW w :: r) s -> exists s', read_word qseps s = (w, s') /\ at_c r s' /\ (length (s_rest s') < length (s_rest s))%nat.
Proof.
  intros H. pose proof (ac_good _ _ _ H) as G. destruct H as [H _]. rewrite (stream_eta s), G. cbn [s_rest].
  inversion H as [|w' r' sp i t Hsp Hi Hs Ht Hr E1 E2|]; subst.
  rewrite (read_word_ok qseps sp i w (s_prev s) t Hsp (spells_ext _ _ _ _ same_qs Hs) Hi (stops_ext _ _ _ same_qs Ht)).
  eexists. split; [reflexivity|]. split; [split; [exact Hr|]; cbn [s_good s_rest]; destruct t; [right|left]; reflexivity|].
  cbn [s_rest]. rewrite !app_length. destruct i; [congruence|]. cbn [length]. lia.
Qed.
Lemma ac_char c r s : at_c (CC c :: r) s -> isspace c = false ->
  exists s', read_char s = (c, s') /\ s_good s' = true /\ at_c r s' /\ at_c (CC c :: r) (s_unget s') /\ s_rest (s_unget s') = c :: s_rest s' /\ (length (s_rest s') < length (s_rest s))%nat.
Proof.
  intros H Hc. pose proof (ac_good _ _ _ H) as G. destruct H as [H _]. rewrite (stream_eta s), G. cbn [s_rest].
  inversion H as [| |c' r' sp t Hsp Hr E1 E2]; subst. rewrite read_char_ok by assumption.
  eexists. split; [reflexivity|]. cbn [s_good s_rest s_unget s_prev]. split; [reflexivity|]. split; [split; [exact Hr|left; reflexivity]|].
  split; [split; [apply (ct_char c r []); [constructor|exact Hr]|left; reflexivity]|]. split; [reflexivity|]. rewrite app_length. cbn [length]. lia.
Qed.
Lemma ac_end s : at_c [] s -> exists s', read_char s = (255, s') /\ s_good s' = false.
Proof.
  intros [H G]. inversion H as [sp Hsp Esp| |]; subst. destruct (s_good s) eqn:E.
  - rewrite (stream_eta s), E, read_char_end by exact Hsp. eexists. split; reflexivity.
  - destruct G as [G|G]; [discriminate G|]. exists s. unfold read_char. rewrite G. cbn [length get_nonspace]. unfold s_get. rewrite E. split; reflexivity || (split; [reflexivity|exact E]).
Qed.
Lemma ac_noword c r s : at_c (CC c :: r) s -> sep_ok qseps c -> exists s', read_word qseps s = ([], s') /\ at_c (CC c :: r) s' /\ (length (s_rest s') <= length (s_rest s))%nat.
Proof.
  intros H (H1 & H2 & H3 & H4). destruct (ac_char c r s H H2) as (s' & E & G & A & A' & Er & L). unfold read_word. rewrite E, G.
  exists (s_unget s'). pose proof (ac_good _ _ _ A') as G'. destruct (s_unget s') as [pp rr gg] eqn:Eu. cbn [s_rest s_good] in Er, G'. subst rr gg.
  rewrite loop_stop; [|split; [right; exact H1|split; assumption]]. split; [reflexivity|]. split; [exact A'|]. cbn [s_rest length]. lia.
Qed.

Lemma qarg_ok l : ~ In [] l -> l <> [] -> forall fuel r s ret, at_c (ccommas (fun a => [CW a]) l ++ CC 41 :: r) s -> (length (s_rest s) < fuel)%nat ->
  exists s', qarg_loop fuel s ret = (rev ret ++ l, s') /\ at_c r s' /\ (length (s_rest s') < length (s_rest s))%nat.
Proof.
  destruct l as [|a l]; [congruence|]. intros H _. cbn [ccommas app]. revert a H.
  induction l as [|b l IH]; intros a H fuel r s ret A Lf; (destruct fuel as [|fuel]; [lia|]); cbn [qarg_loop flat_map app] in *.
  - destruct (ac_word _ _ _ A) as (s1 & E1 & A1 & L1). rewrite E1. destruct (ac_char 41 r s1 A1 eq_refl) as (s2 & E2 & G2 & A2 & _ & _ & L2). rewrite E2.
    destruct a as [|a0 a]; [exfalso; apply H; left; reflexivity|]. change (41 =? 44) with false. change (41 =? 41) with true. cbn [orb]. rewrite andb_false_r.
    eexists. split; [cbn [rev]; reflexivity|]. split; [exact A2|lia].
  - destruct (ac_word _ _ _ A) as (s1 & E1 & A1 & L1). rewrite E1. destruct (ac_char 44 _ s1 A1 eq_refl) as (s2 & E2 & G2 & A2 & _ & _ & L2). rewrite E2, G2.
    destruct a as [|a0 a]; [exfalso; apply H; left; reflexivity|]. change (44 =? 44) with true. cbn [orb andb].
    destruct (IH b (fun X => H (or_intror X)) fuel r s2 ((a0 :: a) :: ret) A2 ltac:(lia)) as (s3 & E3 & A3 & L3).
    exists s3. split; [etransitivity; [exact E3|]; cbn [rev]; rewrite <- app_assoc; reflexivity|]. split; [exact A3|lia].
Qed.
Lemma qarglist_ok c r s : ~ In [] (call_args c) -> at_c (tl (ccall c) ++ r) s -> (r = [] \/ exists r', r = CC 44 :: r') ->
  exists s', qarglist s = (call_args c, s') /\ at_c r s' /\ (length (s_rest s') <= length (s_rest s))%nat.
Proof.
  destruct c as [f [l|]]; unfold call_args, ccall, qarglist; cbn [fst snd tl]; intros H A Hr.
  - cbn [app] in A. destruct (ac_char 40 _ s A eq_refl) as (s1 & E1 & G1 & A1 & _ & _ & L1). rewrite E1, G1. cbn [negb]. change (40 =? 40) with true. cbv iota.
    rewrite <- app_assoc in A1. cbn [app] in A1. destruct l as [|a l].
    + cbn [ccommas app] in A1. cbn [qarg_loop]. destruct (ac_noword 41 r s1 A1) as (s2 & E2 & A2 & L2); [repeat split; try discriminate; cbn; auto|]. rewrite E2.
      destruct (ac_char 41 r s2 A2 eq_refl) as (s3 & E3 & G3 & A3 & _ & _ & L3). rewrite E3. change (41 =? 44) with false. rewrite andb_false_r. change (41 =? 41) with true. cbv iota.
      eexists. split; [reflexivity|]. split; [exact A3|lia].
    + destruct (qarg_ok (a :: l) H ltac:(discriminate) (S (length (s_rest s1))) r s1 [] A1 ltac:(lia)) as (s2 & E2 & A2 & L2). rewrite E2. eexists. split; [reflexivity|]. split; [exact A2|lia].
  - cbn [app] in A. destruct Hr as [->|(r' & ->)].
    + destruct (ac_end s A) as (s1 & E1 & G1). rewrite E1, G1. cbn [negb]. exists s1. split; [reflexivity|].
      assert (En : s_rest s1 = []).
      { destruct A as [A G]. inversion A as [sp Hsp Esp| |]; subst. destruct (s_good s) eqn:Es.
        - rewrite (stream_eta s), Es, read_char_end in E1 by exact Hsp. injection E1 as <-. reflexivity.
        - destruct G as [G|G]; [discriminate|]. unfold read_char in E1. rewrite G in E1. cbn [length get_nonspace] in E1. unfold s_get in E1. rewrite Es in E1. injection E1 as <-. exact G. }
      rewrite En. split; [split; [rewrite En; constructor; constructor|right; exact En]|cbn; lia].
    + destruct (ac_char 44 _ s A eq_refl) as (s1 & E1 & G1 & A1 & A1' & Er & L1). rewrite E1, G1. cbn [negb]. change (44 =? 40) with false. cbv iota.
      eexists. split; [reflexivity|]. split; [exact A1'|]. rewrite Er. cbn [length]. lia.
Qed.
Lemma agg_find c id col : agg_call c id col -> exists d, find (fun d => beq (fst c) (f_name d)) agg_defs = Some d /\ f_id d = id /\ argc_ok d (call_args c) = true.
Proof.
  intros (name & lo & hi & pre & n & Hin & Hf & ([Hl Hh] & Hne) & _). rewrite Hf.
  assert (Hd : exists d, find (fun d => beq (bs name) (f_name d)) agg_defs = Some d /\ f_id d = id /\ f_min d = lo /\ f_max d = hi).
  { cbn [agg_functions In] in Hin. repeat (destruct Hin as [Hin|Hin]; [injection Hin as <- <- <- <- _ _; eexists; split; [vm_compute; reflexivity|]; repeat split|]). destruct Hin. }
  destruct Hd as (d & E & Ei & <- & <-). exists d. split; [exact E|]. split; [exact Ei|]. unfold argc_ok.
  destruct (Nat.ltb_spec (length (call_args c)) (f_min d)); [lia|]. destruct (Nat.ltb_spec (f_max d) (length (call_args c))); [lia|]. reflexivity.
Qed.
Lemma agg_name c id col : agg_call c id col -> fst c <> [].
Proof.
  intros (name & lo & hi & pre & n & Hin & Hf & _). rewrite Hf. cbn [agg_functions In] in Hin.
  repeat (destruct Hin as [Hin|Hin]; [injection Hin as <- _ _ _ _ _; discriminate|]). destruct Hin.
Qed.
Lemma qcall_ok c id col r s : agg_call c id col -> at_c (ccall c ++ r) s -> (r = [] \/ exists r', r = CC 44 :: r') ->
  exists op s', qcall s = (Some op, s') /\ op_is op id c /\ at_c r s' /\ (length (s_rest s') < length (s_rest s))%nat.
Proof.
  intros Hc A Hr. unfold qcall. change (ccall c ++ r) with (CW (fst c) :: (tl (ccall c) ++ r)) in A.
  destruct (ac_word _ _ _ A) as (s1 & E1 & A1 & L1). rewrite E1. pose proof (agg_name _ _ _ Hc) as Hn. destruct (agg_find _ _ _ Hc) as (d & Ed & Ei & Ea).
  pose proof Hc as (_ & _ & _ & _ & _ & _ & _ & (_ & Hne) & _).
  destruct (qarglist_ok c r s1 Hne A1 Hr) as (s2 & E2 & A2 & L2).
  destruct (fst c) as [|c0 cr] eqn:Ef; [congruence|]. rewrite Ed, E2, Ea. eexists. eexists. split; [reflexivity|]. split; [split; [exact Ei|reflexivity]|]. split; [exact A2|lia].
Qed.
Lemma qcalls_ok l : l <> [] -> Forall (fun c => exists id col, agg_call c id col) l -> forall fuel s acc, at_c (ccommas ccall l) s -> (length (s_rest s) < fuel)%nat ->
  exists ops, qcalls fuel s acc = acc ++ ops /\ Forall2 (fun c o => exists id col, agg_call c id col /\ op_is o id c) l ops.
Proof.
  destruct l as [|c l]; [congruence|]. intros _. cbn [ccommas]. revert c.
  induction l as [|d l IH]; intros c H fuel s acc A Lf; (destruct fuel as [|fuel]; [lia|]); inversion H as [|? ? (id & col & Hc) Hl]; subst; cbn [qcalls flat_map app] in *.
  - destruct (qcall_ok c id col [] s Hc A (or_introl eq_refl)) as (op & s1 & E1 & O1 & A1 & L1). rewrite E1.
    destruct (ac_end s1 A1) as (s2 & E2 & G2). rewrite E2, G2. cbn [andb]. eexists. split; [reflexivity|]. constructor; [exists id, col; split; assumption|constructor].
  - destruct (qcall_ok c id col _ s Hc A (or_intror (ex_intro _ _ eq_refl))) as (op & s1 & E1 & O1 & A1 & L1). rewrite E1.
    destruct (ac_char 44 _ s1 A1 eq_refl) as (s2 & E2 & G2 & A2 & _ & _ & L2). rewrite E2, G2. change (44 =? 44) with true. cbn [andb].
    destruct (IH d Hl fuel s2 (acc ++ [op]) A2 ltac:(lia)) as (ops & E3 & F3). rewrite E3. exists (op :: ops). split; [rewrite <- app_assoc; reflexivity|].
    constructor; [exists id, col; split; assumption|exact F3].
Qed.
