(* Proofs about the word, nested text, list and dictionary readers *)
From Verif Require Import Base TextModel ParseModel ParseSpec.
Open Scope N_scope.

Lemma get_good p c r : s_get (mks p (c :: r) true) = (c, mks (c :: p) r true). Proof. reflexivity. Qed.
Lemma isspace_not c : isspace c = true -> c <> 34 /\ c <> 92.
Proof. intro H. split; intros ->; discriminate H. Qed.
Lemma is_one_of_spec c l : is_one_of c l = true <-> In c l.
Proof. unfold is_one_of. rewrite existsb_exists. split; [intros (x & H & E); apply N.eqb_eq in E; subst; exact H|intro H; exists c; split; [exact H|apply N.eqb_refl]]. Qed.
Lemma delim_spec seps c : isspace c || is_one_of c seps = true <-> delim seps c.
Proof. unfold delim. rewrite orb_true_iff, is_one_of_spec. reflexivity. Qed.
Lemma delim_false seps c : ~ delim seps c -> isspace c || is_one_of c seps = false.
Proof. intro H. destruct (isspace c || is_one_of c seps) eqn:E; [|reflexivity]. apply delim_spec in E. contradiction. Qed.
Lemma plain_nospace seps c : plain seps c -> isspace c = false.
Proof. intros (_ & _ & H). destruct (isspace c) eqn:E; [|reflexivity]. exfalso. apply H. left. exact E. Qed.

(* ---------- read_char ---------- *)
Lemma nonspace_ok sp : spaces sp -> forall fuel p c r, (length sp <= fuel)%nat -> isspace c = false -> get_nonspace fuel (mks p (sp ++ c :: r) true) = (c, mks (c :: rev sp ++ p) r true).
Proof.
  induction 1 as [|x sp Hx Hsp IH]; intros fuel p c r Hf Hc.
  - cbn [app rev]. destruct fuel; cbn [get_nonspace]; rewrite get_good; cbn [s_good andb]; [reflexivity|]. rewrite Hc. reflexivity.
  - cbn [length app] in *. destruct fuel as [|f]; [lia|]. cbn [get_nonspace]. rewrite get_good. cbn [s_good andb]. rewrite Hx. rewrite IH by (lia || exact Hc). cbn [rev]. rewrite <- app_assoc. reflexivity.
Qed.
Lemma read_char_ok sp p c r : spaces sp -> isspace c = false -> read_char (mks p (sp ++ c :: r) true) = (c, mks (c :: rev sp ++ p) r true).
Proof. intros H Hc. unfold read_char. apply nonspace_ok; [exact H| |exact Hc]. cbn [s_rest]. rewrite app_length. lia. Qed.
Lemma nonspace_end sp : spaces sp -> forall fuel p, (length sp <= fuel)%nat -> get_nonspace fuel (mks p sp true) = (255, mks (rev sp ++ p) [] false).
Proof.
  induction 1 as [|x sp Hx Hsp IH]; intros fuel p Hf.
  - destruct fuel; reflexivity.
  - cbn [length] in *. destruct fuel as [|f]; [lia|]. cbn [get_nonspace]. rewrite get_good. cbn [s_good andb]. rewrite Hx. rewrite IH by lia. cbn [rev]. rewrite <- app_assoc. reflexivity.
Qed.
Lemma read_char_end sp p : spaces sp -> read_char (mks p sp true) = (255, mks (rev sp ++ p) [] false).
Proof. intro H. unfold read_char. apply nonspace_end; [exact H|reflexivity]. Qed.
Lemma split_spaces s : exists sp r, s = sp ++ r /\ spaces sp /\ match r with [] => True | c :: _ => isspace c = false end.
Proof.
  induction s as [|c s (sp & r & -> & Hs & Hr)]; [exists [], []; repeat split; constructor|]. destruct (isspace c) eqn:E.
  - exists (c :: sp), r. split; [reflexivity|]. split; [constructor; assumption|exact Hr].
  - exists [], (c :: sp ++ r). split; [reflexivity|]. split; [constructor|exact E].
Qed.

(* ---------- read_word ---------- *)
Section WORD.
Variable seps : bytes.
Lemma quoted_loop i w : quoted i w -> exists k, (k <= length i)%nat /\ forall p r ret fuel, word_loop seps (k + fuel) (mks p (i ++ r) true) true ret = word_loop seps fuel (mks (rev i ++ p) r true) true (rev w ++ ret).
Proof.
  induction 1 as [|c i w H1 H2 Hq (k & Hk & IH)|c i w Hq (k & Hk & IH)].
  - exists 0%nat. split; [cbn; lia|]. reflexivity.
  - exists (S k). split; [cbn [length]; lia|]. intros p r ret fuel. cbn [Nat.add word_loop s_good app]. rewrite get_good. rewrite (proj2 (N.eqb_neq c 92) H2), (proj2 (N.eqb_neq c 34) H1). cbn [s_good negb andb]. rewrite IH. cbn [rev]. rewrite <- !app_assoc. reflexivity.
  - exists (S k). split; [cbn [length]; lia|]. intros p r ret fuel. cbn [Nat.add word_loop s_good app]. rewrite get_good, N.eqb_refl. rewrite get_good. cbn [s_good]. rewrite IH. cbn [rev]. rewrite <- !app_assoc. reflexivity.
Qed.
Lemma spells_loop i w : spells seps i w -> exists k, (k <= length i)%nat /\ forall p r ret fuel, word_loop seps (k + fuel) (mks p (i ++ r) true) false ret = word_loop seps fuel (mks (rev i ++ p) r true) false (rev w ++ ret).
Proof.
  induction 1 as [|c i w Hp Hs (k & Hk & IH)|c i w Hs (k & Hk & IH)|i w i' w' Hq Hs (k & Hk & IH)].
  - exists 0%nat. split; [cbn; lia|]. reflexivity.
  - exists (S k). split; [cbn [length]; lia|]. destruct Hp as (H1 & H2 & H3). intros p r ret fuel. cbn [Nat.add word_loop s_good app]. rewrite get_good. rewrite (proj2 (N.eqb_neq c 92) H2), (proj2 (N.eqb_neq c 34) H1), (delim_false seps c H3). cbn [s_good negb andb]. rewrite IH. cbn [rev]. rewrite <- !app_assoc. reflexivity.
  - exists (S k). split; [cbn [length]; lia|]. intros p r ret fuel. cbn [Nat.add word_loop s_good app]. rewrite get_good, N.eqb_refl. rewrite get_good. cbn [s_good]. rewrite IH. cbn [rev]. rewrite <- !app_assoc. reflexivity.
  - destruct (quoted_loop i w Hq) as (q & Hq1 & Hq2). exists (S (q + S k)). split; [cbn [length]; rewrite app_length; cbn [length]; lia|]. intros p r ret fuel.
    cbn [Nat.add word_loop s_good app]. rewrite get_good. change (34 =? 92) with false. change (34 =? 34) with true. cbv iota. cbn [negb]. rewrite <- app_assoc, <- Nat.add_assoc. rewrite Hq2.
    cbn [Nat.add word_loop s_good app]. rewrite get_good. change (34 =? 92) with false. change (34 =? 34) with true. cbv iota. cbn [negb]. rewrite IH. f_equal; [f_equal|]; cbn [rev]; rewrite ?rev_app_distr; cbn [rev app]; rewrite <- ?app_assoc; reflexivity.
Qed.
Definition alive (r : bytes) : bool := match r with [] => false | _ => true end.
Lemma loop_stop p r ret fuel : stops seps r -> word_loop seps (S fuel) (mks p r true) false ret = (rev ret, mks p r (alive r)).
Proof.
  intro H. destruct r as [|c r]; cbn [word_loop s_good]; [reflexivity|]. destruct H as (H1 & H2 & H3). rewrite get_good, (proj2 (N.eqb_neq c 92) H3), (proj2 (N.eqb_neq c 34) H2). cbn [s_good negb andb]. rewrite (proj2 (delim_spec seps c) H1). reflexivity.
Qed.
Lemma word_loop_ok i w p r ret fuel : spells seps i w -> stops seps r -> (length i < fuel)%nat -> word_loop seps fuel (mks p (i ++ r) true) false ret = (rev ret ++ w, mks (rev i ++ p) r (alive r)).
Proof.
  intros Hs Hr Hf. destruct (spells_loop i w Hs) as (k & Hk & H). replace fuel with (k + S (fuel - k - 1))%nat by lia. rewrite H, loop_stop by exact Hr. rewrite rev_app_distr, rev_involutive. reflexivity.
Qed.
Lemma spells_head i w : spells seps i w -> match i with [] => True | c :: _ => isspace c = false end.
Proof. destruct 1; auto. eapply plain_nospace; eassumption. Qed.
Lemma read_word_ok sp i w p r : spaces sp -> spells seps i w -> i <> [] -> stops seps r -> read_word seps (mks p (sp ++ i ++ r) true) = (w, mks (rev i ++ rev sp ++ p) r (alive r)).
Proof.
  intros Hsp Hs Hi Hr. assert (Hh := spells_head i w Hs). destruct i as [|c i]; [congruence|]. unfold read_word. cbn [app]. rewrite read_char_ok by assumption. cbn [s_good s_unget s_prev s_rest].
  change (c :: i ++ r) with ((c :: i) ++ r). rewrite (word_loop_ok (c :: i) w _ r [] _ Hs Hr); [reflexivity|]. rewrite app_length. lia.
Qed.
(* every input *)
Lemma quoted_total n : forall r p ret fuel, (length r <= n)%nat -> (n + 1 < fuel)%nat ->
  (exists i w r' f', r = i ++ 34 :: r' /\ quoted i w /\ (length r' + 1 < f')%nat /\ word_loop seps fuel (mks p r true) true ret = word_loop seps f' (mks (34 :: rev i ++ p) r' true) false (rev w ++ ret)) \/
  (exists i w t, r = i ++ t /\ quoted i w /\ (t = [] \/ t = [92]) /\ exists p', word_loop seps fuel (mks p r true) true ret = (rev ret ++ w, mks p' [] false) /\ p' = rev r ++ p).
Proof.
  induction n as [n IH] using lt_wf_ind. intros r p ret fuel Hl Hf. destruct fuel as [|fuel]; [lia|]. destruct r as [|c r].
  - right. exists [], [], []. split; [reflexivity|]. split; [constructor|]. split; [auto|]. exists p. rewrite app_nil_r. split; reflexivity.
  - cbn [length] in Hl. cbn [word_loop s_good]. rewrite get_good. destruct (N.eqb_spec c 92) as [->|H92]; [|destruct (N.eqb_spec c 34) as [->|H34]].
    + destruct r as [|c2 r].
      * right. exists [], [], [92]. split; [reflexivity|]. split; [constructor|]. split; [auto|]. cbn [s_get s_good s_rest s_prev]. cbv iota. exists (92 :: p). destruct fuel; cbn [word_loop s_good]; rewrite app_nil_r; auto.
      * rewrite get_good. cbn [s_good]. cbn [length] in Hl. destruct (IH (n - 2)%nat ltac:(lia) r (c2 :: 92 :: p) (c2 :: ret) fuel ltac:(lia) ltac:(lia)) as [(i & w & r' & f' & -> & Hq & Hf' & E)|(i & w & t & -> & Hq & Ht & p' & E & Ep)].
        -- left. exists (92 :: c2 :: i), (c2 :: w), r', f'. split; [reflexivity|]. split; [constructor; exact Hq|]. split; [exact Hf'|]. rewrite E. cbn [rev]. rewrite <- !app_assoc. reflexivity.
        -- right. exists (92 :: c2 :: i), (c2 :: w), t. split; [reflexivity|]. split; [constructor; exact Hq|]. split; [exact Ht|]. exists p'. rewrite E, Ep. cbn [rev]. rewrite <- !app_assoc. auto.
    + left. exists [], [], r, fuel. split; [reflexivity|]. split; [constructor|]. split; [lia|]. reflexivity.
    + cbn [s_good negb andb]. destruct (IH (n - 1)%nat ltac:(lia) r (c :: p) (c :: ret) fuel ltac:(lia) ltac:(lia)) as [(i & w & r' & f' & -> & Hq & Hf' & E)|(i & w & t & -> & Hq & Ht & p' & E & Ep)].
      * left. exists (c :: i), (c :: w), r', f'. split; [reflexivity|]. split; [constructor; assumption|]. split; [exact Hf'|]. rewrite E. cbn [rev]. rewrite <- !app_assoc. reflexivity.
      * right. exists (c :: i), (c :: w), t. split; [reflexivity|]. split; [constructor; assumption|]. split; [exact Ht|]. exists p'. rewrite E, Ep. cbn [rev]. rewrite <- !app_assoc. auto.
Qed.
Definition outcome (i w r' : bytes) : Prop := spells seps i w /\ stops seps r' \/ cut_off seps i w /\ r' = [].
Lemma outcome_char c i w r : plain seps c -> outcome i w r -> outcome (c :: i) (c :: w) r.
Proof.
  intros Hc [(H & Hr)|((i1 & w1 & Hs & H) & Hr)]; [left; split; [constructor; assumption|exact Hr]|right; split; [|exact Hr]]. exists (c :: i1), (c :: w1). split; [constructor; assumption|].
  destruct H as [(-> & ->)|(i2 & w2 & t & Hq & -> & -> & Ht)]; [left; split; reflexivity|right; exists i2, w2, t; auto].
Qed.
Lemma outcome_esc c i w r : outcome i w r -> outcome (92 :: c :: i) (c :: w) r.
Proof.
  intros [(H & Hr)|((i1 & w1 & Hs & H) & Hr)]; [left; split; [constructor; assumption|exact Hr]|right; split; [|exact Hr]]. exists (92 :: c :: i1), (c :: w1). split; [constructor; assumption|].
  destruct H as [(-> & ->)|(i2 & w2 & t & Hq & -> & -> & Ht)]; [left; split; reflexivity|right; exists i2, w2, t; auto].
Qed.
Lemma outcome_quote i w i' w' r : quoted i w -> outcome i' w' r -> outcome (34 :: i ++ 34 :: i') (w ++ w') r.
Proof.
  intros Hq [(H & Hr)|((i1 & w1 & Hs & H) & Hr)]; [left; split; [constructor; assumption|exact Hr]|right; split; [|exact Hr]]. exists (34 :: i ++ 34 :: i1), (w ++ w1). split; [constructor; assumption|].
  destruct H as [(-> & ->)|(i2 & w2 & t & Hq2 & -> & -> & Ht)]; [left; split; [cbn [app]; rewrite <- app_assoc; reflexivity|reflexivity]|right; exists i2, w2, t]. split; [exact Hq2|]. split; [cbn [app]; rewrite <- !app_assoc; reflexivity|]. split; [rewrite app_assoc; reflexivity|exact Ht].
Qed.
Lemma word_total n : forall r p ret fuel, (length r <= n)%nat -> (n + 1 < fuel)%nat ->
  exists i w r', r = i ++ r' /\ outcome i w r' /\ word_loop seps fuel (mks p r true) false ret = (rev ret ++ w, mks (rev i ++ p) r' (alive r')).
Proof.
  induction n as [n IH] using lt_wf_ind. intros r p ret fuel Hl Hf. destruct fuel as [|fuel]; [lia|]. destruct r as [|c r].
  - exists [], [], []. split; [reflexivity|]. split; [left; split; [constructor|exact Logic.I]|]. rewrite app_nil_r. reflexivity.
  - cbn [length] in Hl. cbn [word_loop s_good]. rewrite get_good. destruct (N.eqb_spec c 92) as [->|H92]; [|destruct (N.eqb_spec c 34) as [->|H34]].
    + destruct r as [|c2 r].
      * exists [92], [], []. split; [reflexivity|]. split; [right; split; [|reflexivity]; exists [], []; split; [constructor|left; split; reflexivity]|]. cbn [s_get s_good s_rest s_prev]. cbv iota. destruct fuel; cbn [word_loop s_good]; rewrite app_nil_r; reflexivity.
      * rewrite get_good. cbn [s_good]. cbn [length] in Hl. destruct (IH (n - 2)%nat ltac:(lia) r (c2 :: 92 :: p) (c2 :: ret) fuel ltac:(lia) ltac:(lia)) as (i & w & r' & -> & Ho & E).
        exists (92 :: c2 :: i), (c2 :: w), r'. split; [reflexivity|]. split; [apply outcome_esc; exact Ho|]. rewrite E. cbn [rev]. rewrite <- !app_assoc. reflexivity.
    + cbn [negb]. destruct (quoted_total (n - 1)%nat r (34 :: p) ret fuel ltac:(lia) ltac:(lia)) as [(i & w & r' & f' & -> & Hq & Hf' & E)|(i & w & t & -> & Hq & Ht & p' & E & Ep)].
      * rewrite app_length in Hl. cbn [length] in Hl. destruct (IH (length r') ltac:(lia) r' (34 :: rev i ++ 34 :: p) (rev w ++ ret) f' ltac:(lia) ltac:(lia)) as (i2 & w2 & r2 & -> & Ho & E2).
        exists (34 :: i ++ 34 :: i2), (w ++ w2), r2. split; [cbn [app]; rewrite <- app_assoc; reflexivity|]. split; [apply outcome_quote; assumption|]. rewrite E, E2. f_equal; [rewrite rev_app_distr, rev_involutive, <- app_assoc; reflexivity|]. f_equal. cbn [rev]. rewrite rev_app_distr. cbn [rev]. rewrite <- !app_assoc. reflexivity.
      * exists (34 :: i ++ t), w, []. split; [rewrite app_nil_r; reflexivity|]. split; [right; split; [|reflexivity]; exists [], []; split; [constructor|right; exists i, w, t; auto]|]. rewrite E, Ep. cbn [rev alive]. rewrite <- app_assoc. reflexivity.
    + cbn [s_good negb andb]. destruct (isspace c || is_one_of c seps) eqn:Ed.
      * exists [], [], (c :: r). split; [reflexivity|]. split; [left; split; [constructor|]|]. { split; [apply delim_spec; exact Ed|auto]. } rewrite app_nil_r. reflexivity.
      * destruct (IH (n - 1)%nat ltac:(lia) r (c :: p) (c :: ret) fuel ltac:(lia) ltac:(lia)) as (i & w & r' & -> & Ho & E).
        exists (c :: i), (c :: w), r'. split; [reflexivity|]. split; [apply outcome_char; [|exact Ho]|]. { split; [exact H34|]. split; [exact H92|]. intro D. apply delim_spec in D. congruence. } rewrite E. cbn [rev]. rewrite <- !app_assoc. reflexivity.
Qed.
Lemma read_word_total s p : exists sp i w r, s = sp ++ i ++ r /\ spaces sp /\ outcome i w r /\ read_word seps (mks p s true) = (w, mks (rev i ++ rev sp ++ p) r (alive r)).
Proof.
  destruct (split_spaces s) as (sp & r & -> & Hsp & Hr). unfold read_word. destruct r as [|c r].
  - rewrite app_nil_r. exists sp, [], [], []. rewrite !app_nil_r. split; [reflexivity|]. split; [exact Hsp|]. split; [left; split; [constructor|exact Logic.I]|]. rewrite read_char_end by exact Hsp. reflexivity.
  - rewrite read_char_ok by assumption. cbn [s_good s_unget s_prev s_rest]. destruct (word_total (length (c :: r)) (c :: r) (rev sp ++ p) [] (S (S (length (c :: r)))) ltac:(lia) ltac:(lia)) as (i & w & r' & E & Ho & W).
    exists sp, i, w, r'. rewrite E in *. split; [reflexivity|]. split; [exact Hsp|]. split; [exact Ho|]. exact W.
Qed.
End WORD.

(* ---------- quoting ---------- *)
Lemma quote_body w : quoted (flat_map (fun c => if (c =? 34) || (c =? 92) then [92; c] else [c]) w) w.
Proof.
  induction w as [|c w IH]; cbn [flat_map]; [constructor|]. destruct (N.eqb_spec c 34) as [->|H1]; [constructor; exact IH|]. destruct (N.eqb_spec c 92) as [->|H2]; cbn [orb app]; [constructor; exact IH|constructor; assumption].
Qed.
Lemma quote_spells seps w : spells seps (quote w) w.
Proof. unfold quote. replace w with (w ++ []) at 2 by apply app_nil_r. apply (sp_quote seps _ w [] [] (quote_body w)). constructor. Qed.

(* ---------- nested text ---------- *)
Section NEST.
Variables cs ce : N.
Hypothesis Hcs : cs <> 34 /\ cs <> 92.
Hypothesis Hce : ce <> 34 /\ ce <> 92.
Hypothesis Hne : cs <> ce.
Lemma nquoted_loop i w : quoted i w -> exists k, (k <= length i)%nat /\ forall p r d ret fuel, (0 < d)%Z -> nested_loop cs ce (k + fuel) (mks p (i ++ r) true) true d ret = nested_loop cs ce fuel (mks (rev i ++ p) r true) true d (rev i ++ ret).
Proof.
  induction 1 as [|c i w H1 H2 Hq (k & Hk & IH)|c i w Hq (k & Hk & IH)].
  - exists 0%nat. split; [cbn; lia|]. reflexivity.
  - exists (S k). split; [cbn [length]; lia|]. intros p r d ret fuel Hd. cbn [Nat.add nested_loop s_good app]. rewrite get_good. rewrite (proj2 (N.eqb_neq c 92) H2), (proj2 (N.eqb_neq c 34) H1). cbn [s_good negb andb]. rewrite (proj2 (Z.eqb_neq d 0)) by lia. rewrite IH by exact Hd. cbn [rev]. rewrite <- !app_assoc. reflexivity.
  - exists (S k). split; [cbn [length]; lia|]. intros p r d ret fuel Hd. cbn [Nat.add nested_loop s_good app]. rewrite get_good, N.eqb_refl. rewrite get_good. cbn [s_good]. rewrite IH by exact Hd. cbn [rev]. rewrite <- !app_assoc. reflexivity.
Qed.
Lemma balanced_loop t : balanced cs ce t -> exists k, (k <= length t)%nat /\ forall p r d ret fuel, (0 < d)%Z -> nested_loop cs ce (k + fuel) (mks p (t ++ r) true) false d ret = nested_loop cs ce fuel (mks (rev t ++ p) r true) false d (rev t ++ ret).
Proof.
  induction 1 as [|c t H1 H2 H3 H4 Hb (k & Hk & IH)|c t Hb (k & Hk & IH)|i w t Hq Hb (k & Hk & IH)|t t' Hb (k & Hk & IH) Hb' (k' & Hk' & IH')].
  - exists 0%nat. split; [cbn; lia|]. reflexivity.
  - exists (S k). split; [cbn [length]; lia|]. intros p r d ret fuel Hd. cbn [Nat.add nested_loop s_good app]. rewrite get_good. rewrite (proj2 (N.eqb_neq c 92) H2), (proj2 (N.eqb_neq c 34) H1), (proj2 (N.eqb_neq c cs) H3), (proj2 (N.eqb_neq c ce) H4). cbn [s_good negb andb]. rewrite (proj2 (Z.eqb_neq d 0)) by lia. rewrite IH by exact Hd. cbn [rev]. rewrite <- !app_assoc. reflexivity.
  - exists (S k). split; [cbn [length]; lia|]. intros p r d ret fuel Hd. cbn [Nat.add nested_loop s_good app]. rewrite get_good, N.eqb_refl. rewrite get_good. cbn [s_good]. rewrite IH by exact Hd. cbn [rev]. rewrite <- !app_assoc. reflexivity.
  - destruct (nquoted_loop i w Hq) as (q & Hq1 & Hq2). exists (S (q + S k)). split; [cbn [length]; rewrite app_length; cbn [length]; lia|]. intros p r d ret fuel Hd.
    cbn [Nat.add nested_loop s_good app]. rewrite get_good. change (34 =? 92) with false. change (34 =? 34) with true. cbv iota. cbn [negb s_good]. rewrite (proj2 (Z.eqb_neq d 0)) by lia. rewrite <- app_assoc, <- Nat.add_assoc. rewrite Hq2 by exact Hd.
    cbn [Nat.add nested_loop s_good app]. rewrite get_good. change (34 =? 92) with false. change (34 =? 34) with true. cbv iota. cbn [negb s_good]. rewrite (proj2 (Z.eqb_neq d 0)) by lia. rewrite IH by exact Hd. f_equal; [f_equal|]; cbn [rev]; rewrite ?rev_app_distr; cbn [rev app]; rewrite <- ?app_assoc; reflexivity.
  - exists (S (k + S k')). split; [cbn [length]; rewrite app_length; cbn [length]; lia|]. destruct Hcs as (C1 & C2). destruct Hce as (E1 & E2). intros p r d ret fuel Hd.
    cbn [Nat.add nested_loop s_good app]. rewrite get_good. rewrite (proj2 (N.eqb_neq cs 92) C2), (proj2 (N.eqb_neq cs 34) C1), N.eqb_refl. cbn [s_good negb andb]. rewrite (proj2 (Z.eqb_neq (d + 1) 0)) by lia. rewrite <- app_assoc, <- Nat.add_assoc. rewrite IH by lia.
    cbn [Nat.add nested_loop s_good app]. rewrite get_good. rewrite (proj2 (N.eqb_neq ce 92) E2), (proj2 (N.eqb_neq ce 34) E1), (proj2 (N.eqb_neq ce cs) (not_eq_sym Hne)), N.eqb_refl. cbn [s_good negb andb]. replace (d + 1 - 1)%Z with d by lia. rewrite (proj2 (Z.eqb_neq d 0)) by lia. rewrite IH' by exact Hd. f_equal; [f_equal|]; cbn [rev]; rewrite ?rev_app_distr; cbn [rev app]; rewrite <- ?app_assoc; reflexivity.
Qed.
Lemma read_nested_ok t p r : balanced cs ce t -> read_nested_text cs ce (mks p (t ++ ce :: r) true) = (t, mks (rev t ++ p) (ce :: r) true).
Proof.
  intro H. destruct (balanced_loop t H) as (k & Hk & E). unfold read_nested_text. cbn [s_rest]. rewrite app_length. cbn [length]. replace (S (S (length t + S (length r)))) with (k + S (length t + 2 + length r - k))%nat by lia. rewrite E by lia.
  destruct Hce as (E1 & E2). cbn [nested_loop s_good]. rewrite get_good. rewrite (proj2 (N.eqb_neq ce 92) E2), (proj2 (N.eqb_neq ce 34) E1), (proj2 (N.eqb_neq ce cs) (not_eq_sym Hne)), N.eqb_refl. cbn [s_good negb andb]. change (1 - 1 =? 0)%Z with true. cbv iota. rewrite app_nil_r, rev_involutive. reflexivity.
Qed.
End NEST.
Lemma balanced_app cs ce a b : balanced cs ce a -> balanced cs ce b -> balanced cs ce (a ++ b).
Proof.
  intros Ha Hb. induction Ha; cbn [app]; auto; try (constructor; auto; fail).
  - rewrite <- app_assoc. cbn [app]. eapply b_quote; eauto.
  - rewrite <- app_assoc. cbn [app]. apply b_nest; auto.
Qed.
