(* The concrete database represents a list of groups *)
From Verif Require Import Base VariantModel ArithModel RtAggModel RtAggSpec.
Open Scope nat_scope.

Record grp := mkgrp { g_key : list rent; g_bk : nat; g_cnt : N; g_ks : list kern }.
Definition klen (gs : list grp) : nat := length (concat (map g_key gs)).
Definition nlen (gs : list grp) : nat := length (concat (map g_ks gs)).
(* index (from 1) of the last group in bucket h, 0 if there is none *)
Definition tops (h : nat) (gs : list grp) : nat * nat :=
  fold_left (fun p g => (S (fst p), if g_bk g =? h then fst p else snd p)) gs (1, 0).
Definition top (h : nat) (gs : list grp) : nat := snd (tops h gs).
Lemma tops_fst h gs : fst (tops h gs) = S (length gs).
Proof.
  unfold tops. assert (H : forall l p, fst (fold_left (fun p g => (S (fst p), if g_bk g =? h then fst p else snd p)) l p) = fst p + length l).
  { induction l as [|g l IH]; intro p; cbn [fold_left length]; [lia|]. rewrite IH. cbn [fst]. lia. }
  rewrite H. cbn [fst]. lia.
Qed.
Lemma top_snoc h gs g : top h (gs ++ [g]) = if g_bk g =? h then S (length gs) else top h gs.
Proof. unfold top, tops. rewrite fold_left_app. cbn [fold_left snd]. rewrite <- (tops_fst h gs). reflexivity. Qed.
Lemma top_nil h : top h [] = 0. Proof. reflexivity. Qed.
Lemma top_spec h gs :
  (top h gs = 0 /\ forall i g, nth_error gs i = Some g -> g_bk g <> h) \/
  (exists i g, top h gs = S i /\ nth_error gs i = Some g /\ g_bk g = h /\ forall j g', i < j -> nth_error gs j = Some g' -> g_bk g' <> h).
Proof.
  induction gs as [|x l IH] using rev_ind.
  - left. split; auto. intros [|i] g H; discriminate.
  - rewrite top_snoc. destruct (Nat.eqb_spec (g_bk x) h) as [E|E].
    + right. exists (length l), x. split; auto. split; [rewrite nth_error_app2, Nat.sub_diag by lia; reflexivity|]. split; auto.
      intros j g' Hj H. assert (nth_error (l ++ [x]) j = None) by (apply nth_error_None; rewrite app_length; cbn; lia). congruence.
    + assert (Hlast : forall j g', nth_error (l ++ [x]) j = Some g' -> (nth_error l j = Some g') \/ g' = x).
      { intros j g' H. destruct (Nat.lt_ge_cases j (length l)) as [L|L]; [rewrite nth_error_app1 in H by auto; auto|].
        rewrite nth_error_app2 in H by auto. destruct (j - length l) as [|k]; cbn in H; [inversion H; auto|destruct k; discriminate]. }
      destruct IH as [(-> & H)|(i & g & -> & Hi & Hb & H)].
      * left. split; auto. intros i g Hg. destruct (Hlast i g Hg) as [A|A]; [eapply H; eauto|subst; auto].
      * right. exists i, g. split; auto. split; [rewrite nth_error_app1; [auto|apply nth_error_Some; congruence]|]. split; auto.
        intros j g' Hj Hg'. destruct (Hlast j g' Hg') as [A|A]; [eapply H; eauto|subst; auto].
Qed.

Record Rep (d : adb) (k0 : list rent) (c0 : N) (gs : list grp) : Prop := mkRep {
  rp_len : length (d_ents d) = S (length gs);
  rp_0 : nth_error (d_ents d) 0 = Some (mkaent c0 0 1 0 0 0);
  rp_nth : forall i g, nth_error gs i = Some g ->
    nth_error (d_ents d) (S i) = Some (mkaent (g_cnt g) (length k0 + klen (firstn i gs)) (length (g_key g)) (nlen (firstn i gs)) (length (g_ks g)) (top (g_bk g) (firstn i gs)));
  rp_keys : d_keyents d = k0 ++ concat (map g_key gs);
  rp_kerns : d_kerns d = concat (map g_ks gs);
  rp_hlen : length (d_hash d) = NBUCKETS;
  rp_hash : forall h, h < NBUCKETS -> nth_error (d_hash d) h = Some (top h gs) }.

Lemma key_eqb_len m a : forall b, key_eqb m a b = true -> length a = length b.
Proof. induction a as [|x a IH]; intros [|y b]; cbn; try discriminate; auto. rewrite andb_true_iff. intros (_ & H). f_equal. auto. Qed.
Lemma range_app {A} (a b c : list A) : range (a ++ b ++ c) (length a) (length b) = Some b.
Proof.
  unfold range. rewrite !app_length. assert (E : (length a + length b <=? length a + (length b + length c)) = true) by (apply Nat.leb_le; lia). rewrite E.
  rewrite skipn_app, skipn_all, Nat.sub_diag. cbn [skipn app]. rewrite firstn_app, Nat.sub_diag, firstn_all. cbn. rewrite app_nil_r. reflexivity.
Qed.
Lemma nth_split_at {A} (l : list A) i x : nth_error l i = Some x -> l = firstn i l ++ x :: skipn (S i) l /\ length (firstn i l) = i.
Proof.
  revert i. induction l as [|y l IH]; intros [|i]; cbn; try discriminate.
  - intro H. inversion H; subst. auto.
  - intro H. destruct (IH i H) as (E & L). split; [f_equal; exact E|f_equal; exact L].
Qed.
Lemma concat_map_at {A B} (f : A -> list B) l i x : nth_error l i = Some x ->
  concat (map f l) = concat (map f (firstn i l)) ++ f x ++ concat (map f (skipn (S i) l)).
Proof. intro H. destruct (nth_split_at l i x H) as (E & _). rewrite E at 1. rewrite map_app, concat_app. cbn. reflexivity. Qed.
Lemma key_range d k0 c0 gs i g : Rep d k0 c0 gs -> nth_error gs i = Some g ->
  range (d_keyents d) (length k0 + klen (firstn i gs)) (length (g_key g)) = Some (g_key g).
Proof.
  intros R H. rewrite (rp_keys _ _ _ _ R). rewrite (concat_map_at g_key gs i g H). unfold klen. rewrite app_assoc, <- app_length. apply range_app.
Qed.
Lemma kern_range d k0 c0 gs i g : Rep d k0 c0 gs -> nth_error gs i = Some g ->
  range (d_kerns d) (nlen (firstn i gs)) (length (g_ks g)) = Some (g_ks g).
Proof. intros R H. rewrite (rp_kerns _ _ _ _ R). rewrite (concat_map_at g_ks gs i g H). unfold nlen. apply range_app. Qed.

Lemma firstn_firstn_nth {A} (l : list A) b i : i < b -> firstn i (firstn b l) = firstn i l.
Proof. intro H. rewrite firstn_firstn. f_equal. lia. Qed.
Lemma nth_firstn {A} (l : list A) b i : i < b -> nth_error (firstn b l) i = nth_error l i.
Proof. revert b i. induction l as [|x l IH]; intros b i H; [rewrite firstn_nil; reflexivity|]. destruct b; [lia|]. destruct i; cbn; auto. apply IH. lia. Qed.
Lemma nth_firstn_lt {A} (l : list A) b i x : nth_error (firstn b l) i = Some x -> i < b /\ nth_error l i = Some x.
Proof.
  intro H. assert (L : i < length (firstn b l)) by (apply nth_error_Some; congruence). rewrite firstn_length in L.
  split; [lia|]. rewrite <- H. symmetry. apply nth_firstn. lia.
Qed.
Lemma chain_ok m d k0 c0 gs key bk : Rep d k0 c0 gs -> forall b fuel, b <= length gs -> b < fuel ->
  exists r, achain m fuel d key (top bk (firstn b gs)) = Some r /\
  match r with
  | Some j => exists i g, j = S i /\ i < b /\ nth_error gs i = Some g /\ g_bk g = bk /\ key_eqb m key (g_key g) = true
  | None => forall i g, i < b -> nth_error gs i = Some g -> g_bk g = bk -> key_eqb m key (g_key g) = false
  end.
Proof.
  intro R. induction b as [b IH] using lt_wf_ind. intros fuel Hb Hf. destruct fuel as [|f]; [lia|]. cbn [achain].
  destruct (top_spec bk (firstn b gs)) as [(-> & Hn)|(i & g & -> & Hi & Hbk & Hn)].
  - exists None. split; auto. intros i g Hi Hg Hk. exfalso. apply (Hn i g); auto. rewrite nth_firstn; auto.
  - apply nth_firstn_lt in Hi as (Li & Hi). rewrite (rp_nth _ _ _ _ R i g Hi). cbn [a_klen a_kidx a_next].
    rewrite (key_range _ _ _ _ i g R Hi). rewrite Hbk.
    destruct (IH i Li f ltac:(lia) ltac:(lia)) as (r & Er & Hr).
    assert (Hcont : key_eqb m key (g_key g) = false -> exists r, achain m f d key (top bk (firstn i gs)) = Some r /\
      match r with
      | Some j => exists i g, j = S i /\ i < b /\ nth_error gs i = Some g /\ g_bk g = bk /\ key_eqb m key (g_key g) = true
      | None => forall i g, i < b -> nth_error gs i = Some g -> g_bk g = bk -> key_eqb m key (g_key g) = false
      end).
    { intro Ek. exists r. split; auto. destruct r as [j|].
      - destruct Hr as (i' & g' & A & B & C). exists i', g'. split; auto. split; [lia|auto].
      - intros j g' Hj Hg' Hb'. destruct (Nat.lt_trichotomy j i) as [L|[->|L]]; [eapply Hr; eauto|congruence|].
        exfalso. apply (Hn j g'); auto. rewrite nth_firstn; auto. }
    destruct (Nat.eqb_spec (length key) (length (g_key g))) as [El|El].
    + destruct (key_eqb m key (g_key g)) eqn:Ek; [|auto]. exists (Some (S i)). split; auto. exists i, g. auto 10.
    + apply Hcont. destruct (key_eqb m key (g_key g)) eqn:Ek; auto. apply key_eqb_len in Ek. contradiction.
Qed.

(* ---- set_nth ---- *)
Lemma set_nth_len {A} (l : list A) i x : length (set_nth l i x) = length l.
Proof. revert i. induction l; intros [|i]; cbn; auto. Qed.
Lemma set_nth_same {A} (l : list A) i x : i < length l -> nth_error (set_nth l i x) i = Some x.
Proof. revert i. induction l; intros [|i] H; cbn in *; try lia; auto. apply IHl. lia. Qed.
Lemma set_nth_other {A} (l : list A) i j x : i <> j -> nth_error (set_nth l i x) j = nth_error l j.
Proof. revert i j. induction l; intros [|i] [|j] H; cbn; auto; try congruence. Qed.
Lemma set_nth_app {A} (a b : list A) x y : set_nth (a ++ y :: b) (length a) x = a ++ x :: b.
Proof. induction a; cbn; auto. f_equal. auto. Qed.

(* ---- kernels of one entry ---- *)
Fixpoint upd_l (ks : list kern) (rec : list rent) (attrs : list N) (n : nat) {struct n} : option (list kern) :=
  match n with
  | O => Some ks
  | S j => match attrs, ks with
           | a :: r, k :: q =>
               match get_imm rec a with
               | None => match upd_l q rec r j with Some q' => Some (k :: q') | None => None end
               | Some e => match kern_update k (r_val e), upd_l q rec r j with Some k', Some q' => Some (k' :: q') | _, _ => None end
               end
           | _, _ => None
           end
  end.
Lemma upd_kerns_local rec n : forall attrs pre ks post, n <= length ks ->
  upd_kerns (pre ++ ks ++ post) (length pre) rec attrs n = option_map (fun q => pre ++ q ++ post) (upd_l ks rec attrs n).
Proof.
  induction n as [|n IH]; intros attrs pre ks post H; cbn [upd_kerns upd_l]; [reflexivity|].
  destruct attrs as [|a r]; [reflexivity|]. destruct ks as [|k q]; [cbn in H; lia|]. cbn [length] in H.
  destruct (get_imm rec a) as [e|].
  - rewrite nth_error_app2, Nat.sub_diag by lia. cbn [app nth_error].
    destruct (kern_update k (r_val e)) as [k'|]; [|reflexivity].
    rewrite set_nth_app. assert (E := IH r (pre ++ [k']) q post ltac:(lia)). rewrite app_length in E. cbn [length] in E. rewrite Nat.add_1_r, <- app_assoc in E. cbn [app] in E. rewrite E.
    destruct (upd_l q rec r n); cbn; auto. rewrite <- app_assoc. reflexivity.
  - assert (E := IH r (pre ++ [k]) q post ltac:(lia)). rewrite app_length in E. cbn [length] in E. rewrite Nat.add_1_r, <- app_assoc in E. cbn [app] in E. cbn [app]. rewrite E.
    destruct (upd_l q rec r n); cbn; auto. rewrite <- app_assoc. reflexivity.
Qed.
Lemma upd_l_len rec n : forall attrs ks ks', upd_l ks rec attrs n = Some ks' -> length ks' = length ks.
Proof.
  induction n as [|n IH]; intros attrs ks ks'; cbn [upd_l]; [intro H; inversion H; auto|].
  destruct attrs as [|a r]; [discriminate|]. destruct ks as [|k q]; [discriminate|].
  destruct (get_imm rec a) as [e|].
  - destruct (kern_update k (r_val e)); [|discriminate]. destruct (upd_l q rec r n) as [q'|] eqn:E; [|discriminate]. intro H. inversion H; subst. cbn. f_equal. eauto.
  - destruct (upd_l q rec r n) as [q'|] eqn:E; [|discriminate]. intro H. inversion H; subst. cbn. f_equal. eauto.
Qed.

(* updating the group at index i *)
Lemma rep_update d k0 c0 gs i g g' : Rep d k0 c0 gs -> nth_error gs i = Some g -> g_key g' = g_key g -> g_bk g' = g_bk g -> length (g_ks g') = length (g_ks g) ->
  Rep (mkadb (set_nth (d_ents d) (S i) (mkaent (g_cnt g') (length k0 + klen (firstn i gs)) (length (g_key g)) (nlen (firstn i gs)) (length (g_ks g)) (top (g_bk g) (firstn i gs))))
        (d_keyents d) (concat (map g_ks (firstn i gs)) ++ g_ks g' ++ concat (map g_ks (skipn (S i) gs))) (d_hash d) (d_ecap d) (d_kcap d) (d_ncap d))
      k0 c0 (set_nth gs i g').
Proof.
  intros R Hi Ek Eb El. destruct (nth_split_at gs i g Hi) as (Es & Ln).
  assert (Eset : set_nth gs i g' = firstn i gs ++ g' :: skipn (S i) gs).
  { assert (E1 : set_nth (firstn i gs ++ g :: skipn (S i) gs) i g' = firstn i gs ++ g' :: skipn (S i) gs) by (assert (E0 := set_nth_app (firstn i gs) (skipn (S i) gs) g' g); rewrite Ln in E0; exact E0).
    rewrite <- E1. f_equal. exact Es. }
  assert (Hf : forall j, map g_key (firstn j (set_nth gs i g')) = map g_key (firstn j gs) /\ map (fun x => length (g_ks x)) (firstn j (set_nth gs i g')) = map (fun x => length (g_ks x)) (firstn j gs) /\ map g_bk (firstn j (set_nth gs i g')) = map g_bk (firstn j gs)).
  { intro j. rewrite <- !firstn_map. rewrite Eset. rewrite !map_app. cbn [map]. rewrite Ek, Eb, El. rewrite <- (map_cons g_key), <- (map_cons g_bk), <- (map_cons (fun x => length (g_ks x)) g), <- !map_app, <- Es. auto. }
  assert (Htop : forall h a b, map g_bk a = map g_bk b -> top h a = top h b).
  { intros h a b. unfold top, tops. generalize (1, 0). revert b. induction a as [|x a IH]; intros [|y b] p Hm; cbn in *; try discriminate; auto. inversion Hm as [[E1 E2]]. rewrite E1. apply IH. auto. }
  assert (Hkl : forall j, klen (firstn j (set_nth gs i g')) = klen (firstn j gs)). { intro j. unfold klen. destruct (Hf j) as (E & _). rewrite E. reflexivity. }
  assert (Hnl : forall a b, map (fun x => length (g_ks x)) a = map (fun x => length (g_ks x)) b -> nlen a = nlen b).
  { unfold nlen. induction a as [|x a IH]; intros [|y b] Hm; cbn in *; try discriminate; auto. inversion Hm as [[E1 E2]]. rewrite !app_length. f_equal; auto. }
  assert (Li : i < length gs) by (apply nth_error_Some; congruence).
  constructor; cbn [d_ents d_keyents d_kerns d_hash].
  - rewrite !set_nth_len. apply (rp_len _ _ _ _ R).
  - rewrite set_nth_other by lia. apply (rp_0 _ _ _ _ R).
  - intros j x Hj. rewrite Hkl. rewrite (Hnl _ (firstn j gs) (proj1 (proj2 (Hf j)))). rewrite (Htop _ _ (firstn j gs) (proj2 (proj2 (Hf j)))).
    destruct (Nat.eq_dec i j) as [<-|Hne].
    + rewrite set_nth_same in Hj by auto. inversion Hj; subst x. rewrite set_nth_same by (rewrite (rp_len _ _ _ _ R); lia). rewrite Ek, Eb, El. reflexivity.
    + rewrite set_nth_other in Hj by auto. rewrite set_nth_other by lia. apply (rp_nth _ _ _ _ R). auto.
  - rewrite (rp_keys _ _ _ _ R). f_equal. f_equal. destruct (Hf (length gs)) as (E & _).
    rewrite (firstn_all2 (n := length gs) (set_nth gs i g')) in E by (rewrite set_nth_len; lia). rewrite firstn_all in E. auto.
  - rewrite Eset, map_app, concat_app. cbn. reflexivity.
  - apply (rp_hlen _ _ _ _ R).
  - intros h Hh. rewrite (rp_hash _ _ _ _ R h Hh). f_equal. apply Htop. destruct (Hf (length gs)) as (_ & _ & E).
    rewrite (firstn_all2 (n := length gs) (set_nth gs i g')) in E by (rewrite set_nth_len; lia). rewrite firstn_all in E. auto.
Qed.
(* adding a group *)
Lemma rep_add d k0 c0 gs g ec kc nc : Rep d k0 c0 gs -> g_bk g < NBUCKETS ->
  Rep (mkadb (d_ents d ++ [mkaent (g_cnt g) (length (d_keyents d)) (length (g_key g)) (length (d_kerns d)) (length (g_ks g)) (top (g_bk g) gs)])
        (d_keyents d ++ g_key g) (d_kerns d ++ g_ks g) (set_nth (d_hash d) (g_bk g) (length (d_ents d))) ec kc nc) k0 c0 (gs ++ [g]).
Proof.
  intros R Hb. pose proof (rp_len _ _ _ _ R) as HL.
  constructor; cbn [d_ents d_keyents d_kerns d_hash].
  - rewrite !app_length, HL. cbn. lia.
  - rewrite nth_error_app1 by lia. apply (rp_0 _ _ _ _ R).
  - intros j x Hj. destruct (Nat.lt_ge_cases j (length gs)) as [L|L].
    + rewrite nth_error_app1 in Hj by auto. rewrite nth_error_app1 by lia. rewrite (rp_nth _ _ _ _ R j x Hj).
      rewrite firstn_app. replace (j - length gs) with 0 by lia. cbn [firstn]. rewrite app_nil_r. reflexivity.
    + rewrite nth_error_app2 in Hj by auto. destruct (j - length gs) as [|k] eqn:Ek; cbn in Hj; [|destruct k; discriminate]. inversion Hj; subst x. assert (j = length gs) by lia. subst j.
      rewrite nth_error_app2 by lia. rewrite HL, Nat.sub_diag. cbn [nth_error].
      rewrite firstn_app, Nat.sub_diag, firstn_all. cbn [firstn]. rewrite app_nil_r. rewrite (rp_keys _ _ _ _ R), (rp_kerns _ _ _ _ R), app_length. reflexivity.
  - rewrite (rp_keys _ _ _ _ R), map_app, concat_app. cbn. rewrite app_nil_r, app_assoc. reflexivity.
  - rewrite (rp_kerns _ _ _ _ R), map_app, concat_app. cbn. rewrite app_nil_r. reflexivity.
  - rewrite set_nth_len. apply (rp_hlen _ _ _ _ R).
  - intros h Hh. rewrite top_snoc. destruct (Nat.eqb_spec (g_bk g) h) as [<-|Hne].
    + rewrite set_nth_same by (rewrite (rp_hlen _ _ _ _ R); auto). rewrite HL. reflexivity.
    + rewrite set_nth_other by auto. apply (rp_hash _ _ _ _ R). auto.
Qed.
Lemma rep_init d k0 : d_ents d = [mkaent 0%N 0 1 0 0 0] -> d_keyents d = k0 -> d_kerns d = [] -> d_hash d = repeat 0 NBUCKETS -> Rep d k0 0%N [].
Proof.
  intros E1 E2 E3 E4. constructor; rewrite ?E1, ?E2, ?E3, ?E4; auto.
  - intros [|i] g H; discriminate.
  - cbn. rewrite app_nil_r. reflexivity.
  - intros h Hh. rewrite top_nil. revert h Hh. generalize NBUCKETS. induction n as [|n IH]; intros h Hh; [lia|]. destruct h; cbn; auto. apply IH. lia.
Qed.
