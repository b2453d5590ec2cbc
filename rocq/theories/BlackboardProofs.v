From Verif Require Import Base VariantModel CodecModel BlackboardModel BlackboardSpec.
From Coq Require Import Permutation.
Local Open Scope nat_scope.

Notation tab := (nat -> option (N * entry)).

Lemma NMAX_val : NMAX = 1021. Proof. reflexivity. Qed.
Lemma NMAX_pos : 0 < NMAX. Proof. rewrite NMAX_val. lia. Qed.
Lemma CAP_NMAX n : (NMAX <? n + (NMAX / 10 + 10)) = negb (n <? CAP).
Proof.
  change (NMAX / 10 + 10) with 112. change NMAX with 1021. unfold CAP.
  destruct (Nat.ltb_spec 1021 (n + 112)); destruct (Nat.ltb_spec n 910); simpl; auto; lia.
Qed.
Lemma CAP_lt : CAP < NMAX. Proof. unfold CAP, NMAX. lia. Qed.
Lemma home_lt k : home k < NMAX.
Proof.
  unfold home. assert (H := N.mod_lt k (N.of_nat NMAX)). assert (P := NMAX_pos).
  specialize (H ltac:(lia)). lia.
Qed.
Lemma NMAX_1024 : NMAX <= 1024. Proof. rewrite NMAX_val. lia. Qed.
Lemma home_eq a b : home a = home b -> (a mod 1021 = b mod 1021)%N.
Proof. unfold home. change (N.of_nat NMAX) with 1021%N. lia. Qed.
Local Opaque NMAX CAP home.

(* ---- circular distances ---- *)
Definition dist (a b : nat) : nat := if a <=? b then b - a else b + NMAX - a.
Definition adv (h d : nat) : nat := if h + d <? NMAX then h + d else h + d - NMAX.

Lemma dist_spec a b : (a <= b /\ dist a b = b - a) \/ (b < a /\ dist a b = b + NMAX - a).
Proof. unfold dist. destruct (Nat.leb_spec a b); auto. Qed.
Lemma adv_spec h d : (h + d < NMAX /\ adv h d = h + d) \/ (NMAX <= h + d /\ adv h d = h + d - NMAX).
Proof. unfold adv. destruct (Nat.ltb_spec (h + d) NMAX); auto. Qed.
Lemma next_spec i : (S i = NMAX /\ next i = 0) \/ (S i <> NMAX /\ next i = S i).
Proof. unfold next. destruct (Nat.eqb_spec (S i) NMAX); auto. Qed.

Lemma adv_lt h d : h < NMAX -> d <= NMAX -> adv h d < NMAX.
Proof. intros. destruct (adv_spec h d); lia. Qed.
Lemma adv_dist h i : h < NMAX -> i < NMAX -> adv h (dist h i) = i.
Proof. intros. destruct (dist_spec h i) as [[? ->]|[? ->]]; [destruct (adv_spec h (i - h))|destruct (adv_spec h (i + NMAX - h))]; lia. Qed.
Lemma dist_adv h d : h < NMAX -> d < NMAX -> dist h (adv h d) = d.
Proof. intros. destruct (adv_spec h d) as [[? ->]|[? ->]]; [destruct (dist_spec h (h + d))|destruct (dist_spec h (h + d - NMAX))]; lia. Qed.
Lemma dist_lt a b : a < NMAX -> b < NMAX -> dist a b < NMAX.
Proof. intros. destruct (dist_spec a b); lia. Qed.
Lemma next_adv h d : h < NMAX -> d < NMAX -> next (adv h d) = adv h (S d).
Proof.
  intros. destruct (adv_spec h d) as [[? ->]|[? ->]];
    [destruct (next_spec (h + d))|destruct (next_spec (h + d - NMAX))]; destruct (adv_spec h (S d)); lia.
Qed.
Lemma adv_0 h : h < NMAX -> adv h 0 = h.
Proof. intros. destruct (adv_spec h 0); lia. Qed.

(* ---- table invariant ---- *)
Definition wf (t : tab) : Prop :=
  forall i k v, i < NMAX -> t i = Some (k, v) -> forall x, x < NMAX -> dist (home k) x <= dist (home k) i -> t x <> None.
Definition uniq (t : tab) : Prop :=
  forall i j k v w, i < NMAX -> j < NMAX -> t i = Some (k, v) -> t j = Some (k, w) -> i = j.

Definition stored (t : tab) (k : N) (v : entry) : Prop := exists i, i < NMAX /\ t i = Some (k, v).

Lemma find_existing_ok t k h e : h < NMAX -> e < NMAX -> t e = None ->
  forall f d, d <= dist h e -> dist h e - d <= f ->
  exists d', d <= d' <= dist h e /\ find_existing f t k (adv h d) = Some (adv h d') /\
    (forall x, d <= x < d' -> exists k' v, t (adv h x) = Some (k', v) /\ k' <> k) /\
    (t (adv h d') = None \/ exists v, t (adv h d') = Some (k, v)).
Proof.
  intros Hh He Hte. assert (Hd := dist_lt h e Hh He).
  induction f as [|f IH]; intros d Hle Hf.
  - assert (d = dist h e) by lia. subst d. exists (dist h e). split; [lia|]. cbn [find_existing].
    rewrite adv_dist by assumption. rewrite Hte. split; [reflexivity|]. split; [lia|]. auto.
  - cbn [find_existing]. destruct (t (adv h d)) as [[k' v]|] eqn:E.
    + destruct (N.eqb_spec k' k) as [->|Nk].
      * exists d. split; [lia|]. split; [reflexivity|]. split; [lia|]. right. eauto.
      * assert (d <> dist h e) by (intros ->; rewrite adv_dist in E by assumption; congruence).
        rewrite next_adv by lia.
        destruct (IH (S d)) as (d' & B & Ef & Hb & Hl); [lia|lia|].
        exists d'. split; [lia|]. split; [exact Ef|]. split; [|exact Hl].
        intros x Hx. destruct (Nat.eq_dec x d) as [->|]; [eauto|apply Hb; lia].
    + exists d. split; [lia|]. split; [reflexivity|]. split; [lia|]. auto.
Qed.

Lemma find_free_ok t h e : h < NMAX -> e < NMAX -> t e = None ->
  forall f d, d <= dist h e -> dist h e - d <= f ->
  exists d', d <= d' <= dist h e /\ find_free f t (adv h d) = Some (adv h d') /\
    (forall x, d <= x < d' -> t (adv h x) <> None) /\ t (adv h d') = None.
Proof.
  intros Hh He Hte. assert (Hd := dist_lt h e Hh He).
  induction f as [|f IH]; intros d Hle Hf.
  - assert (d = dist h e) by lia. subst d. exists (dist h e). split; [lia|]. cbn [find_free].
    rewrite adv_dist by assumption. rewrite Hte. split; [reflexivity|]. split; [lia|]. auto.
  - cbn [find_free]. destruct (t (adv h d)) as [kv|] eqn:E.
    + assert (d <> dist h e) by (intros ->; rewrite adv_dist in E by assumption; congruence).
      rewrite next_adv by lia.
      destruct (IH (S d)) as (d' & B & Ef & Hb & Hl); [lia|lia|].
      exists d'. split; [lia|]. split; [exact Ef|]. split; [|exact Hl].
      intros x Hx. destruct (Nat.eq_dec x d) as [->|]; [congruence|apply Hb; lia].
    + exists d. split; [lia|]. split; [reflexivity|]. split; [lia|]. auto.
Qed.

(* search in a well-formed table with an empty slot *)
Lemma find_wf t k e : wf t -> e < NMAX -> t e = None ->
  exists i, i < NMAX /\ find_existing NMAX t k (home k) = Some i /\
    ((exists v, t i = Some (k, v)) \/ (t i = None /\ forall v, ~ stored t k v)).
Proof.
  intros W He Hte. assert (Hh := home_lt k). assert (Hd := dist_lt _ _ Hh He).
  destruct (find_existing_ok t k (home k) e Hh He Hte NMAX 0) as (d & B & E & Hb & Hl); [lia|lia|].
  rewrite adv_0 in E by exact Hh. assert (Hi : adv (home k) d < NMAX) by (apply adv_lt; lia).
  exists (adv (home k) d). split; [exact Hi|]. split; [exact E|].
  destruct Hl as [Hn|Hs]; [right|left; exact Hs]. split; [exact Hn|].
  intros v (j & Hj & Ej).
  destruct (Nat.lt_ge_cases (dist (home k) j) d) as [L|G].
  - destruct (Hb (dist (home k) j)) as (k' & v' & E' & Nk); [lia|].
    rewrite adv_dist in E' by assumption. congruence.
  - apply (W j k v Hj Ej (adv (home k) d) Hi); [|exact Hn]. rewrite dist_adv by lia. exact G.
Qed.

Lemma set_tab_same t i x : set_tab t i x i = x.
Proof. unfold set_tab. rewrite Nat.eqb_refl. reflexivity. Qed.
Lemma set_tab_other t i x j : j <> i -> set_tab t i x j = t j.
Proof. unfold set_tab. intro. destruct (Nat.eqb_spec j i); [contradiction|reflexivity]. Qed.

(* replacing the value *)
Lemma wf_replace t i k v w : wf t -> i < NMAX -> t i = Some (k, w) -> wf (set_tab t i (Some (k, v))).
Proof.
  intros W Hi Ei j k' v' Hj Ej x Hx Hd. unfold set_tab in *.
  destruct (x =? i) eqn:Ex; [discriminate|].
  destruct (Nat.eqb_spec j i) as [->|]; [injection Ej as <- <-; exact (W i k w Hi Ei x Hx Hd)|exact (W j k' v' Hj Ej x Hx Hd)].
Qed.
Lemma uniq_replace t i k v w : uniq t -> i < NMAX -> t i = Some (k, w) -> uniq (set_tab t i (Some (k, v))).
Proof.
  intros U Hi Ei a b q x y Ha Hb Ea Eb. unfold set_tab in *.
  destruct (Nat.eqb_spec a i) as [->|]; destruct (Nat.eqb_spec b i) as [->|]; auto.
  - injection Ea as -> ->. exact (U i b q w y Hi Hb Ei Eb).
  - injection Eb as -> ->. exact (U a i q x w Ha Hi Ea Ei).
  - eapply U; eauto.
Qed.

(* inserting into the slot found by find_free *)
Lemma wf_insert t i k v : wf t -> i < NMAX -> t i = None ->
  (forall x, x < NMAX -> dist (home k) x < dist (home k) i -> t x <> None) -> wf (set_tab t i (Some (k, v))).
Proof.
  intros W Hi Ei Hp j k' v' Hj Ej x Hx Hd. unfold set_tab in *.
  destruct (Nat.eqb_spec x i) as [->|Nx]; [discriminate|].
  destruct (Nat.eqb_spec j i) as [->|].
  - injection Ej as <- <-. apply Hp; [exact Hx|].
    assert (dist (home k) x <> dist (home k) i); [|lia]. intro Q. apply Nx.
    rewrite <- (adv_dist (home k) x), <- (adv_dist (home k) i) by (auto; apply home_lt). rewrite Q. reflexivity.
  - exact (W j k' v' Hj Ej x Hx Hd).
Qed.
Lemma uniq_insert t i k v : uniq t -> (forall w, ~ stored t k w) -> uniq (set_tab t i (Some (k, v))).
Proof.
  intros U Hn a b q x y Ha Hb Ea Eb. unfold set_tab in *.
  destruct (Nat.eqb_spec a i) as [->|]; destruct (Nat.eqb_spec b i) as [->|]; auto.
  - injection Ea as -> ->. exfalso. apply (Hn y). exists b. auto.
  - injection Eb as -> ->. exfalso. apply (Hn x). exists a. auto.
  - eapply U; eauto.
Qed.

(* ---- deletion ---- *)
Section Del.
  Variable e : nat.
  Hypothesis He : e < NMAX.
  Let pos x := dist e x.

  Definition winv (t : tab) (hole j : nat) : Prop :=
    t e = None /\ hole < NMAX /\ j < NMAX /\ hole <> e /\ j <> e /\ pos hole <= pos j /\
    (forall x, x < NMAX -> pos hole <= pos x <= pos j -> t x <> None) /\
    (forall p k v, p < NMAX -> p <> hole -> t p = Some (k, v) ->
       pos (home k) <= pos p /\ 0 < pos (home k) /\
       (forall x, x < NMAX -> pos (home k) <= pos x <= pos p -> t x <> None) /\
       (pos (home k) <= pos hole < pos p -> pos j < pos p)).

  Lemma pos_inj a b : a < NMAX -> b < NMAX -> pos a = pos b -> a = b.
  Proof. unfold pos. intros. destruct (dist_spec e a), (dist_spec e b); lia. Qed.

  Lemma pos_next j : j < NMAX -> (pos j + 1 < NMAX /\ pos (next j) = pos j + 1 /\ next j < NMAX) \/ (pos j + 1 = NMAX /\ next j = e).
  Proof. unfold pos. intros. destruct (next_spec j) as [[? ->]|[? ->]]; [destruct (dist_spec e j), (dist_spec e 0)|destruct (dist_spec e j), (dist_spec e (S j))]; lia. Qed.

  Lemma cond_spec hole j k : hole < NMAX -> j < NMAX -> k < NMAX -> pos hole < pos j -> pos k <= pos j -> 0 < pos k ->
    (((hole <? j) && ((k <=? hole) || (j <? k))) || ((j <? hole) && ((k <=? hole) && (j <? k)))) = (pos k <=? pos hole).
  Proof.
    unfold pos. intros H1 H2 H3 P1 P2 P3.
    destruct (dist_spec e hole), (dist_spec e j), (dist_spec e k);
    destruct (Nat.ltb_spec hole j); destruct (Nat.leb_spec k hole); destruct (Nat.ltb_spec j k); destruct (Nat.ltb_spec j hole);
    destruct (Nat.leb_spec (dist e k) (dist e hole)); cbn [andb orb]; auto; exfalso; lia.
  Qed.

  Lemma del_loop_ok f : forall t hole j, winv t hole j -> NMAX - pos j <= f ->
    exists t' hole', del_loop f t hole j = Some (t', hole') /\ hole' < NMAX /\
      (forall p, p < NMAX -> (t' p = None <-> t p = None)) /\ t hole' <> None /\
      (uniq (set_tab t hole None) -> uniq (set_tab t' hole' None)) /\
      (forall k v, stored (set_tab t' hole' None) k v <-> stored (set_tab t hole None) k v) /\
      (forall p k v, p < NMAX -> p <> hole' -> t' p = Some (k, v) ->
         pos (home k) <= pos p /\ (forall x, x < NMAX -> pos (home k) <= pos x <= pos p -> t' x <> None /\ x <> hole')).
  Proof.
    induction f as [|f IH]; intros t hole j (Hte & Hh & Hj & Nh & Nj & Hle & Hocc & Hent) Hf.
    { exfalso. assert (Q := dist_lt e j He Hj). unfold pos in Hf. lia. }
    cbn [del_loop].
    destruct (pos_next j Hj) as [(B & Pn & Ln)|(B & En)].
    2: { rewrite En, Hte. exists t, hole. split; [reflexivity|]. split; [exact Hh|]. split; [tauto|].
         split; [apply Hocc; [exact Hh|lia]|]. split; [tauto|].
         split; [tauto|]. intros p k v Hp Np Ep. destruct (Hent p k v Hp Np Ep) as (A1 & A2 & A3 & A4).
         split; [exact A1|]. intros x Hx Bx. split; [apply A3; assumption|]. intros ->.
         assert (Q := dist_lt e p He Hp). unfold pos in *.
         assert (dist e p <> dist e hole) by (intro Q2; apply Np; apply pos_inj; auto).
         specialize (A4 ltac:(lia)). lia. }
    destruct (t (next j)) as [[key v]|] eqn:En.
    - assert (Nne : next j <> e) by congruence.
      assert (Nnh : next j <> hole) by (intro Q; rewrite Q in Pn; lia).
      destruct (Hent (next j) key v Ln Nnh En) as (A1 & A2 & A3 & A4).
      rewrite (cond_spec hole (next j) (home key)) by (auto; try apply home_lt; lia).
      destruct (Nat.leb_spec (pos (home key)) (pos hole)) as [Hc|Hc].
      + (* move *)
        set (t1 := set_tab t hole (Some (key, v))).
        assert (Occ : forall p, t1 p = None <-> t p = None).
        { intro p. unfold t1, set_tab. destruct (Nat.eqb_spec p hole) as [->|]; [|tauto].
          split; [discriminate|]. intro Q. exfalso. revert Q. apply Hocc; [exact Hh|lia]. }
        destruct (IH t1 (next j) (next j)) as (t' & hole' & E & Hh' & Oc & Ho & Hu & Hs & Hw).
        { split; [apply Occ; exact Hte|]. split; [exact Ln|]. split; [exact Ln|]. split; [exact Nne|]. split; [exact Nne|].
          split; [lia|]. split.
          { intros x Hx Bx. rewrite Occ. assert (x = next j) by (apply pos_inj; auto; lia). subst. congruence. }
          intros p k w Hp Np Ep. unfold t1, set_tab in Ep. destruct (Nat.eqb_spec p hole) as [->|Nph].
          - injection Ep as <- <-. split; [lia|]. split; [exact A2|]. split.
            + intros x Hx Bx. rewrite Occ. apply A3; [exact Hx|lia].
            + intro Q. exfalso. lia.
          - destruct (Hent p k w Hp Nph Ep) as (B1 & B2 & B3 & B4). split; [exact B1|]. split; [exact B2|]. split.
            + intros x Hx Bx. rewrite Occ. apply B3; assumption.
            + intro Q. lia. }
        { lia. }
        exists t', hole'. split; [exact E|]. split; [exact Hh'|]. split; [intros p Hp; rewrite (Oc p Hp); apply Occ|].
        split; [rewrite <- Occ; exact Ho|].
        assert (Sw : forall p, p < NMAX -> p <> hole -> p <> next j -> set_tab t1 (next j) None p = set_tab t hole None p).
        { intros p Hp N1 N2. unfold t1, set_tab. destruct (Nat.eqb_spec p (next j)); [contradiction|].
          destruct (Nat.eqb_spec p hole); [contradiction|reflexivity]. }
        assert (Sa : set_tab t1 (next j) None hole = Some (key, v)).
        { unfold t1, set_tab. destruct (Nat.eqb_spec hole (next j)); [congruence|]. rewrite Nat.eqb_refl. reflexivity. }
        assert (Sb : set_tab t hole None (next j) = Some (key, v)) by (rewrite set_tab_other by congruence; exact En).
        assert (Sc : set_tab t1 (next j) None (next j) = None) by apply set_tab_same.
        assert (Sd : set_tab t hole None hole = None) by apply set_tab_same.
        split.
        { intro U. apply Hu. intros a b q x y Ha Hb Ea Eb.
          destruct (Nat.eq_dec a (next j)) as [->|Na]; [congruence|]. destruct (Nat.eq_dec b (next j)) as [->|Nb]; [congruence|].
          destruct (Nat.eq_dec a hole) as [->|Na2]; destruct (Nat.eq_dec b hole) as [->|Nb2]; auto.
          - rewrite Sa in Ea. injection Ea as <- <-. rewrite Sw in Eb by auto. exfalso. apply Nb. exact (U b (next j) _ _ _ Hb Ln Eb Sb).
          - rewrite Sa in Eb. injection Eb as <- <-. rewrite Sw in Ea by auto. exfalso. apply Na. exact (U a (next j) _ _ _ Ha Ln Ea Sb).
          - rewrite Sw in Ea, Eb by auto. exact (U a b _ _ _ Ha Hb Ea Eb). }
        split; [|exact Hw].
        intros k w. rewrite Hs. split; intros (p & Hp & Ep).
        * destruct (Nat.eq_dec p (next j)) as [->|Na]; [congruence|]. destruct (Nat.eq_dec p hole) as [->|Na2].
          { exists (next j). split; [exact Ln|]. congruence. }
          { exists p. split; [exact Hp|]. rewrite <- Sw by auto. exact Ep. }
        * destruct (Nat.eq_dec p hole) as [->|Na]; [congruence|]. destruct (Nat.eq_dec p (next j)) as [->|Na2].
          { exists hole. split; [exact Hh|]. congruence. }
          { exists p. split; [exact Hp|]. rewrite Sw by auto. exact Ep. }
      + destruct (IH t hole (next j)) as (t' & hole' & R); [|lia|exists t', hole'; exact R].
        split; [exact Hte|]. split; [exact Hh|]. split; [exact Ln|]. split; [exact Nh|]. split; [exact Nne|]. split; [lia|]. split.
        * intros x Hx Bx. destruct (Nat.eq_dec x (next j)) as [->|]; [congruence|].
          assert (pos x <> pos (next j)) by (intro Q; apply n; apply pos_inj; auto). apply Hocc; [exact Hx|lia].
        * intros p k w Hp Np Ep. destruct (Hent p k w Hp Np Ep) as (B1 & B2 & B3 & B4).
          split; [exact B1|]. split; [exact B2|]. split; [exact B3|]. intro Q. specialize (B4 Q).
          destruct (Nat.eq_dec p (next j)) as [->|]; [rewrite En in Ep; injection Ep as <- <-; lia|].
          assert (pos p <> pos (next j)) by (intro Q2; apply n; apply pos_inj; auto). lia.
    - exists t, hole. split; [reflexivity|]. split; [exact Hh|]. split; [tauto|].
      split; [apply Hocc; [exact Hh|lia]|]. split; [tauto|].
      split; [tauto|]. intros p k v Hp Np Ep. destruct (Hent p k v Hp Np Ep) as (A1 & A2 & A3 & A4).
      split; [exact A1|]. intros x Hx Bx. split; [apply A3; assumption|]. intros ->.
      assert (pos p <> pos hole) by (intro Q; apply Np; apply pos_inj; auto).
      specialize (A4 ltac:(lia)). apply (A3 (next j)); [exact Ln|lia|exact En].
  Qed.

  (* between the circular and the unrolled view *)
  Lemma wf_pos t i k v : wf t -> t e = None -> i < NMAX -> t i = Some (k, v) ->
    pos (home k) <= pos i /\ 0 < pos (home k) /\ (forall x, x < NMAX -> pos (home k) <= pos x <= pos i -> t x <> None).
  Proof.
    intros W Hte Hi Ei. assert (Hh := home_lt k). specialize (W i k v Hi Ei).
    assert (Q : dist (home k) i < dist (home k) e).
    { destruct (Nat.lt_ge_cases (dist (home k) i) (dist (home k) e)) as [L|G]; [exact L|]. exfalso. exact (W e He G Hte). }
    unfold pos. split; [|split].
    - destruct (dist_spec e (home k)), (dist_spec e i), (dist_spec (home k) i), (dist_spec (home k) e); lia.
    - destruct (dist_spec e (home k)), (dist_spec e i), (dist_spec (home k) i), (dist_spec (home k) e); lia.
    - intros x Hx B. apply W; [exact Hx|].
      destruct (dist_spec e (home k)), (dist_spec e i), (dist_spec (home k) i), (dist_spec (home k) e), (dist_spec e x), (dist_spec (home k) x); lia.
  Qed.
  Lemma pos_wf h i x : h < NMAX -> i < NMAX -> x < NMAX -> pos h <= pos i -> dist h x <= dist h i -> pos h <= pos x <= pos i.
  Proof.
    unfold pos. intros. destruct (dist_spec e h), (dist_spec e i), (dist_spec h i), (dist_spec e x), (dist_spec h x); lia.
  Qed.
End Del.

Lemma del_ok t i k v e : wf t -> uniq t -> e < NMAX -> t e = None -> i < NMAX -> t i = Some (k, v) ->
  exists t' h, del_loop NMAX t i i = Some (t', h) /\ h < NMAX /\ wf (set_tab t' h None) /\ uniq (set_tab t' h None) /\
    (forall k' w, stored (set_tab t' h None) k' w <-> stored t k' w /\ k' <> k) /\
    (forall p, p < NMAX -> (t' p = None <-> t p = None)) /\ t h <> None.
Proof.
  intros W U He Hte Hi Ei.
  assert (Ne : i <> e) by congruence.
  destruct (del_loop_ok e He NMAX t i i) as (t' & h & E & Hh & Oc & Ho & Hu & Hs & Hw).
  { split; [exact Hte|]. split; [exact Hi|]. split; [exact Hi|]. split; [exact Ne|]. split; [exact Ne|]. split; [lia|]. split.
    - intros x Hx B. assert (x = i) by (apply (pos_inj e He); auto; lia). subst. congruence.
    - intros p q w Hp Np Ep. destruct (wf_pos e He t p q w W Hte Hp Ep) as (A & B & C).
      split; [exact A|]. split; [exact B|]. split; [exact C|]. lia. }
  { lia. }
  exists t', h. split; [exact E|]. split; [exact Hh|]. split.
  { intros p q w Hp Ep x Hx B. unfold set_tab in Ep. destruct (Nat.eqb_spec p h) as [->|Np]; [discriminate|].
    destruct (Hw p q w Hp Np Ep) as (A & C). destruct (C x Hx) as [C1 C2].
    - apply pos_wf; auto. apply home_lt.
    - rewrite set_tab_other by exact C2. exact C1. }
  split.
  { apply Hu. intros a b q x y Ha Hb Ea Eb. unfold set_tab in *.
    destruct (a =? i); [discriminate|]. destruct (b =? i); [discriminate|]. eapply U; eauto. }
  split; [|split; [exact Oc|exact Ho]].
  intros k' w. rewrite Hs. split.
  - intros (p & Hp & Ep). unfold set_tab in Ep. destruct (Nat.eqb_spec p i) as [->|Np]; [discriminate|].
    split; [exists p; auto|]. intros ->. apply Np. exact (U p i _ _ _ Hp Hi Ep Ei).
  - intros [(p & Hp & Ep) Nk]. exists p. split; [exact Hp|]. rewrite set_tab_other; [exact Ep|]. intros ->. congruence.
Qed.

(* ---- refinement ---- *)
Definition skeys (m : smap) : list N := map fst m.

Record refines (b : bboard) (s : sbb) : Prop := mkref {
  rf_wf : wf (bb_tab b); rf_uniq : uniq (bb_tab b);
  rf_map : forall k v, stored (bb_tab b) k v <-> exists f, slookup (s_map s) k = Some (v, f);
  rf_nodup : NoDup (skeys (s_map s));
  rf_num : bb_num b = length (s_map s);
  rf_cap : length (s_map s) <= CAP;
  rf_skip : bb_skipped b = s_skipped s }.

Lemma slookup_In m k x : slookup m k = Some x -> In (k, x) m.
Proof. induction m as [|[k' y] m IH]; simpl; [discriminate|]. destruct (N.eqb_spec k' k) as [->|]; intro H; [injection H as ->; auto|auto]. Qed.
Lemma slookup_None m k : slookup m k = None <-> ~ In k (skeys m).
Proof.
  induction m as [|[k' y] m IH]; simpl; [tauto|]. destruct (N.eqb_spec k' k) as [->|N].
  - split; [discriminate|]. intro H. exfalso. apply H. auto.
  - rewrite IH. intuition.
Qed.
Lemma slookup_In_nodup m k x : NoDup (skeys m) -> In (k, x) m -> slookup m k = Some x.
Proof.
  induction m as [|[k' y] m IH]; simpl; intros ND H; [contradiction|]. inversion ND as [|? ? H1 H2]; subst.
  destruct H as [H|H]; [injection H as -> ->; rewrite N.eqb_refl; reflexivity|].
  destruct (N.eqb_spec k' k) as [->|]; [exfalso; apply H1; change k with (fst (k, x)); apply in_map; exact H|auto].
Qed.

(* there is always an empty slot *)
Lemma empty_slot b s : refines b s -> exists e, e < NMAX /\ bb_tab b e = None.
Proof.
  intros R. set (t := bb_tab b).
  destruct (existsb (fun i => match t i with None => true | _ => false end) (seq 0 NMAX)) eqn:X.
  - apply existsb_exists in X as (e & He & Ee). apply in_seq in He. exists e. split; [lia|]. destruct (t e); [discriminate|reflexivity].
  - exfalso. assert (A : forall i, i < NMAX -> exists k v, t i = Some (k, v)).
    { intros i Hi. destruct (t i) as [[k v]|] eqn:E; [eauto|]. exfalso.
      assert (Q : existsb (fun i => match t i with None => true | _ => false end) (seq 0 NMAX) = true).
      { apply existsb_exists. exists i. split; [apply in_seq; lia|]. rewrite E. reflexivity. }
      congruence. }
    set (key := fun i => match t i with Some (k, _) => k | None => 0%N end).
    assert (ND : NoDup (map key (seq 0 NMAX))).
    { assert (G : forall n st, st + n <= NMAX -> NoDup (map key (seq st n))).
      { induction n as [|n IH]; intros st L; simpl; [constructor|]. constructor; [|apply IH; lia].
        intro H. apply in_map_iff in H as (j & Ej & Hj). apply in_seq in Hj.
        destruct (A st) as (k1 & v1 & E1); [lia|]. destruct (A j) as (k2 & v2 & E2); [lia|].
        unfold key in Ej. rewrite E1, E2 in Ej. subst k2.
        assert (j = st) by (eapply (rf_uniq b s R); [| |exact E2|exact E1]; lia). lia. }
      apply (G NMAX 0). lia. }
    assert (IN : incl (map key (seq 0 NMAX)) (skeys (s_map s))).
    { intros k H. apply in_map_iff in H as (i & Ei & Hi). apply in_seq in Hi. destruct (A i) as (k1 & v1 & E1); [lia|].
      unfold key in Ei. rewrite E1 in Ei. subst k1.
      destruct (proj1 (rf_map b s R k v1)) as (f & L); [exists i; split; [lia|exact E1]|].
      apply slookup_In in L. change k with (fst (k, (v1, f))). apply in_map. exact L. }
    assert (Q := NoDup_incl_length ND IN). rewrite map_length, seq_length in Q. unfold skeys in Q. rewrite map_length in Q.
    assert (C := rf_cap b s R). assert (C2 := CAP_lt). lia.
Qed.

Lemma bb_find_ok b s k : refines b s -> exists i, i < NMAX /\ bb_find b k = Some i /\
  ((exists v f, bb_tab b i = Some (k, v) /\ slookup (s_map s) k = Some (v, f)) \/
   (bb_tab b i = None /\ slookup (s_map s) k = None)).
Proof.
  intros R. destruct (empty_slot b s R) as (e & He & Ee).
  destruct (find_wf (bb_tab b) k e (rf_wf b s R) He Ee) as (i & Hi & Ef & H). exists i. split; [exact Hi|]. split; [exact Ef|].
  destruct H as [(v & Ev)|(En & Hn)].
  - left. destruct (proj1 (rf_map b s R k v)) as (f & L); [exists i; auto|]. eauto.
  - right. split; [exact En|]. destruct (slookup (s_map s) k) as [[v f]|] eqn:L; [|reflexivity].
    exfalso. apply (Hn v). apply (rf_map b s R). eauto.
Qed.

Lemma at_key_some b i k v : bb_tab b i = Some (k, v) -> at_key b i k = Some v.
Proof. unfold at_key. intros ->. rewrite N.eqb_refl. reflexivity. Qed.
Lemma at_key_none b i k : bb_tab b i = None -> at_key b i k = None.
Proof. unfold at_key. intros ->. reflexivity. Qed.

Lemma supdate_lookup m k v k' : slookup (supdate m k v) k' =
  if (k =? k')%N then option_map (fun x => (v, snd x)) (slookup m k) else slookup m k'.
Proof.
  induction m as [|[q [e f]] m IH]; simpl.
  - destruct (k =? k')%N; reflexivity.
  - destruct (N.eqb_spec q k) as [->|Nq]; simpl.
    + destruct (N.eqb_spec k k') as [->|]; reflexivity.
    + rewrite IH. destruct (N.eqb_spec k k') as [->|Nk].
      * destruct (N.eqb_spec q k'); [contradiction|reflexivity].
      * reflexivity.
Qed.
Lemma supdate_keys m k v : skeys (supdate m k v) = skeys m.
Proof. induction m as [|[q [e f]] m IH]; simpl; [reflexivity|]. destruct (q =? k)%N; simpl; [reflexivity|]. rewrite IH. reflexivity. Qed.
Lemma sremove_lookup m k k' : NoDup (skeys m) -> slookup (sremove m k) k' = if (k =? k')%N then None else slookup m k'.
Proof.
  induction m as [|[q x] m IH]; intro ND; simpl.
  - destruct (k =? k')%N; reflexivity.
  - inversion ND as [|? ? H1 H2]; subst. destruct (N.eqb_spec q k) as [->|Nq]; simpl.
    + destruct (N.eqb_spec k k') as [->|]; [apply slookup_None; exact H1|reflexivity].
    + destruct (N.eqb_spec q k') as [->|].
      * destruct (N.eqb_spec k k'); [congruence|reflexivity].
      * apply IH; exact H2.
Qed.
Lemma sremove_absent m k : slookup m k = None -> sremove m k = m.
Proof. induction m as [|[q x] m IH]; simpl; [reflexivity|]. destruct (q =? k)%N; [discriminate|]. intro H. rewrite IH by exact H. reflexivity. Qed.
Lemma sremove_keys_incl m k : forall q, In q (skeys (sremove m k)) -> In q (skeys m).
Proof. induction m as [|[q' x] m IH]; simpl; [auto|]. intros q. destruct (q' =? k)%N; simpl; [auto|]. intros [H|H]; auto. Qed.
Lemma sremove_nodup m k : NoDup (skeys m) -> NoDup (skeys (sremove m k)).
Proof.
  induction m as [|[q' x] m IH]; simpl; [auto|]. intro ND. inversion ND as [|? ? H1 H2]; subst.
  destruct (q' =? k)%N; [exact H2|]. simpl. constructor; [|auto]. intro H. apply H1. eapply sremove_keys_incl; eauto.
Qed.
Lemma sremove_len m k x : slookup m k = Some x -> S (length (sremove m k)) = length m.
Proof. induction m as [|[q' y] m IH]; simpl; [discriminate|]. destruct (q' =? k)%N; [auto|]. intro H. simpl. rewrite IH by exact H. reflexivity. Qed.

(* tables that store the same things up to one replaced value *)
Lemma stored_replace t i k v w k' v' : uniq t -> i < NMAX -> t i = Some (k, w) ->
  (stored (set_tab t i (Some (k, v))) k' v' <-> if (k =? k')%N then v' = v else stored t k' v').
Proof.
  intros U Hi Ei. destruct (N.eqb_spec k k') as [<-|Nk]; split.
  - intros (j & Hj & Ej). unfold set_tab in Ej. destruct (Nat.eqb_spec j i) as [->|Nj]; [congruence|].
    exfalso. apply Nj. exact (U j i _ _ _ Hj Hi Ej Ei).
  - intros ->. exists i. split; [exact Hi|]. apply set_tab_same.
  - intros (j & Hj & Ej). unfold set_tab in Ej. destruct (Nat.eqb_spec j i) as [->|Nj]; [congruence|]. exists j. auto.
  - intros (j & Hj & Ej). exists j. split; [exact Hj|]. rewrite set_tab_other; [exact Ej|]. intros ->. congruence.
Qed.
Lemma stored_insert t i k v k' v' : i < NMAX -> t i = None -> (forall w, ~ stored t k w) ->
  (stored (set_tab t i (Some (k, v))) k' v' <-> if (k =? k')%N then v' = v else stored t k' v').
Proof.
  intros Hi Ei Hn. destruct (N.eqb_spec k k') as [<-|Nk]; split.
  - intros (j & Hj & Ej). unfold set_tab in Ej. destruct (Nat.eqb_spec j i) as [->|Nj]; [congruence|].
    exfalso. apply (Hn v'). exists j. auto.
  - intros ->. exists i. split; [exact Hi|]. apply set_tab_same.
  - intros (j & Hj & Ej). unfold set_tab in Ej. destruct (Nat.eqb_spec j i) as [->|Nj]; [congruence|]. exists j. auto.
  - intros (j & Hj & Ej). exists j. split; [exact Hj|]. rewrite set_tab_other; [exact Ej|]. intros ->. congruence.
Qed.

(* what one operation does to the table, used for both the map and the visibility proofs *)
Inductive effect (b : bboard) (s : sbb) : bboard -> sbb -> Prop :=
| ef_replace k v w f i : i < NMAX -> bb_tab b i = Some (k, w) -> slookup (s_map s) k = Some (w, f) ->
    effect b s (bb_count_up (mkbb (set_tab (bb_tab b) i (Some (k, v))) (bb_toc b) (bb_toctoc b)
                                          (bb_num b) (bb_max b) (bb_skipped b) (bb_ucount b)))
               (mksbb (supdate (s_map s) k v) (s_skipped s))
| ef_insert k v (incl : bool) i : i < NMAX -> bb_tab b i = None -> slookup (s_map s) k = None -> length (s_map s) < CAP ->
    (forall x, x < NMAX -> dist (home k) x < dist (home k) i -> bb_tab b x <> None) ->
    effect b s (bb_count_up (mkbb (set_tab (bb_tab b) i (Some (k, v)))
                      (if incl then set_bit (bb_toc b) i true else bb_toc b)
                      (if incl then set_bit (bb_toctoc b) (i / 32) true else bb_toctoc b)
                      (S (bb_num b)) (Nat.max (S (bb_num b)) (bb_max b)) (bb_skipped b) (bb_ucount b)))
               (mksbb ((k, (v, incl)) :: s_map s) (s_skipped s))
| ef_skip k : slookup (s_map s) k = None -> CAP <= length (s_map s) ->
    effect b s (bb_count_up (mkbb (bb_tab b) (bb_toc b) (bb_toctoc b) (bb_num b) (bb_max b) (S (bb_skipped b)) (bb_ucount b)))
               (mksbb (s_map s) (S (s_skipped s)))
| ef_del k v f i t h : i < NMAX -> bb_tab b i = Some (k, v) -> slookup (s_map s) k = Some (v, f) ->
    del_loop NMAX (bb_tab b) i i = Some (t, h) -> h < NMAX ->
    wf (set_tab t h None) -> uniq (set_tab t h None) ->
    (forall k' w, stored (set_tab t h None) k' w <-> stored (bb_tab b) k' w /\ k' <> k) ->
    (forall p, p < NMAX -> (t p = None <-> bb_tab b p = None)) ->
    effect b s (let toc := set_bit (bb_toc b) h false in
              mkbb (set_tab t h None) toc
                         (if word_zero toc (h / 32) then set_bit (bb_toctoc b) (h / 32) false else bb_toctoc b)
                         (pred (bb_num b)) (bb_max b) (bb_skipped b) (S (bb_ucount b)))
               (mksbb (sremove (s_map s) k) (s_skipped s))
| ef_same : effect b s b s.

Lemma put_effect b s k v incl : refines b s -> exists b', bb_set b k v incl = Some b' /\
  bb_exchange b k v incl = Some (b', s_get s k) /\ effect b s b' (s_put s k v incl).
Proof.
  intros R. destruct (bb_find_ok b s k R) as (i & Hi & Ef & H). unfold bb_set, bb_exchange, s_put, s_get. rewrite Ef.
  destruct H as [(w & f & Ei & L)|(Ei & L)]; rewrite L.
  - rewrite (at_key_some _ _ _ _ Ei). eexists. split; [reflexivity|]. split; [reflexivity|]. eapply ef_replace; eauto.
  - rewrite (at_key_none _ _ _ Ei). unfold bb_add.
    destruct (empty_slot b s R) as (e & He & Ee). assert (Hd := dist_lt _ _ (home_lt k) He).
    destruct (find_free_ok (bb_tab b) (home k) e (home_lt k) He Ee NMAX 0) as (d & B & E & Hb & Hl); [lia|lia|].
    rewrite adv_0 in E by apply home_lt. rewrite E. rewrite CAP_NMAX, (rf_num b s R).
    destruct (Nat.ltb_spec (length (s_map s)) CAP); cbn [negb option_map].
    + eexists. split; [rewrite <- (rf_num b s R); reflexivity|]. split; [rewrite <- (rf_num b s R); reflexivity|].
      apply ef_insert; auto.
      * apply adv_lt; [apply home_lt|lia].
      * intros x Hx Dx. rewrite dist_adv in Dx by (try apply home_lt; lia).
        rewrite <- (adv_dist (home k) x) by (auto; apply home_lt). apply Hb. lia.
    + eexists. split; [rewrite <- (rf_num b s R); reflexivity|]. split; [rewrite <- (rf_num b s R); reflexivity|].
      eapply ef_skip; eauto.
Qed.

Lemma step_effect b s o : refines b s -> exists b', bb_step b o = Some (b', snd (s_step s o)) /\ effect b s b' (fst (s_step s o)).
Proof.
  intros R. destruct o as [k v i|k|k v i|k]; cbn [bb_step s_step fst snd].
  - destruct (put_effect b s k v i R) as (b' & E & _ & H). rewrite E. exists b'. split; [reflexivity|exact H].
  - destruct (bb_find_ok b s k R) as (i & Hi & Ef & H). unfold bb_del. rewrite Ef.
    destruct H as [(w & f & Ei & L)|(Ei & L)].
    + rewrite (at_key_some _ _ _ _ Ei). destruct (empty_slot b s R) as (e & He & Ee).
      destruct (del_ok (bb_tab b) i k w e (rf_wf b s R) (rf_uniq b s R) He Ee Hi Ei) as (t & h & E & Hh & W & U & S & Oc & _).
      rewrite E. eexists. split; [reflexivity|]. exact (ef_del b s k w f i t h Hi Ei L E Hh W U S Oc).
    + rewrite (at_key_none _ _ _ Ei). eexists. split; [reflexivity|]. rewrite sremove_absent by exact L.
      destruct s. apply ef_same.
  - destruct (put_effect b s k v i R) as (b' & _ & E & H). rewrite E. exists b'. split; [reflexivity|exact H].
  - destruct (bb_find_ok b s k R) as (i & Hi & Ef & H). unfold bb_get, s_get. rewrite Ef.
    destruct H as [(w & f & Ei & L)|(Ei & L)]; rewrite L.
    + rewrite (at_key_some _ _ _ _ Ei). eexists. split; [reflexivity|apply ef_same].
    + rewrite (at_key_none _ _ _ Ei). eexists. split; [reflexivity|apply ef_same].
Qed.

Lemma effect_refines b s b' s' : refines b s -> effect b s b' s' -> refines b' s'.
Proof.
  intros R E. destruct E.
  - constructor; cbn [bb_count_up bb_tab bb_num bb_skipped s_map s_skipped].
    + eapply wf_replace; eauto; apply R.
    + eapply uniq_replace; eauto; apply R.
    + intros k' v'. rewrite (stored_replace _ _ _ _ _ _ _ (rf_uniq b s R) H H0), supdate_lookup.
      destruct (N.eqb_spec k k') as [<-|Nk].
      * rewrite H1. cbn [option_map snd]. split; [intros ->; eauto|intros (f' & Q); congruence].
      * apply (rf_map b s R).
    + rewrite supdate_keys. apply R.
    + rewrite (rf_num b s R). rewrite <- (map_length fst (s_map s)), <- (map_length fst (supdate _ _ _)).
      change (map fst (supdate (s_map s) k v)) with (skeys (supdate (s_map s) k v)). rewrite supdate_keys. reflexivity.
    + assert (Q : length (supdate (s_map s) k v) = length (s_map s)).
      { rewrite <- (map_length fst (s_map s)), <- (map_length fst (supdate _ _ _)).
        change (map fst (supdate (s_map s) k v)) with (skeys (supdate (s_map s) k v)). rewrite supdate_keys. reflexivity. }
      rewrite Q. apply R.
    + apply R.
  - assert (Hn : forall w, ~ stored (bb_tab b) k w).
    { intros w Hs. apply (rf_map b s R) in Hs as (f & L). congruence. }
    constructor; cbn [bb_count_up bb_tab bb_num bb_skipped s_map s_skipped].
    + apply wf_insert; auto. apply R.
    + apply uniq_insert; auto. apply R.
    + intros k' v'. rewrite (stored_insert _ _ _ _ _ _ H H0 Hn). cbn [slookup].
      destruct (N.eqb_spec k k') as [<-|Nk].
      * split; [intros ->; eauto|intros (f' & Q); congruence].
      * apply (rf_map b s R).
    + cbn. constructor; [apply slookup_None; exact H1|apply R].
    + cbn. rewrite (rf_num b s R). reflexivity.
    + cbn. lia.
    + apply R.
  - destruct R. constructor; cbn; auto.
  - constructor; cbn [bb_tab bb_num bb_skipped s_map s_skipped]; auto.
    + intros k' v'. rewrite H6, sremove_lookup by apply R. rewrite (rf_map b s R).
      destruct (N.eqb_spec k k') as [<-|Nk].
      * split; [tauto|intros (f' & Q); discriminate].
      * split; [tauto|]. intro Q. split; [exact Q|congruence].
    + apply sremove_nodup. apply R.
    + rewrite (rf_num b s R). assert (Q := sremove_len _ _ _ H1). lia.
    + assert (Q := sremove_len _ _ _ H1). assert (C := rf_cap b s R). lia.
    + apply R.
  - exact R.
Qed.

Lemma refines_init : refines bb_init s_init.
Proof.
  constructor; cbn; auto; try lia.
  - intros i k v _ E. discriminate.
  - intros i j k v w _ _ E. discriminate.
  - intros k v. split; [intros (i & _ & E); discriminate|intros (f & E); discriminate].
  - constructor.
Qed.

Lemma run_refines ops : forall b s, refines b s -> exists b', bb_run b ops = Some (b', snd (s_run s ops)) /\ refines b' (fst (s_run s ops)).
Proof.
  induction ops as [|o ops IH]; intros b s R.
  - exists b. split; [reflexivity|exact R].
  - destruct (step_effect b s o R) as (b1 & E1 & F1). assert (R1 := effect_refines _ _ _ _ R F1).
    destruct (IH b1 _ R1) as (b2 & E2 & R2). exists b2. cbn [bb_run s_run]. rewrite E1, E2.
    destruct (s_step s o) as [s1 e]. cbn [fst snd] in *. destruct (s_run s1 ops) as [s2 es]. cbn [fst snd] in *.
    split; [reflexivity|exact R2].
Qed.

(* ---- visibility (toc bits) ---- *)
Definition flag_of (m : smap) (k : N) : bool := match slookup m k with Some (_, f) => f | None => false end.

Record vis (b : bboard) (s : sbb) : Prop := mkvis {
  vs_toc : forall i, i < NMAX -> bb_toc b i = match bb_tab b i with None => false | Some (k, _) => flag_of (s_map s) k end;
  vs_out : forall i, NMAX <= i -> bb_toc b i = false;
  vs_toctoc : forall w, bb_toctoc b w = negb (word_zero (bb_toc b) w) }.

Lemma word_zero_false toc w : word_zero toc w = false <-> exists j, j < 32 /\ toc (w * 32 + j) = true.
Proof.
  unfold word_zero. split.
  - intro H. destruct (existsb (fun j => toc (w * 32 + j)) (seq 0 32)) eqn:X.
    + apply existsb_exists in X as (j & Hj & Ej). apply in_seq in Hj. exists j. split; [lia|exact Ej].
    + exfalso. assert (Q : forallb (fun j => negb (toc (w * 32 + j))) (seq 0 32) = true); [|congruence].
      apply forallb_forall. intros j Hj. destruct (toc (w * 32 + j)) eqn:E; [|reflexivity]. exfalso.
      assert (Q : existsb (fun j => toc (w * 32 + j)) (seq 0 32) = true) by (apply existsb_exists; exists j; auto). congruence.
  - intros (j & Hj & Ej). destruct (forallb _ _) eqn:F; [|reflexivity]. exfalso.
    rewrite forallb_forall in F. specialize (F j). rewrite Ej in F. discriminate F. apply in_seq. lia.
Qed.
Lemma word_zero_ext f g w : (forall j, j < 32 -> f (w * 32 + j) = g (w * 32 + j)) -> word_zero f w = word_zero g w.
Proof.
  intro H. destruct (word_zero g w) eqn:E.
  - destruct (word_zero f w) eqn:E2; [reflexivity|]. apply word_zero_false in E2 as (j & Hj & Ej).
    assert (Q : word_zero g w = false); [|congruence]. apply word_zero_false. exists j. rewrite <- H; auto.
  - apply word_zero_false in E as (j & Hj & Ej). apply word_zero_false. exists j. rewrite H; auto.
Qed.
Lemma split32 i : i = (i / 32) * 32 + i mod 32 /\ i mod 32 < 32.
Proof. split; [rewrite Nat.mul_comm; apply Nat.div_mod; lia|apply Nat.mod_upper_bound; lia]. Qed.
Lemma div32 w j : j < 32 -> (w * 32 + j) / 32 = w.
Proof. intro H. rewrite Nat.add_comm, Nat.div_add by lia. rewrite Nat.div_small by lia. reflexivity. Qed.

Lemma toctoc_set toc toctoc i : (forall w, toctoc w = negb (word_zero toc w)) ->
  forall w, set_bit toctoc (i / 32) true w = negb (word_zero (set_bit toc i true) w).
Proof.
  intros H w. unfold set_bit at 1. destruct (Nat.eqb_spec w (i / 32)) as [->|Nw].
  - symmetry. apply negb_true_iff. apply word_zero_false. exists (i mod 32). destruct (split32 i) as [E L].
    split; [exact L|]. rewrite <- E. unfold set_bit. rewrite Nat.eqb_refl. reflexivity.
  - rewrite H. f_equal. apply word_zero_ext. intros j Hj. unfold set_bit.
    destruct (Nat.eqb_spec (w * 32 + j) i) as [E|]; [|reflexivity]. exfalso. apply Nw. rewrite <- E. symmetry. apply div32. exact Hj.
Qed.
Lemma toctoc_clear toc toctoc h : (forall w, toctoc w = negb (word_zero toc w)) ->
  forall w, (if word_zero (set_bit toc h false) (h / 32) then set_bit toctoc (h / 32) false else toctoc) w =
            negb (word_zero (set_bit toc h false) w).
Proof.
  intros H w. assert (Oth : w <> h / 32 -> word_zero (set_bit toc h false) w = word_zero toc w).
  { intro Nw. apply word_zero_ext. intros j Hj. unfold set_bit. destruct (Nat.eqb_spec (w * 32 + j) h) as [E|]; [|reflexivity].
    exfalso. apply Nw. rewrite <- E. symmetry. apply div32. exact Hj. }
  destruct (word_zero (set_bit toc h false) (h / 32)) eqn:Z.
  - unfold set_bit at 1. destruct (Nat.eqb_spec w (h / 32)) as [->|Nw]; [rewrite Z; reflexivity|].
    rewrite H, Oth by exact Nw. reflexivity.
  - rewrite H. destruct (Nat.eq_dec w (h / 32)) as [->|Nw]; [|rewrite Oth by exact Nw; reflexivity].
    rewrite Z. f_equal. apply word_zero_false in Z as (j & Hj & Ej). apply word_zero_false. exists j. split; [exact Hj|].
    unfold set_bit in Ej. destruct (_ =? _); [discriminate|exact Ej].
Qed.

(* the extra condition under which a deletion keeps the bits right *)
Definition all_visible (m : smap) : Prop := forall k, slookup m k <> None -> flag_of m k = true.
Definition at_home (t : tab) : Prop := forall i k v, i < NMAX -> t i = Some (k, v) -> i = home k.

Lemma set_bit_same f i b : set_bit f i b i = b.
Proof. unfold set_bit. rewrite Nat.eqb_refl. reflexivity. Qed.
Lemma set_bit_other f i b j : j <> i -> set_bit f i b j = f j.
Proof. unfold set_bit. intro. destruct (Nat.eqb_spec j i); [contradiction|reflexivity]. Qed.

Lemma at_home_no_shift t i f : at_home t -> i < NMAX -> forall j t' h, j < NMAX -> del_loop f t i j = Some (t', h) -> t' = t /\ h = i.
Proof.
  intros A Hi. induction f as [|f IH]; intros j t' h Hj E; cbn [del_loop] in E; [discriminate|].
  assert (Hn : next j < NMAX) by (destruct (next_spec j); lia).
  destruct (t (next j)) as [[k v]|] eqn:Et.
  - assert (Eh := A (next j) k v Hn Et). rewrite <- Eh in E.
    destruct (Nat.ltb_spec i (next j)); destruct (Nat.leb_spec (next j) i); destruct (Nat.ltb_spec (next j) i); try lia;
      destruct (Nat.ltb_spec (next j) (next j)); try lia; cbn [andb orb] in E; eapply IH; eauto.
  - injection E as <- <-. auto.
Qed.

Lemma effect_vis b s b' s' : refines b s -> vis b s -> effect b s b' s' ->
  (bb_num b' < bb_num b -> all_visible (s_map s) \/ at_home (bb_tab b)) -> vis b' s'.
Proof.
  intros R V E C. destruct E.
  - constructor; cbn [bb_count_up bb_tab bb_toc bb_toctoc s_map]; [|apply V|apply V].
    intros j Hj. rewrite (vs_toc b s V j Hj). unfold set_tab, flag_of.
    destruct (Nat.eqb_spec j i) as [->|Nj].
    + rewrite H0, supdate_lookup, N.eqb_refl, H1. reflexivity.
    + destruct (bb_tab b j) as [[k' v']|] eqn:Ej; [|reflexivity]. rewrite supdate_lookup.
      destruct (N.eqb_spec k k') as [<-|]; [|reflexivity]. rewrite H1. reflexivity.
  - assert (Hbit : forall j, (if incl then set_bit (bb_toc b) i true else bb_toc b) j = if j =? i then orb incl (bb_toc b i) else bb_toc b j).
    { intro j. destruct incl; [reflexivity|]. destruct (Nat.eqb_spec j i) as [->|]; reflexivity. }
    constructor; cbn [bb_count_up bb_tab bb_toc bb_toctoc s_map].
    + intros j Hj. rewrite Hbit. unfold set_tab, flag_of. cbn [slookup].
      destruct (Nat.eqb_spec j i) as [->|Nj].
      * rewrite N.eqb_refl. rewrite (vs_toc b s V i Hj), H0, orb_false_r. reflexivity.
      * rewrite (vs_toc b s V j Hj). destruct (bb_tab b j) as [[k' v']|] eqn:Ej; [|reflexivity].
        destruct (N.eqb_spec k k') as [<-|]; [|reflexivity]. exfalso.
        destruct (proj1 (rf_map b s R k v')) as (f & L); [exists j; auto|]. congruence.
    + intros j Hj. rewrite Hbit. destruct (Nat.eqb_spec j i) as [->|]; [lia|]. apply V. exact Hj.
    + destruct incl; [|apply V]. apply toctoc_set. apply V.
  - constructor; cbn [bb_count_up bb_tab bb_toc bb_toctoc s_map]; apply V.
  - destruct C as [C|C]; [cbn [bb_num]; rewrite (rf_num b s R); assert (Q := sremove_len _ _ _ H1); lia| |].
    + constructor; cbn [bb_tab bb_toc bb_toctoc s_map].
      * intros j Hj. unfold set_tab, set_bit. destruct (Nat.eqb_spec j h) as [->|Nj]; [reflexivity|].
        rewrite (vs_toc b s V j Hj).
        destruct (t j) as [[k' v']|] eqn:Et.
        -- destruct (bb_tab b j) as [[k2 v2]|] eqn:Eb; [|exfalso; assert (Q := proj2 (H7 j Hj) Eb); congruence].
           assert (L2 : slookup (s_map s) k2 <> None).
           { destruct (proj1 (rf_map b s R k2 v2)) as (f2 & L); [exists j; auto|]. congruence. }
           rewrite (C k2 L2). unfold flag_of.
           assert (St : stored (set_tab t h None) k' v') by (exists j; split; [exact Hj|rewrite set_tab_other by exact Nj; exact Et]).
           apply H6 in St as [St Nk]. apply (rf_map b s R) in St as (f2 & L). rewrite sremove_lookup by apply R.
           destruct (N.eqb_spec k k'); [congruence|]. rewrite L.
           assert (Q := C k' ltac:(congruence)). unfold flag_of in Q. rewrite L in Q. symmetry. exact Q.
        -- destruct (bb_tab b j) as [[k2 v2]|] eqn:Eb; [|reflexivity]. exfalso. assert (Q := proj1 (H7 j Hj) Et). congruence.
      * intros j Hj. unfold set_bit. destruct (j =? h); [reflexivity|]. apply V. exact Hj.
      * apply toctoc_clear. apply V.
    + destruct (at_home_no_shift _ _ _ C H i t h H H2) as [-> ->].
      constructor; cbn [bb_tab bb_toc bb_toctoc s_map].
      * intros j Hj. unfold set_tab, set_bit. destruct (Nat.eqb_spec j i) as [->|Nj]; [reflexivity|].
        rewrite (vs_toc b s V j Hj). destruct (bb_tab b j) as [[k2 v2]|] eqn:Eb; [|reflexivity].
        unfold flag_of. rewrite sremove_lookup by apply R. destruct (N.eqb_spec k k2) as [<-|]; [|reflexivity].
        exfalso. apply Nj. exact (rf_uniq b s R j i _ _ _ Hj H Eb H0).
      * intros j Hj. unfold set_bit. destruct (j =? i); [reflexivity|]. apply V. exact Hj.
      * apply toctoc_clear. apply V.
  - exact V.
Qed.

Lemma flat_map_filter {A B} (f : A -> bool) (g : A -> B) l : flat_map (fun x => if f x then [g x] else []) l = map g (filter f l).
Proof. induction l as [|x l IH]; simpl; [reflexivity|]. destruct (f x); simpl; rewrite IH; reflexivity. Qed.

(* the snapshot enumerates exactly the slots with a set bit *)
Lemma snapshot_slots b : (forall w, bb_toctoc b w = negb (word_zero (bb_toc b) w)) ->
  bb_snapshot b = map (slot_val b) (filter (bb_toc b) (flat_map (fun w => map (fun j => w * 32 + j) (seq 0 32)) (seq 0 32))).
Proof.
  intro H. unfold bb_snapshot. generalize (seq 0 32) at 2 4. intro ws. induction ws as [|w ws IH]; [reflexivity|].
  cbn [flat_map]. rewrite filter_app, map_app, IH. f_equal.
  assert (G : forall l, flat_map (fun j => if bb_toc b (w * 32 + j) then [slot_val b (w * 32 + j)] else []) l =
                        map (slot_val b) (filter (bb_toc b) (map (fun j => w * 32 + j) l))).
  { induction l as [|j l IHl]; [reflexivity|]. cbn [flat_map map filter]. destruct (bb_toc b (w * 32 + j)); cbn [app map]; rewrite IHl; reflexivity. }
  rewrite H. destruct (word_zero (bb_toc b) w) eqn:Z; cbn [negb]; [|apply G].
  rewrite <- G. symmetry. assert (N : forall j, In j (seq 0 32) -> bb_toc b (w * 32 + j) = false).
  { intros j Hj. destruct (bb_toc b (w * 32 + j)) eqn:E; [|reflexivity]. exfalso. apply in_seq in Hj.
    assert (Q : word_zero (bb_toc b) w = false) by (apply word_zero_false; exists j; split; [lia|exact E]). congruence. }
  revert N. generalize (seq 0 32). intro l. induction l as [|j l IHl]; intro N; [reflexivity|].
  cbn [flat_map]. rewrite (N j) by (left; reflexivity). apply IHl. intros q Hq. apply N. right. exact Hq.
Qed.

Definition slots : list nat := flat_map (fun w => map (fun j => w * 32 + j) (seq 0 32)) (seq 0 32).
Lemma slots_seq : slots = seq 0 1024.
Proof. vm_compute. reflexivity. Qed.

Lemma NoDup_map_in {A B} (f : A -> B) l : (forall x y, In x l -> In y l -> f x = f y -> x = y) -> NoDup l -> NoDup (map f l).
Proof.
  induction l as [|x l IH]; intros H ND; simpl; [constructor|]. inversion ND as [|? ? H1 H2]; subst. constructor.
  - intro Q. apply in_map_iff in Q as (y & Ey & Hy). apply H1. rewrite (H x y); [exact Hy|left; reflexivity|right; exact Hy|congruence].
  - apply IH; [|exact H2]. intros a b Ha Hb. apply H; right; assumption.
Qed.

Lemma snapshot_visible b s : refines b s -> vis b s -> Permutation (bb_snapshot b) (visible (s_map s)).
Proof.
  intros R V. rewrite (snapshot_slots b (vs_toctoc b s V)). fold slots. rewrite slots_seq.
  set (pair := fun i => match bb_tab b i with Some (k, v) => (k, (v, true)) | None => (0%N, (EEmpty, true)) end).
  assert (Slot : forall i, In i (filter (bb_toc b) (seq 0 1024)) ->
     i < NMAX /\ exists k v, bb_tab b i = Some (k, v) /\ slookup (s_map s) k = Some (v, true)).
  { intros i Hi. apply filter_In in Hi as [_ Bi].
    destruct (Nat.lt_ge_cases i NMAX) as [L|G]; [|rewrite (vs_out b s V i G) in Bi; discriminate].
    split; [exact L|]. rewrite (vs_toc b s V i L) in Bi. destruct (bb_tab b i) as [[k v]|] eqn:Ei; [|discriminate].
    exists k, v. split; [reflexivity|]. unfold flag_of in Bi.
    destruct (proj1 (rf_map b s R k v)) as (f & Lk); [exists i; auto|]. rewrite Lk in *. congruence. }
  assert (E1 : map (slot_val b) (filter (bb_toc b) (seq 0 1024)) =
               map (fun x => fst (snd x)) (map pair (filter (bb_toc b) (seq 0 1024)))).
  { rewrite map_map. apply map_ext_in. intros i Hi. destruct (Slot i Hi) as (_ & k & v & Ei & _).
    unfold slot_val, pair. rewrite Ei. reflexivity. }
  rewrite E1. unfold visible. apply Permutation_map. apply NoDup_Permutation.
  - apply NoDup_map_in.
    + intros x y Hx Hy E. destruct (Slot x Hx) as (Lx & k & v & Ex & _). destruct (Slot y Hy) as (Ly & k' & v' & Ey & _).
      unfold pair in E. rewrite Ex, Ey in E. injection E as -> ->. exact (rf_uniq b s R x y _ _ _ Lx Ly Ex Ey).
    + apply NoDup_filter, seq_NoDup.
  - apply NoDup_filter. assert (ND := rf_nodup b s R). unfold skeys in ND. apply NoDup_map_inv in ND. exact ND.
  - intros [k [v f]]. rewrite in_map_iff, filter_In. split.
    + intros (i & Ei & Hi). destruct (Slot i Hi) as (Li & k' & v' & Ex & L). unfold pair in Ei. rewrite Ex in Ei.
      injection Ei as <- <- <-. cbn. split; [apply slookup_In; exact L|reflexivity].
    + intros [Hin Hf]. cbn in Hf. subst f. apply slookup_In_nodup in Hin; [|apply R].
      destruct (proj2 (rf_map b s R k v)) as (i & Li & Ei); [eauto|]. exists i. split; [unfold pair; rewrite Ei; reflexivity|].
      apply filter_In. split; [apply in_seq; assert (Q := NMAX_1024); lia|].
      rewrite (vs_toc b s V i Li), Ei. unfold flag_of. rewrite Hin. reflexivity.
Qed.

Lemma vis_init : vis bb_init s_init.
Proof. constructor; cbn; auto. Qed.

(* histories for which the snapshots are right *)
Definition no_del (ops : list bb_op) : Prop := forall k, ~ In (BDel k) ops.
Definition only_visible (ops : list bb_op) : Prop := forall k v f, In (BSet k v f) ops \/ In (BExch k v f) ops -> f = true.
Definition no_collision (ops : list bb_op) : Prop :=
  forall a b, In a ops -> In b ops -> (op_key a mod 1021 = op_key b mod 1021)%N -> op_key a = op_key b.

Lemma s_put_keys s k v i q : In q (skeys (s_map (s_put s k v i))) -> q = k \/ In q (skeys (s_map s)).
Proof.
  unfold s_put. destruct (slookup (s_map s) k); cbn [s_map]; [rewrite supdate_keys; auto|].
  destruct (_ <? _); cbn; [intros [H|H]; auto|auto].
Qed.
Lemma s_step_keys s o q : In q (skeys (s_map (fst (s_step s o)))) -> q = op_key o \/ In q (skeys (s_map s)).
Proof.
  destruct o as [k v i|k|k v i|k]; cbn [s_step fst op_key]; try apply s_put_keys; [|auto].
  cbn [s_map]. intro H. right. eapply sremove_keys_incl; eauto.
Qed.
Lemma step_num b s o b' : refines b s -> bb_step b o = Some b' -> effect b s (fst b') (fst (s_step s o)) ->
  bb_num (fst b') < bb_num b -> exists k, o = BDel k.
Proof.
  intros R E F L. assert (R' := effect_refines _ _ _ _ R F). rewrite (rf_num _ _ R), (rf_num _ _ R') in L.
  destruct o as [k v i|k|k v i|k]; cbn [s_step fst] in L; [exfalso|eauto|exfalso|lia].
  - unfold s_put in L. destruct (slookup (s_map s) k); cbn [s_map] in L.
    + rewrite <- (map_length fst (s_map s)), <- (map_length fst (supdate _ _ _)) in L.
      change (map fst (supdate (s_map s) k v)) with (skeys (supdate (s_map s) k v)) in L. rewrite supdate_keys in L. unfold skeys in L. lia.
    + destruct (_ <? _); cbn in L; lia.
  - unfold s_put in L. destruct (slookup (s_map s) k); cbn [s_map] in L.
    + rewrite <- (map_length fst (s_map s)), <- (map_length fst (supdate _ _ _)) in L.
      change (map fst (supdate (s_map s) k v)) with (skeys (supdate (s_map s) k v)) in L. rewrite supdate_keys in L. unfold skeys in L. lia.
    + destruct (_ <? _); cbn in L; lia.
Qed.

Lemma flag_put s k v i : NoDup (skeys (s_map s)) -> i = true -> all_visible (s_map s) -> all_visible (s_map (s_put s k v i)).
Proof.
  intros ND -> A p Hp. unfold s_put in *. destruct (slookup (s_map s) k) as [[w f]|] eqn:L; cbn [s_map] in *.
  - unfold flag_of. rewrite supdate_lookup in *. destruct (N.eqb_spec k p) as [<-|]; [|apply A; exact Hp].
    rewrite L. cbn. assert (Q := A k ltac:(congruence)). unfold flag_of in Q. rewrite L in Q. exact Q.
  - destruct (_ <? _); cbn [s_map] in *; [|apply A; exact Hp]. unfold flag_of in *. cbn [slookup] in *.
    destruct (N.eqb_spec k p); [reflexivity|]. apply A. exact Hp.
Qed.
Lemma all_visible_step s o : NoDup (skeys (s_map s)) -> only_visible [o] -> all_visible (s_map s) -> all_visible (s_map (fst (s_step s o))).
Proof.
  intros ND O A. destruct o as [k v i|k|k v i|k]; cbn [s_step fst].
  - apply flag_put; auto. apply (O k v i). left. left. reflexivity.
  - cbn [s_map]. intros p Hp. unfold flag_of. rewrite sremove_lookup in * by exact ND.
    destruct (N.eqb_spec k p); [contradiction|]. apply A. exact Hp.
  - apply flag_put; auto. apply (O k v i). right. left. reflexivity.
  - exact A.
Qed.

(* with collision-free keys every entry sits at its home slot *)
Lemma at_home_effect b s b' s' : refines b s -> at_home (bb_tab b) -> effect b s b' s' ->
  (forall k1 k2, In k1 (skeys (s_map s')) -> In k2 (skeys (s_map s')) -> home k1 = home k2 -> k1 = k2) -> at_home (bb_tab b').
Proof.
  intros R A E C. destruct E; cbn [bb_count_up bb_tab] in *.
  - intros j q w' Hj Ej. unfold set_tab in Ej. destruct (Nat.eqb_spec j i) as [->|]; [|eapply A; eauto].
    injection Ej as <- <-. eapply A; eauto.
  - intros j q w' Hj Ej. unfold set_tab in Ej. destruct (Nat.eqb_spec j i) as [->|]; [|eapply A; eauto].
    injection Ej as <- <-. destruct (Nat.eq_dec i (home k)) as [|Ni]; [assumption|]. exfalso.
    assert (Hh := home_lt k). apply (H3 (home k) Hh).
    { destruct (dist_spec (home k) (home k)), (dist_spec (home k) i); lia. }
    destruct (bb_tab b (home k)) as [[k2 v2]|] eqn:E2; [|reflexivity]. exfalso.
    assert (Q := A _ _ _ Hh E2). destruct (proj1 (rf_map b s R k2 v2)) as (f & L); [exists (home k); auto|].
    assert (k = k2).
    { apply C; [left; reflexivity| |exact Q]. right. apply slookup_In in L. change k2 with (fst (k2, (v2, f))). apply in_map. exact L. }
    subst k2. congruence.
  - exact A.
  - destruct (at_home_no_shift _ _ _ A H i t h H H2) as [-> ->].
    intros j q w' Hj Ej. unfold set_tab in Ej. destruct (Nat.eqb_spec j i) as [->|]; [discriminate|]. eapply A; eauto.
  - exact A.
Qed.

Lemma run_vis ops0 ops : (no_del ops0 \/ only_visible ops0 \/ no_collision ops0) ->
  (forall o, In o ops -> In o ops0) -> forall b s, refines b s -> vis b s ->
  (only_visible ops0 -> all_visible (s_map s)) ->
  (no_collision ops0 -> at_home (bb_tab b)) -> (forall q, In q (skeys (s_map s)) -> exists o, In o ops0 /\ q = op_key o) ->
  exists b', bb_run b ops = Some (b', snd (s_run s ops)) /\ refines b' (fst (s_run s ops)) /\ vis b' (fst (s_run s ops)).
Proof.
  intro C. induction ops as [|o ops IH]; intros Sub b s R V AV AH KS.
  - exists b. split; [reflexivity|]. split; [exact R|exact V].
  - destruct (step_effect b s o R) as (b1 & E1 & F1). assert (R1 := effect_refines _ _ _ _ R F1).
    assert (Ho := Sub o (or_introl eq_refl)).
    assert (KS1 : forall q, In q (skeys (s_map (fst (s_step s o)))) -> exists o', In o' ops0 /\ q = op_key o').
    { intros q Hq. apply s_step_keys in Hq as [->|Hq]; [eauto|apply KS; exact Hq]. }
    assert (V1 : vis b1 (fst (s_step s o))).
    { apply (effect_vis b s); auto. intro L. destruct (step_num b s o (b1, snd (s_step s o)) R E1 F1 L) as (k & ->).
      destruct C as [C|[C|C]]; [exfalso; exact (C k Ho)|left; apply AV; exact C|right; apply AH; exact C]. }
    destruct (IH (fun o' H => Sub o' (or_intror H)) b1 (fst (s_step s o)) R1 V1) as (b2 & E2 & R2 & V2).
    + intro O. apply all_visible_step; [apply R| |apply AV; exact O]. intros k v f H. apply (O k v f).
      destruct H as [[H|[]]|[H|[]]]; subst o; auto.
    + intro NC. apply (at_home_effect b s b1 (fst (s_step s o)) R (AH NC) F1). intros k1 k2 H1 H2 Hh.
      destruct (KS1 k1 H1) as (o1 & I1 & ->). destruct (KS1 k2 H2) as (o2 & I2 & ->). apply NC; auto. apply home_eq. exact Hh.
    + exact KS1.
    + exists b2. cbn [bb_run s_run]. rewrite E1, E2.
      destruct (s_step s o) as [s1 e]. cbn [fst snd] in *. destruct (s_run s1 ops) as [s2 es]. cbn [fst snd] in *. auto.
Qed.

Lemma snapshot_run ops : no_del ops \/ only_visible ops \/ no_collision ops ->
  exists b, bb_run bb_init ops = Some (b, snd (s_run s_init ops)) /\
            Permutation (bb_snapshot b) (visible (s_map (fst (s_run s_init ops)))).
Proof.
  intro C. destruct (run_vis ops ops C (fun o H => H) bb_init s_init refines_init vis_init) as (b & E & R & V).
  - intros _ k Hk. contradiction.
  - intros _ i k v _ E. discriminate.
  - intros q [].
  - exists b. split; [exact E|]. apply snapshot_visible; assumption.
Qed.

Lemma get_refines b s k : refines b s -> bb_get b k = Some (s_get s k).
Proof.
  intros R. destruct (step_effect b s (BGet k) R) as (b' & E & _). cbn [bb_step s_step snd] in E.
  destruct (bb_get b k); [|discriminate]. injection E as _ <-. reflexivity.
Qed.
Lemma s_get_put s k v incl k' : length (s_map s) < CAP ->
  s_get (fst (s_step s (BSet k v incl))) k' = if (k =? k')%N then v else s_get s k'.
Proof.
  intro H. cbn [s_step fst]. unfold s_put, s_get. destruct (slookup (s_map s) k) as [[w f]|] eqn:L; cbn [s_map].
  - rewrite supdate_lookup. destruct (k =? k')%N; [rewrite L|]; reflexivity.
  - destruct (Nat.ltb_spec (length (s_map s)) CAP); [|lia]. cbn [s_map slookup]. destruct (k =? k')%N; reflexivity.
Qed.
Lemma s_get_del ops k k' : let s := fst (s_run s_init ops) in
  s_get (fst (s_step s (BDel k))) k' = if (k =? k')%N then EEmpty else s_get s k'.
Proof.
  intro s. destruct (run_refines ops bb_init s_init refines_init) as (b & _ & R). fold s in R.
  cbn [s_step fst]. unfold s_get. cbn [s_map]. rewrite sremove_lookup by apply R. destruct (k =? k')%N; reflexivity.
Qed.
Lemma CAP_910 : CAP = 910. Proof. reflexivity. Qed.
Lemma overflow_contained ops : let s := fst (s_run s_init ops) in
  exists b, option_map fst (bb_run bb_init ops) = Some b /\
    bb_num b = length (s_map s) /\ bb_num b <= 910 /\ bb_skipped b = s_skipped s.
Proof.
  intro s. destruct (run_refines ops bb_init s_init refines_init) as (b & E & R). fold s in R.
  exists b. rewrite E. split; [reflexivity|]. split; [apply R|]. split; [rewrite (rf_num _ _ R), <- CAP_910; apply R|apply R].
Qed.
Lemma s_put_full s k v incl : slookup (s_map s) k = None -> 910 <= length (s_map s) ->
  fst (s_step s (BSet k v incl)) = mksbb (s_map s) (S (s_skipped s)).
Proof.
  intros L H. rewrite <- CAP_910 in H. cbn [s_step fst]. unfold s_put. rewrite L.
  destruct (Nat.ltb_spec (length (s_map s)) CAP); [lia|reflexivity].
Qed.
Lemma s_put_update s k v incl x : slookup (s_map s) k = Some x ->
  s_get (fst (s_step s (BSet k v incl))) k = v /\ s_skipped (fst (s_step s (BSet k v incl))) = s_skipped s.
Proof.
  intro L. cbn [s_step fst]. unfold s_put, s_get. rewrite L. cbn [s_map s_skipped].
  rewrite supdate_lookup, N.eqb_refl, L. auto.
Qed.
