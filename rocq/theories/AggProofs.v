(* The aggregation table: hash chains implement a map from keys to kernels *)
From Verif Require Import Base VariantModel VariantSpec NamesModel TextModel TreeModel CaliFileModel FloatModel ArithSpec AggModel.
Open Scope nat_scope.

Lemma keqb_eq a b : keqb a b = true <-> a = b.
Proof. unfold keqb. destruct (key_eq_dec a b); split; auto; discriminate. Qed.
Lemma keqb_refl a : keqb a a = true. Proof. apply keqb_eq; auto. Qed.
Lemma keqb_neq a b : keqb a b = false <-> a <> b.
Proof. unfold keqb. destruct (key_eq_dec a b); split; auto; try discriminate. contradiction. Qed.

Lemma upd_nth_length {A} (l : list A) i x : length (upd_nth l i x) = length l.
Proof. unfold upd_nth. rewrite app_length, firstn_length. destruct (skipn i l) eqn:E; assert (H := skipn_length i l); rewrite E in H; cbn in *; lia. Qed.
Lemma upd_nth_same {A} (l : list A) i x : i < length l -> nth_error (upd_nth l i x) i = Some x.
Proof.
  intro H. unfold upd_nth. rewrite nth_error_app2; rewrite firstn_length; [|lia]. replace (i - Nat.min i (length l)) with 0 by lia.
  destruct (skipn i l) eqn:E; [|reflexivity]. assert (Hs := skipn_length i l). rewrite E in Hs. cbn in Hs. lia.
Qed.
Lemma upd_nth_other {A} (l : list A) i j x : i <> j -> nth_error (upd_nth l i x) j = nth_error l j.
Proof.
  intro H. unfold upd_nth. rewrite <- (firstn_skipn i l) at 3. destruct (Nat.lt_ge_cases j i).
  - destruct (Nat.lt_ge_cases j (length l)).
    + rewrite !nth_error_app1 by (rewrite firstn_length; lia). reflexivity.
    + transitivity (@None A); [apply nth_error_None|symmetry; apply nth_error_None]; rewrite app_length, firstn_length.
      * destruct (skipn i l) eqn:E; assert (Hs := skipn_length i l); rewrite E in Hs; cbn in *; lia.
      * rewrite skipn_length; lia.
  - destruct (Nat.lt_ge_cases i (length l)) as [Hl|Hl].
    + rewrite !nth_error_app2 by (rewrite firstn_length; lia). rewrite firstn_length. destruct (skipn i l) eqn:E; [reflexivity|]. replace (j - Nat.min i (length l)) with (S (j - i - 1)) by lia. reflexivity.
    + rewrite skipn_all2 by lia. reflexivity.
Qed.

Section Engine.
Variable cs : list kcfg.

Lemma hash_lt key : key_hash key < NHASH.
Proof. unfold key_hash. assert (H := N.mod_lt (fold_left (fun h e => match e with EImm a v => wrap64 (wrap64 (h + a) + v_u64 v) | ERef i => wrap64 (h + i) end) key 0%N) (N.of_nat NHASH)). unfold NHASH in *. lia. Qed.

(* c is the largest index below b of an entry with hash h, 0 if there is none *)
Definition cur (g : agg) (h c b : nat) : Prop :=
  (c = 0 /\ (forall i e, i < b -> ent g i = Some e -> key_hash (ae_key e) <> h)) \/
  (0 < c < b /\ (exists e, ent g c = Some e /\ key_hash (ae_key e) = h) /\ (forall i e, c < i < b -> ent g i = Some e -> key_hash (ae_key e) <> h)).
Record ginv (g : agg) : Prop := mkginv {
  gi_hlen : length (g_hash g) = NHASH;
  gi_zero : nth_error (g_ents g) 0 = Some None;
  gi_some : forall i, 0 < i < length (g_ents g) -> exists e, ent g i = Some e;
  gi_top : forall h, h < NHASH -> cur g h (nth h (g_hash g) 0) (length (g_ents g));
  gi_next : forall i e, ent g i = Some e -> cur g (key_hash (ae_key e)) (ae_next e) i;
  gi_uniq : forall i j e f, ent g i = Some e -> ent g j = Some f -> ae_key e = ae_key f -> i = j }.
Lemma ent_lt g i e : ent g i = Some e -> i < length (g_ents g).
Proof. unfold ent. destruct (nth_error (g_ents g) i) eqn:E; [|discriminate]. intros _. apply nth_error_Some. congruence. Qed.

Lemma chain_ok g key : ginv g -> forall fuel c b, cur g (key_hash key) c b -> b <= fuel ->
  match chain fuel g key c with
  | Some i => exists e, ent g i = Some e /\ ae_key e = key
  | None => forall i e, i < b -> ent g i = Some e -> ae_key e <> key
  end.
Proof.
  intros Hg. induction fuel as [|f IH]; intros c b Hc Hf; cbn [chain].
  - intros i e H. lia.
  - destruct Hc as [(-> & Hn)|(Hc & (e & He & Hh) & Hn)].
    + intros i e Hi He Hk. apply (Hn i e Hi He). rewrite Hk. reflexivity.
    + destruct c as [|c]; [lia|]. rewrite He. destruct (keqb key (ae_key e)) eqn:Ek.
      * exists e. split; auto. apply keqb_eq in Ek. auto.
      * assert (Hx := IH (ae_next e) (S c)). rewrite <- Hh in Hx at 1. specialize (Hx (gi_next g Hg _ _ He) ltac:(lia)).
        destruct (chain f g key (ae_next e)); auto.
        intros i e' Hi He' Hk. destruct (Nat.lt_trichotomy i (S c)) as [L|[->|L]].
        -- eapply Hx; eauto.
        -- rewrite He in He'. inversion He'; subst. rewrite keqb_refl in Ek. discriminate.
        -- apply (Hn i e'); auto. rewrite Hk. reflexivity.
Qed.

Definition pset := list entry -> Prop.
Definition kval := list entry -> nat -> kst.
Definition grows (g g' : agg) : Prop := forall i e, ent g i = Some e -> exists e', ent g' i = Some e' /\ ae_key e' = ae_key e.
Lemma grows_refl g : grows g g. Proof. intros i e H. eauto. Qed.
Lemma grows_trans a b c : grows a b -> grows b c -> grows a c.
Proof. intros H1 H2 i e H. destruct (H1 i e H) as (e1 & E1 & K1). destruct (H2 i e1 E1) as (e2 & E2 & K2). exists e2. split; auto. congruence. Qed.
Record R (g : agg) (P : pset) (V : kval) : Prop := mkR {
  r_inv : ginv g;
  r_keys : forall K, P K <-> exists i e, ent g i = Some e /\ ae_key e = K;
  r_len : forall i e, ent g i = Some e -> length (ae_ker e) = length cs;
  r_val : forall i e j k, ent g i = Some e -> nth_error (ae_ker e) j = Some k -> k = V (ae_key e) j;
  r_def : forall K, ~ P K -> forall j c, nth_error cs j = Some c -> V K j = k_init c }.

Lemma R_init V : (forall K j c, nth_error cs j = Some c -> V K j = k_init c) -> R (agg_init cs) (fun _ => False) V.
Proof.
  intro HV. assert (E0 : forall i, ent (agg_init cs) i = None) by (intros [|[|i]]; reflexivity).
  constructor.
  - constructor; cbn [agg_init g_hash g_ents].
    + apply repeat_length.
    + reflexivity.
    + cbn. intros. lia.
    + intros h Hh. left. split; [|intros i e _ He; rewrite E0 in He; discriminate]. generalize NHASH. intro n. destruct (nth_in_or_default h (repeat 0 n) 0); auto. apply repeat_spec in i. auto.
    + intros i e He. rewrite E0 in He. discriminate.
    + intros i j e f He. rewrite E0 in He. discriminate.
  - intro K. split; [tauto|]. intros (i & e & He & _). rewrite E0 in He. discriminate.
  - intros i e He. rewrite E0 in He. discriminate.
  - intros i e j k He. rewrite E0 in He. discriminate.
  - intros K _ j c Hc. apply HV; auto.
Qed.
Lemma ent_app g e i : ent (mkagg (g_ents g ++ [Some e]) (g_hash g) (g_tot g)) i = if i =? length (g_ents g) then Some e else ent g i.
Proof.
  unfold ent. cbn [g_ents]. destruct (Nat.eqb_spec i (length (g_ents g))) as [->|Hn].
  - rewrite nth_error_app2, Nat.sub_diag by lia. reflexivity.
  - destruct (Nat.lt_ge_cases i (length (g_ents g))) as [L|L].
    + rewrite nth_error_app1 by auto. reflexivity.
    + assert (E1 : nth_error (g_ents g ++ [Some e]) i = None) by (apply nth_error_None; rewrite app_length; cbn; lia).
      assert (E2 : nth_error (g_ents g) i = None) by (apply nth_error_None; lia). rewrite E1, E2. reflexivity.
Qed.
Lemma nth_nth_error {A} (l : list A) i d x : nth_error l i = Some x -> nth i l d = x.
Proof. revert i. induction l; intros [|i]; cbn; try discriminate; intro H; [inversion H; auto|auto]. Qed.
Lemma nth_upd {A} (l : list A) i j x d : i < length l -> nth j (upd_nth l i x) d = if j =? i then x else nth j l d.
Proof.
  intro H. destruct (Nat.eqb_spec j i) as [->|Hn].
  - apply nth_nth_error. apply upd_nth_same; auto.
  - destruct (nth_error l j) as [y|] eqn:E.
    + rewrite (nth_nth_error l j d y E). apply nth_nth_error. rewrite upd_nth_other by auto. exact E.
    + apply nth_error_None in E. rewrite !nth_overflow; auto. rewrite upd_nth_length. auto.
Qed.
Lemma get_entry_ok g P V K i g' : R g P V -> get_entry cs g K = (i, g') ->
  R g' (fun K' => P K' \/ K' = K) V /\ (exists e, ent g' i = Some e /\ ae_key e = K) /\ grows g g' /\ g_tot g' = g_tot g.
Proof.
  intros HR. pose proof HR as [Hg Hk Hl Hv Hd]. unfold get_entry.
  assert (Hc := chain_ok g K Hg (length (g_ents g)) _ (length (g_ents g)) (gi_top g Hg _ (hash_lt K)) ltac:(lia)).
  destruct (chain _ g K _) as [i0|] eqn:Ec.
  - intro E. inversion E; subst. destruct Hc as (e & He & HeK). split; [|split; [eauto|split; [apply grows_refl|reflexivity]]].
    constructor; [exact Hg| |exact Hl|exact Hv|].
    + intro K'. rewrite <- Hk. split; auto. intros [H|H]; auto. subst K'. apply Hk. eauto.
    + intros K' Hn. apply Hd. tauto.
  - intro E. inversion E; subst; clear E. set (e0 := mkae K (map k_init cs) (nth (key_hash K) (g_hash g) 0)). set (n := length (g_ents g)) in *.
    assert (Hn : 0 < n). { assert (H := gi_zero g Hg). unfold n. destruct (g_ents g); cbn in *; [discriminate|lia]. }
    set (g' := mkagg (g_ents g ++ [Some e0]) (upd_nth (g_hash g) (key_hash K) n) (g_tot g)).
    assert (Ee : forall j, ent g' j = if j =? n then Some e0 else ent g j). { intro j. unfold ent, g'. cbn [g_ents]. apply (ent_app g e0 j). }
    assert (Eold : forall j e, ent g j = Some e -> ent g' j = Some e). { intros j e He. rewrite Ee. destruct (Nat.eqb_spec j n) as [->|]; auto. apply ent_lt in He. fold n in He. lia. }
    assert (Hcur : forall h c b, b <= n -> cur g h c b -> cur g' h c b).
    { intros h c b Hb [(-> & H)|(H1 & (e & He & Hh) & H)].
      - left. split; auto. intros j e Hj He. rewrite Ee in He. destruct (Nat.eqb_spec j n); [lia|]. eauto.
      - right. split; auto. split; [exists e; auto|]. intros j e' Hj He'. rewrite Ee in He'. destruct (Nat.eqb_spec j n); [lia|]. eauto. }
    assert (Glen : length (g_ents g') = S n). { unfold g'. cbn [g_ents]. rewrite app_length. fold n. cbn. lia. }
    split; [|split; [exists e0; split; [rewrite Ee, Nat.eqb_refl; reflexivity|reflexivity]|split; [|reflexivity]]].
    2: { intros j e He. exists e. split; auto. }
    constructor.
    + constructor.
      * unfold g'. cbn [g_hash]. rewrite upd_nth_length. apply (gi_hlen g Hg).
      * unfold g'. cbn [g_ents]. rewrite nth_error_app1 by (fold n; lia). apply (gi_zero g Hg).
      * intros j Hj. rewrite Glen in Hj. rewrite Ee. destruct (Nat.eqb_spec j n); [eauto|]. apply (gi_some g Hg). fold n. lia.
      * intros h Hh. rewrite Glen. unfold g' at 2. cbn [g_hash]. rewrite nth_upd by (rewrite (gi_hlen g Hg); apply hash_lt).
        destruct (Nat.eqb_spec h (key_hash K)) as [->|Hne].
        -- right. split; [lia|]. split; [exists e0; split; [rewrite Ee, Nat.eqb_refl; reflexivity|reflexivity]|]. intros j e Hj. lia.
        -- destruct (gi_top g Hg h Hh) as [(E0 & H)|(H1 & (e & He & Hhe) & H)].
           ++ left. split; auto. intros j e Hj He. rewrite Ee in He. destruct (Nat.eqb_spec j n); [inversion He; subst; cbn [ae_key e0]; auto|]. eapply H; [|eauto]. fold n. lia.
           ++ right. fold n in H1, H. split; [lia|]. split; [exists e; auto|]. intros j e' Hj He'. rewrite Ee in He'. destruct (Nat.eqb_spec j n); [inversion He'; subst; cbn [ae_key e0]; auto|]. eapply H; [|eauto]. lia.
      * intros j e He. rewrite Ee in He. destruct (Nat.eqb_spec j n) as [->|Hne].
        -- inversion He; subst. cbn [ae_key ae_next e0]. apply Hcur; [lia|]. apply (gi_top g Hg). apply hash_lt.
        -- apply Hcur; [apply ent_lt in He; fold n in He; lia|]. apply (gi_next g Hg). exact He.
      * intros j k e f He Hf Hkk. rewrite Ee in He, Hf. destruct (Nat.eqb_spec j n) as [->|Hj], (Nat.eqb_spec k n) as [->|Hk'].
        -- reflexivity.
        -- exfalso. inversion He; subst. cbn [ae_key e0] in Hkk. apply (Hc k f); auto. apply ent_lt in Hf. exact Hf.
        -- exfalso. inversion Hf; subst. cbn [ae_key e0] in Hkk. apply (Hc j e); auto. apply ent_lt in He. exact He.
        -- eapply (gi_uniq g Hg); eauto.
    + intro K'. rewrite Hk. split.
      * intros [(j & e & He & HeK)| ->]; [exists j, e; split; auto|]. exists n, e0. split; [rewrite Ee, Nat.eqb_refl; reflexivity|reflexivity].
      * intros (j & e & He & HeK). rewrite Ee in He. destruct (Nat.eqb_spec j n); [inversion He; subst; right; reflexivity|left; eauto].
    + intros j e He. rewrite Ee in He. destruct (Nat.eqb_spec j n); [inversion He; subst; cbn [ae_ker e0]; apply map_length|eauto].
    + intros j e jj k He Hkk. rewrite Ee in He. destruct (Nat.eqb_spec j n); [|eauto]. inversion He; subst. cbn [ae_ker ae_key e0] in *.
      rewrite nth_error_map in Hkk. destruct (nth_error cs jj) as [c|] eqn:Ecs; cbn in Hkk; [|discriminate]. inversion Hkk; subst. symmetry. apply Hd; auto.
      intro HP. apply Hk in HP. destruct HP as (j' & e' & He' & HK'). apply (Hc j' e'); auto. apply ent_lt in He'. exact He'.
    + intros K' Hn'. apply Hd. tauto.
Qed.
Definition vupd (V : kval) (K : list entry) (j : nat) (f : kst -> kst) : kval := fun K' j' => if keqb K K' && (j' =? j) then f (V K' j') else V K' j'.
Lemma upd_kernel_ok g P V i e j f : R g P V -> ent g i = Some e -> j < length cs ->
  R (upd_kernel g i j f) P (vupd V (ae_key e) j f) /\ grows g (upd_kernel g i j f) /\ g_tot (upd_kernel g i j f) = g_tot g.
Proof.
  intros HR He Hj. pose proof HR as [Hg Hk Hl Hv Hd]. unfold upd_kernel. rewrite He.
  destruct (nth_error (ae_ker e) j) as [k|] eqn:Ej; [|apply nth_error_None in Ej; rewrite (Hl _ _ He) in Ej; lia].
  set (e1 := mkae (ae_key e) (upd_nth (ae_ker e) j (f k)) (ae_next e)).
  set (g1 := mkagg (upd_nth (g_ents g) i (Some e1)) (g_hash g) (g_tot g)).
  assert (Hi : i < length (g_ents g)) by (eapply ent_lt; eauto).
  assert (Ee : forall x, ent g1 x = if x =? i then Some e1 else ent g x).
  { intro x. unfold ent, g1. cbn [g_ents]. destruct (Nat.eqb_spec x i) as [->|Hn]; [rewrite upd_nth_same by auto; reflexivity|rewrite upd_nth_other by auto; reflexivity]. }
  assert (Eb : forall x y, ent g1 x = Some y -> exists z, ent g x = Some z /\ ae_key z = ae_key y /\ ae_next z = ae_next y).
  { intros x y Hx. rewrite Ee in Hx. destruct (Nat.eqb_spec x i) as [->|Hn]; [inversion Hx; subst; exists e; auto|exists y; auto]. }
  assert (Ef : forall x z, ent g x = Some z -> exists y, ent g1 x = Some y /\ ae_key y = ae_key z).
  { intros x z Hx. rewrite Ee. destruct (Nat.eqb_spec x i) as [->|Hn]; [rewrite He in Hx; inversion Hx; subst; exists e1; auto|exists z; auto]. }
  assert (Hcur : forall h c b, cur g h c b -> cur g1 h c b).
  { intros h c b [(-> & H)|(H1 & (z & Hz & Hh) & H)].
    - left. split; auto. intros x y Hx Hy. destruct (Eb x y Hy) as (z & Hz & Kz & _). rewrite <- Kz. eauto.
    - right. split; auto. split; [destruct (Ef _ _ Hz) as (y & Hy & Ky); exists y; split; auto; rewrite Ky; auto|]. intros x y Hx Hy. destruct (Eb x y Hy) as (z' & Hz' & Kz & _). rewrite <- Kz. eauto. }
  assert (Hlen : length (g_ents g1) = length (g_ents g)) by (unfold g1; cbn [g_ents]; apply upd_nth_length).
  split; [|split; [|reflexivity]].
  2: { intros x z Hx. destruct (Ef x z Hx) as (y & Hy & Ky). eauto. }
  constructor.
  - constructor.
    + apply (gi_hlen g Hg).
    + unfold g1. cbn [g_ents]. rewrite upd_nth_other; [apply (gi_zero g Hg)|]. intros ->. unfold ent in He. rewrite (gi_zero g Hg) in He. discriminate.
    + intros x Hx. rewrite Hlen in Hx. destruct (gi_some g Hg x Hx) as (z & Hz). destruct (Ef _ _ Hz) as (y & Hy & _). eauto.
    + intros h Hh. rewrite Hlen. apply Hcur. apply (gi_top g Hg h Hh).
    + intros x y Hy. destruct (Eb x y Hy) as (z & Hz & Kz & Nz). rewrite <- Kz, <- Nz. apply Hcur. apply (gi_next g Hg x z Hz).
    + intros x x' y y' Hy Hy' HK. destruct (Eb x y Hy) as (z & Hz & Kz & _). destruct (Eb x' y' Hy') as (z' & Hz' & Kz' & _). eapply (gi_uniq g Hg); eauto. congruence.
  - intro K. rewrite Hk. split; intros (x & y & Hy & Ky).
    + destruct (Ef _ _ Hy) as (y1 & Hy1 & Ky1). exists x, y1. split; auto. congruence.
    + destruct (Eb _ _ Hy) as (z & Hz & Kz & _). exists x, z. split; auto. congruence.
  - intros x y Hy. rewrite Ee in Hy. destruct (Nat.eqb_spec x i); [inversion Hy; subst; cbn [ae_ker e1]; rewrite upd_nth_length|]; eauto.
  - intros x y jj kk Hy Hkk. unfold vupd. destruct (Nat.eq_dec x i) as [->|Hn].
    + rewrite Ee, Nat.eqb_refl in Hy. inversion Hy; subst. cbn [ae_key ae_ker e1] in *. rewrite keqb_refl. cbn [andb]. destruct (Nat.eqb_spec jj j) as [->|Hjj].
      * rewrite upd_nth_same in Hkk by (rewrite (Hl _ _ He); auto). inversion Hkk. f_equal. eapply Hv; eauto.
      * rewrite upd_nth_other in Hkk by auto. eapply Hv; eauto.
    + destruct (keqb (ae_key e) (ae_key y)) eqn:Ek; cbn [andb].
      * exfalso. apply keqb_eq in Ek. rewrite Ee in Hy. destruct (Nat.eqb_spec x i); [contradiction|]. apply Hn. eapply (gi_uniq g Hg); eauto.
      * rewrite Ee in Hy. destruct (Nat.eqb_spec x i); [contradiction|]. eapply Hv; eauto.
  - intros K HnP jj c Hc. unfold vupd. destruct (keqb (ae_key e) K) eqn:Ek; cbn [andb]; [|eauto]. apply keqb_eq in Ek. exfalso. apply HnP. apply Hk. eauto.
Qed.
(* R only depends on the extension of P and V *)
Lemma R_ext g P Q V W : R g P V -> (forall K, P K <-> Q K) -> (forall K j, V K j = W K j) -> R g Q W.
Proof.
  intros [Hg Hk Hl Hv Hd] HP HV. constructor; auto.
  - intro K. rewrite <- HP. apply Hk.
  - intros i e j k He Hkk. rewrite <- HV. eauto.
  - intros K Hn j c Hc. rewrite <- HV. apply Hd; auto. intro H. apply Hn. apply HP. exact H.
Qed.

(* n-fold application for the occurrences of K in anc *)
Definition pfold (f : kst -> kst) (anc : list (list entry)) (K : list entry) (k : kst) : kst := fold_left (fun k _ => f k) (filter (fun a => keqb a K) anc) k.
Lemma parents_ok anc : forall g P V j c ms, R g P V -> j < length cs ->
  R (parents cs g anc j c ms) (fun K => P K \/ In K anc) (fun K j' => if j' =? j then pfold (kupd c false ms) anc K (V K j') else V K j') /\ grows g (parents cs g anc j c ms) /\ g_tot (parents cs g anc j c ms) = g_tot g.
Proof.
  induction anc as [|a r IH]; intros g P V j c ms HR Hj; cbn [parents].
  - split; [|split; [apply grows_refl|reflexivity]]. eapply R_ext; [exact HR|cbn; tauto|]. intros K j'. destruct (j' =? j); reflexivity.
  - destruct (get_entry cs g a) as [i g1] eqn:E. destruct (get_entry_ok g P V a i g1 HR E) as (R1 & (e & He & HeK) & G1 & T1).
    destruct (upd_kernel_ok g1 _ _ i e j (kupd c false ms) R1 He Hj) as (R2 & G2 & T2).
    destruct (IH _ _ _ j c ms R2 Hj) as (R3 & G3 & T3). split; [|split; [eapply grows_trans; [exact G1|eapply grows_trans; eauto]|congruence]].
    eapply R_ext; [exact R3| |].
    + intro K. cbn [In]. split; [intros [[H|H]|H]; auto|intros [H|[H|H]]; auto].
    + intros K j'. rewrite HeK. unfold vupd, pfold. cbn [filter]. destruct (Nat.eqb_spec j' j) as [->|Hn]; destruct (keqb a K) eqn:Ek; cbn [andb fold_left]; auto; rewrite ?Nat.eqb_refl; reflexivity.
Qed.
(* contributions of one step to kernel j of key K *)
Definition contrib1 (key : list entry) (anc : list (list entry)) (c : kcfg) (ms : list (nat * value)) (K : list entry) : list (bool * list (nat * value)) :=
  (if keqb key K then [(true, ms)] else []) ++ (if is_incl c && matched ms then map (fun _ => (false, ms)) (filter (fun a => keqb a K) anc) else []).
Definition apply_contribs (c : kcfg) (l : list (bool * list (nat * value))) (k : kst) : kst := fold_left (fun k x => kupd c (fst x) (snd x) k) l k.
Lemma apply_parents c ms anc K k : apply_contribs c (map (fun _ => (false, ms)) (filter (fun a => keqb a K) anc)) k = pfold (kupd c false ms) anc K k.
Proof. unfold apply_contribs, pfold. revert k. induction (filter _ anc) as [|a r IH]; intro k; cbn [map fold_left fst snd]; auto. Qed.
Lemma upd_tot_R g P V j f : R g P V -> R (upd_tot g j f) P V.
Proof.
  intros [Hg Hk Hl Hv Hd]. unfold upd_tot. destruct (nth_error (g_tot g) j); [|constructor; auto].
  constructor; auto. destruct Hg as [A B C D E F]. constructor; auto.
Qed.
Lemma upd_tot_grows g j f : grows g (upd_tot g j f).
Proof. unfold upd_tot. destruct (nth_error (g_tot g) j); [|apply grows_refl]. intros i e He. exists e. split; auto. Qed.
Definition anc_touched (l : list (kcfg * list (nat * value))) : bool := existsb (fun x => is_incl (fst x) && matched (snd x)) l.
Lemma kernels_ok anc key l : forall g P V idx e j, R g P V -> ent g idx = Some e -> ae_key e = key -> (j + length l <= length cs) -> 
  R (kernels cs g idx anc j l) (fun K => P K \/ (anc_touched l = true /\ In K anc))
    (fun K j' => if j' <? j then V K j' else match nth_error l (j' - j) with Some (c, ms) => apply_contribs c (contrib1 key anc c ms K) (V K j') | None => V K j' end).
Proof.
  induction l as [|[c ms] r IH]; intros g P V idx e j HR He HeK Hlen; cbn [kernels].
  - eapply R_ext; [exact HR| |]. + intro K. cbn. intuition discriminate. + intros K j'. destruct (j' <? j); auto. destruct (j' - j); reflexivity.
  - cbn [length] in Hlen. destruct (upd_kernel_ok g P V idx e j (kupd c true ms) HR He ltac:(lia)) as (R1 & G1 & T1).
    assert (R2 := upd_tot_R _ _ _ j (ktot c ms) R1). assert (G2 := upd_tot_grows (upd_kernel g idx j (kupd c true ms)) j (ktot c ms)).
    set (g2 := upd_tot (upd_kernel g idx j (kupd c true ms)) j (ktot c ms)) in *.
    destruct (G1 idx e He) as (e1 & He1 & K1). destruct (G2 idx e1 He1) as (e2 & He2 & K2).
    destruct (is_incl c && matched ms) eqn:Ei.
    + destruct (parents_ok anc g2 _ _ j c ms R2 ltac:(lia)) as (R3 & G3 & T3). destruct (G3 idx e2 He2) as (e3 & He3 & K3).
      assert (HX := IH _ _ _ idx e3 (S j) R3 He3 ltac:(congruence) ltac:(lia)).
      eapply R_ext; [exact HX| |].
      * intro K. cbn [anc_touched existsb fst snd]. rewrite Ei. cbn [orb]. fold (anc_touched r). destruct (anc_touched r); intuition discriminate.
      * intros K j'. unfold vupd. rewrite HeK. destruct (Nat.ltb_spec j' (S j)), (Nat.ltb_spec j' j); try lia.
        -- destruct (Nat.eqb_spec j' j); [lia|]. rewrite andb_false_r. reflexivity.
        -- assert (j' = j) by lia. subst j'. rewrite !Nat.eqb_refl, Nat.sub_diag. cbn [nth_error]. rewrite andb_true_r. unfold contrib1. rewrite Ei. unfold apply_contribs. rewrite fold_left_app. fold (apply_contribs c). 
           change (fold_left (fun k x => kupd c (fst x) (snd x) k) (map (fun _ : list entry => (false, ms)) (filter (fun a => keqb a K) anc))) with (apply_contribs c (map (fun _ : list entry => (false, ms)) (filter (fun a => keqb a K) anc))). rewrite apply_parents. destruct (keqb key K); reflexivity.
        -- destruct (Nat.eqb_spec j' j); [lia|]. replace (j' - j) with (S (j' - S j)) by lia. cbn [nth_error]. rewrite andb_false_r. reflexivity.
    + assert (HX := IH _ _ _ idx e2 (S j) R2 He2 ltac:(congruence) ltac:(lia)).
      eapply R_ext; [exact HX| |].
      * intro K. cbn [anc_touched existsb fst snd]. rewrite Ei. cbn [orb]. reflexivity.
      * intros K j'. unfold vupd. rewrite HeK. destruct (Nat.ltb_spec j' (S j)), (Nat.ltb_spec j' j); try lia.
        -- destruct (Nat.eqb_spec j' j); [lia|]. rewrite andb_false_r. reflexivity.
        -- assert (j' = j) by lia. subst j'. rewrite !Nat.eqb_refl, Nat.sub_diag. cbn [nth_error]. rewrite andb_true_r. unfold contrib1. rewrite Ei, app_nil_r. destruct (keqb key K); reflexivity.
        -- destruct (Nat.eqb_spec j' j); [lia|]. replace (j' - j) with (S (j' - S j)) by lia. cbn [nth_error]. rewrite andb_false_r. reflexivity.
Qed.
(* all contributions of a sequence of steps *)
Definition step_ms (s : step) (j : nat) : option (kcfg * list (nat * value)) := nth_error (combine cs (s_in s)) j.
Definition contribs (ss : list step) (j : nat) (K : list entry) : list (bool * list (nat * value)) :=
  flat_map (fun s => match step_ms s j with Some (c, ms) => contrib1 (s_key s) (s_anc s) c ms K | None => [] end) ss.
Definition touched (ss : list step) (K : list entry) : Prop :=
  exists s, In s ss /\ (K = s_key s \/ (anc_touched (combine cs (s_in s)) = true /\ In K (s_anc s))).
Definition kval_of (ss : list step) : kval := fun K j => match nth_error cs j with Some c => apply_contribs c (contribs ss j K) (k_init c) | None => mkk 0 VInv VInv end.
Lemma run_steps_ok ss : Forall (fun s => length (s_in s) = length cs) ss -> R (fold_left (run_step cs) ss (agg_init cs)) (touched ss) (kval_of ss).
Proof.
  induction ss as [|s ss IH] using rev_ind; intro F.
  - cbn [fold_left]. eapply R_ext; [apply R_init with (V := kval_of [])| |reflexivity].
    + intros K j c Hc. unfold kval_of. rewrite Hc. reflexivity.
    + intro K. split; [tauto|]. intros (s & [] & _).
  - apply Forall_app in F as (F1 & F2). apply Forall_cons_iff in F2 as (Hs & _). specialize (IH F1).
    rewrite fold_left_app. cbn [fold_left]. set (g := fold_left (run_step cs) ss (agg_init cs)) in *. unfold run_step.
    destruct (get_entry cs g (s_key s)) as [idx g1] eqn:E. destruct (get_entry_ok _ _ _ _ _ _ IH E) as (R1 & (e & He & HeK) & G1 & T1).
    assert (HX := kernels_ok (s_anc s) (s_key s) (combine cs (s_in s)) g1 _ _ idx e 0 R1 He HeK ltac:(rewrite combine_length; lia)).
    eapply R_ext; [exact HX| |].
    + intro K. unfold touched. split.
      * intros [[(s0 & Hi & H)|H]|H].
        -- exists s0. split; [apply in_app_iff; auto|auto].
        -- exists s. split; [apply in_app_iff; cbn; auto|auto].
        -- exists s. split; [apply in_app_iff; cbn; auto|auto].
      * intros (s0 & Hi & H). apply in_app_iff in Hi as [Hi|[<-|[]]]; [left; left; eauto|]. destruct H as [H|H]; auto.
    + intros K j. cbn beta. change (j <? 0) with false. cbn match. rewrite Nat.sub_0_r. unfold kval_of, contribs. rewrite flat_map_app. cbn [flat_map]. rewrite app_nil_r.
      unfold step_ms. destruct (nth_error (combine cs (s_in s)) j) as [[c ms]|] eqn:Ej.
      * assert (Hc : nth_error cs j = Some c).
        { clear - Ej. revert Ej. generalize (s_in s). revert j. induction cs as [|c0 r IH]; intros [|j] [|x l]; cbn; try discriminate; intro H; [inversion H; auto|eauto]. }
        rewrite Hc. unfold apply_contribs. rewrite fold_left_app. reflexivity.
      * rewrite app_nil_r. reflexivity.
Qed.
End Engine.
