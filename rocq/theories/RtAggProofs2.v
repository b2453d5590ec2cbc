(* Keys, buckets and groups of a history *)
From Verif Require Import Base VariantModel ArithModel RtAggModel RtAggSpec RtAggProofs.
Open Scope nat_scope.

Lemma bytes_eqb_iff a : forall b, bytes_eqb a b = true <-> a = b.
Proof.
  induction a as [|x a IH]; intros [|y b]; cbn; try (split; [discriminate|congruence]); [tauto|].
  rewrite andb_true_iff, N.eqb_eq, IH. split; [intros (-> & ->); auto|intro H; inversion H; auto].
Qed.
(* the content a variant is compared by *)
Definition content (m : memory) (v : cvar) : N * bytes :=
  let t := extract_type (ts v) in
  if (N.eqb t T_USR || N.eqb t T_STRING)%bool then (0%N, read_mem m (word v) (N.to_nat (extract_size (ts v)))) else (word v, []).
Lemma var_eq_content m a b : var_eq m a b = true <-> ts a = ts b /\ content m a = content m b.
Proof.
  unfold var_eq, value_eq, content. rewrite andb_true_iff, N.eqb_eq. split; intros (E & H); split; auto; rewrite <- E in *.
  - destruct (_ || _)%bool.
    + destruct (N.eqb_spec (word a) (word b)) as [->|]; auto. apply bytes_eqb_iff in H. rewrite H. auto.
    + apply N.eqb_eq in H. rewrite H. auto.
  - destruct (_ || _)%bool.
    + destruct (N.eqb (word a) (word b)); auto. apply bytes_eqb_iff. congruence.
    + apply N.eqb_eq. congruence.
Qed.
Lemma var_eq_to_uint m a b : var_eq m a b = true -> to_uint a = to_uint b.
Proof.
  intro H. apply var_eq_content in H as (E & H). unfold content in H. rewrite <- E in H. unfold to_uint, vtype. rewrite <- E.
  destruct (N.eqb_spec (extract_type (ts a)) T_USR) as [Eu|Eu]; [rewrite Eu; reflexivity|].
  destruct (N.eqb_spec (extract_type (ts a)) T_STRING) as [Es|Es]; [rewrite Es; reflexivity|].
  cbn [orb] in H. assert (Ew : word a = word b) by congruence. unfold v_bool, v_type. rewrite Ew. reflexivity.
Qed.
Lemma rent_eqb_refl m a : rent_eqb m a a = true.
Proof. destruct a; cbn; rewrite N.eqb_refl; cbn; auto. apply var_eq_content. auto. Qed.
Lemma rent_eqb_sym m a b : rent_eqb m a b = true -> rent_eqb m b a = true.
Proof.
  destruct a, b; cbn; try discriminate; auto; rewrite ?andb_true_iff, ?N.eqb_eq; auto.
  intros (-> & H). split; auto. apply var_eq_content in H as (A & B). apply var_eq_content. auto.
Qed.
Lemma rent_eqb_trans m a b c : rent_eqb m a b = true -> rent_eqb m b c = true -> rent_eqb m a c = true.
Proof.
  destruct a, b, c; cbn; try discriminate; rewrite ?andb_true_iff, ?N.eqb_eq; try congruence.
  intros (-> & H) (-> & H'). split; auto. apply var_eq_content in H as (A & B). apply var_eq_content in H' as (A' & B'). apply var_eq_content. split; congruence.
Qed.
Lemma key_eqb_refl m a : key_eqb m a a = true.
Proof. induction a; cbn; auto. rewrite rent_eqb_refl. auto. Qed.
Lemma key_eqb_sym m a : forall b, key_eqb m a b = true -> key_eqb m b a = true.
Proof. induction a as [|x a IH]; intros [|y b]; cbn; auto. rewrite !andb_true_iff. intros (A & B). split; auto. apply rent_eqb_sym; auto. Qed.
Lemma key_eqb_trans m a : forall b c, key_eqb m a b = true -> key_eqb m b c = true -> key_eqb m a c = true.
Proof.
  induction a as [|x a IH]; intros [|y b] [|z c]; cbn; auto; try discriminate. rewrite !andb_true_iff. intros (A & B) (A' & B'). split; [eapply rent_eqb_trans; eauto|eauto].
Qed.

Lemma find_filter {A} (f : A -> bool) l : find f l = match filter f l with [] => None | x :: _ => Some x end.
Proof. induction l as [|x l IH]; cbn; auto. destruct (f x); auto. Qed.
Lemma first_imm_get rec a : first_imm rec a = match get_imm rec a with Some e => [e] | None => [] end.
Proof. unfold first_imm, get_imm. rewrite find_filter. destruct (filter _ rec); auto. Qed.
Lemma imm_keys_full rec keys : imm_keys keys rec = flat_map (first_imm rec) keys.
Proof. unfold imm_keys. apply flat_map_ext. intro a. rewrite first_imm_get. auto. Qed.
Definition key16 (s : snap) : list rent := firstn MAXKEY (full_key s).
Definition shash (s : snap) : N := match make_key (s_info s) (s_rec s) with Some (_, h) => h | None => 0%N end.
Definition bucket (s : snap) : nat := N.to_nat (N.modulo (shash s) (N.of_nat NBUCKETS)).
Lemma bucket_lt s : bucket s < NBUCKETS.
Proof. unfold bucket. replace NBUCKETS with (N.to_nat 8192) by (vm_compute; reflexivity). rewrite N2Nat.id. assert (H := N.mod_lt (shash s) 8192 ltac:(discriminate)). lia. Qed.
Lemma key_fold l : forall k h k' h', fold_left key_step l (Some (k, h)) = Some (k', h') -> length k <= MAXKEY -> k' = firstn MAXKEY (k ++ l).
Proof.
  induction l as [|e l IH]; intros k h k' h'; cbn [fold_left].
  - intros H L. inversion H; subst. rewrite app_nil_r. rewrite firstn_all2; auto.
  - intros H L. assert (Hk : key_step (Some (k, h)) e = None \/ exists h1, key_step (Some (k, h)) e = Some (kappend k e, h1)).
    { cbn [key_step]. destruct e; [right; eauto|]. destruct (conv_val _); [right; eauto|left; auto]. }
    destruct Hk as [Hk|(h1 & Hk)]; rewrite Hk in H.
    + exfalso. clear -H. induction l; cbn in H; [discriminate|auto].
    + apply IH in H; unfold kappend in *; destruct (Nat.ltb_spec (length k) MAXKEY) as [L1|L1].
      * rewrite <- app_assoc in H. exact H.
      * rewrite H. rewrite !firstn_app. replace (MAXKEY - length k) with 0 by lia. reflexivity.
      * rewrite app_length. cbn. lia.
      * auto.
Qed.
Lemma make_key_ok s k h : make_key (s_info s) (s_rec s) = Some (k, h) -> k = key16 s /\ h = shash s.
Proof.
  intro H. split; [|unfold shash; rewrite H; auto]. unfold make_key in H. apply key_fold in H; [|cbn; lia]. cbn [app] in H. rewrite imm_keys_full in H. exact H.
Qed.
Lemma key_fold_eq m : forall a b, key_eqb m a b = true -> forall k1 k2 h,
  option_map snd (fold_left key_step a (Some (k1, h))) = option_map snd (fold_left key_step b (Some (k2, h))).
Proof.
  induction a as [|x a IH]; intros [|y b]; cbn [key_eqb fold_left]; try discriminate; auto.
  rewrite andb_true_iff. intros (E & H) k1 k2 h. destruct x as [i|u v], y as [j|u' v']; cbn in E; try discriminate.
  - apply N.eqb_eq in E. subst j. cbn [key_step]. apply IH. auto.
  - apply andb_true_iff in E as (E1 & E2). apply N.eqb_eq in E1. subst u'. cbn [key_step]. rewrite (var_eq_to_uint m v v' E2).
    destruct (conv_val (to_uint v')); [apply IH; auto|]. assert (Hn : forall l, fold_left key_step l None = None) by (induction l; cbn; auto). rewrite !Hn. reflexivity.
Qed.
Lemma same_bucket m s t : same_key m s t = true -> shash s = shash t.
Proof.
  unfold same_key. intro H. assert (E := key_fold_eq m _ _ H [] [] 0%N). unfold shash, make_key. rewrite !imm_keys_full. fold (full_key s) in *. fold (full_key t) in *.
  destruct (fold_left key_step (full_key s) (Some ([], 0%N))) as [[k1 h1]|], (fold_left key_step (full_key t) (Some ([], 0%N))) as [[k2 h2]|]; cbn in E; congruence.
Qed.

(* the equivalence that the table groups by *)
Definition cls (m : memory) (s t : snap) : bool := key_eqb m (key16 s) (key16 t) && (bucket s =? bucket t).
Lemma cls_refl m s : cls m s s = true.
Proof. unfold cls. rewrite key_eqb_refl, Nat.eqb_refl. auto. Qed.
Lemma cls_sym m s t : cls m s t = true -> cls m t s = true.
Proof. unfold cls. rewrite !andb_true_iff, !Nat.eqb_eq. intros (A & B). split; auto. apply key_eqb_sym; auto. Qed.
Lemma cls_trans m s t u : cls m s t = true -> cls m t u = true -> cls m s u = true.
Proof. unfold cls. rewrite !andb_true_iff, !Nat.eqb_eq. intros (A & B) (A' & B'). split; [eapply key_eqb_trans; eauto|congruence]. Qed.
Lemma cls_same m s t : length (full_key s) <= MAXKEY -> length (full_key t) <= MAXKEY -> cls m s t = same_key m s t.
Proof.
  intros Hs Ht. unfold cls, same_key, key16. rewrite !firstn_all2 by auto. destruct (key_eqb m (full_key s) (full_key t)) eqn:E; cbn; auto.
  unfold bucket. rewrite (same_bucket m s t E). apply Nat.eqb_refl.
Qed.

(* ---- firsts ---- *)
Section Firsts.
Variable same : snap -> snap -> bool.
Hypothesis Hrefl : forall s, same s s = true.
Hypothesis Hsym : forall s t, same s t = true -> same t s = true.
Hypothesis Htrans : forall s t u, same s t = true -> same t u = true -> same s u = true.
Lemma firsts_aux_snoc h : forall seen s, firsts_aux same seen (h ++ [s]) =
  firsts_aux same seen h ++ (if existsb (same s) (seen ++ firsts_aux same seen h) then [] else [s]).
Proof.
  induction h as [|x h IH]; intros seen s; cbn [app firsts_aux].
  - rewrite app_nil_r. destruct (existsb (same s) seen); auto.
  - destruct (existsb (same x) seen) eqn:E; [apply IH|]. cbn [app]. rewrite IH, <- app_assoc. reflexivity.
Qed.
Lemma firsts_snoc h s : firsts same (h ++ [s]) = firsts same h ++ (if existsb (same s) (firsts same h) then [] else [s]).
Proof. unfold firsts. rewrite firsts_aux_snoc. reflexivity. Qed.
Lemma firsts_in h s : In s (firsts same h) -> In s h.
Proof.
  revert s. induction h as [|x h IH] using rev_ind; intros s; [auto|]. rewrite firsts_snoc, !in_app_iff. intros [H|H]; auto.
  destruct (existsb _ _); [destruct H|auto].
Qed.
Lemma firsts_cover h s : In s h -> exists f, In f (firsts same h) /\ same s f = true.
Proof.
  revert s. induction h as [|x h IH] using rev_ind; intros s; [intros []|]. rewrite in_app_iff, firsts_snoc. intros [H|[<-|[]]].
  - destruct (IH s H) as (f & A & B). exists f. rewrite in_app_iff. auto.
  - destruct (existsb (same x) (firsts same h)) eqn:E.
    + apply existsb_exists in E as (f & A & B). exists f. rewrite in_app_iff. auto.
    + exists x. rewrite in_app_iff. split; [right; left; auto|auto].
Qed.
Lemma firsts_distinct h i j f g : nth_error (firsts same h) i = Some f -> nth_error (firsts same h) j = Some g -> same f g = true -> i = j.
Proof.
  revert i j f g. induction h as [|x h IH] using rev_ind; intros i j f g; [destruct i; discriminate|]. rewrite firsts_snoc.
  destruct (existsb (same x) (firsts same h)) eqn:E; [rewrite app_nil_r; apply IH|].
  assert (Hx : forall y, In y (firsts same h) -> same x y = false).
  { intros y Hy. destruct (same x y) eqn:Ey; auto. assert (existsb (same x) (firsts same h) = true) by (apply existsb_exists; eauto). congruence. }
  intros Hi Hj Hs. set (l := firsts same h) in *.
  assert (Hc : forall k y, nth_error (l ++ [x]) k = Some y -> (k < length l /\ nth_error l k = Some y) \/ (k = length l /\ y = x)).
  { intros k y Hk. destruct (Nat.lt_ge_cases k (length l)) as [L|L]; [rewrite nth_error_app1 in Hk by auto; auto|]. rewrite nth_error_app2 in Hk by auto.
    destruct (k - length l) as [|q] eqn:Eq; cbn in Hk; [|destruct q; discriminate]. inversion Hk. right. split; [lia|auto]. }
  destruct (Hc i f Hi) as [(Li & Hi')|(-> & ->)], (Hc j g Hj) as [(Lj & Hj')|(-> & ->)]; auto.
  - eapply IH; eauto.
  - apply nth_error_In in Hi'. apply Hsym in Hs. rewrite Hx in Hs by auto. discriminate.
  - apply nth_error_In in Hj'. rewrite Hx in Hs by auto. discriminate.
Qed.
Lemma firsts_new h s : existsb (same s) (firsts same h) = false -> filter (same s) h = [].
Proof.
  intro H. assert (Hn : forall t, In t h -> same s t = false).
  { intros t Ht. destruct (same s t) eqn:E; auto. destruct (firsts_cover h t Ht) as (f & A & B). assert (existsb (same s) (firsts same h) = true) by (apply existsb_exists; eauto). congruence. }
  clear H. induction h as [|x h IH]; cbn; auto. rewrite Hn by (left; auto). apply IH. intros t Ht. apply Hn. right; auto.
Qed.
End Firsts.
