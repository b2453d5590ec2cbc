(* Kernel results in terms of the records of a group; sums over groups *)
From Verif Require Import Base VariantModel VariantSpec NamesModel NamesProps TextModel TreeModel TreeProofs CaliFileModel CaliFileProofs2 CaliFileProofs3 CaliFileProofs4 FloatModel ArithSpec ArithProofs AggModel AggSpec AggSpec2 AggProofs AggProofs2 AggProofs3 AggProofs4 AggProofs5 AggProofs6.
From Coq Require Import Permutation Sorted.
Open Scope N_scope.

Lemma collect_members d q c K recs l : is_incl c = false -> collect d q c K recs l -> exists rs, members d q K recs rs /\ l = map (fun r => (true, smatch c d r)) rs.
Proof.
  intros Hi H. unfold members. induction H as [|r rs l HK H (m & M & E)|r rs l K' HK He Hc Hm H _|r rs l K' HK Hne Hn H (m & M & E)].
  - exists []. split; constructor.
  - exists (r :: m). split; [constructor; auto|cbn; congruence].
  - congruence.
  - exists m. split; auto. apply keep_no; auto. intro HK2. apply Hne. eapply group_key_fun; eauto.
Qed.
Definition pv_eq_dec (x y : N * value) : {x = y} + {x <> y}.
Proof. decide equality; [apply value_eq_dec|apply N.eq_dec]. Defined.
Lemma collect_below d q c K recs l : collect d q c K recs l -> exists rs, below (is_incl c) d q K recs rs /\ flat_map snd l = flat_map (smatch c d) rs.
Proof.
  destruct (is_incl c) eqn:Hi; intro H; cbn [below].
  - unfold covered. induction H as [|r rs l HK H (m & M & E)|r rs l K' HK He Hc Hm H (m & M & E)|r rs l K' HK Hne Hn H (m & M & E)].
    + exists []. split; constructor.
    + exists (r :: m). split; [constructor; eauto|cbn; congruence].
    + exists (r :: m). split; [constructor; eauto|cbn; congruence].
    + destruct (smatch c d r) as [|p ms] eqn:Em.
      * (* nothing to add; whether or not it is covered *)
        assert (D : encloses K K' \/ ~ encloses K K').
        { destruct (list_eq_dec pv_eq_dec (gk_imm K) (gk_imm K')) as [E1|E1]; [|right; intros (X & _); contradiction].
          destruct (list_eq_dec pv_eq_dec (gk_np K) (gk_np K')) as [E2|E2]; [|right; intros (_ & X & _); contradiction].
          destruct (list_eq_dec pv_eq_dec (gk_path K) []) as [E3|E3]; [right; intros (_ & _ & X & _); contradiction|].
          destruct (list_eq_dec pv_eq_dec (firstn (length (gk_path K)) (gk_path K')) (gk_path K)) as [E4|E4].
          - destruct (skipn (length (gk_path K)) (gk_path K')) as [|x s] eqn:E5.
            + right. intros (_ & _ & _ & y & s & E6). rewrite E6, skipn_app, skipn_all, Nat.sub_diag in E5. discriminate.
            + left. repeat split; auto. exists x, s. rewrite <- (firstn_skipn (length (gk_path K)) (gk_path K')), E4, E5. reflexivity.
          - right. intros (_ & _ & _ & y & s & E6). apply E4. rewrite E6, firstn_app, Nat.sub_diag, firstn_all, firstn_O, app_nil_r. reflexivity. }
        destruct D as [D|D].
        -- exists (r :: m). split; [constructor; eauto|]. cbn. rewrite Em. exact E.
        -- exists m. split; auto. apply keep_no; auto. intros (K2 & HK2 & HD). assert (K2 = K') by (eapply group_key_fun; eauto). subst K2. destruct HD; auto.
      * exists m. split; auto. apply keep_no; auto. intros (K2 & HK2 & HD). assert (K2 = K') by (eapply group_key_fun; eauto). subst K2. destruct HD as [HD|HD]; auto. apply Hn. split; auto. split; auto. discriminate.
  - destruct (collect_members d q c K recs l Hi H) as (rs & M & ->). exists rs. split; auto. clear. induction rs; cbn; congruence.
Qed.
(* ---------- what a kernel matches ---------- *)
Lemma role_named d ids names a : (forall x, (exists r, In (x, r) ids) <-> is_named d names x = true) -> role_of ids a <> None <-> is_named d names a = true.
Proof.
  intro H. rewrite <- H. split.
  - induction ids as [|(k, r) ids IH]; cbn; [congruence|]. intro E. clear H. destruct (N.eqb_spec k a) as [->|]; [exists r; left; auto|].
    assert (exists r, In (a, r) ids) as (r' & Hr). { clear - E. induction ids as [|(k', r0) ids IH]; cbn in *; [congruence|]. destruct (N.eqb_spec k' a) as [->|]; [exists r0; left; auto|]. destruct (IH E) as (r' & Hr). exists r'. right. auto. } exists r'. right. auto.
  - intros (r & Hr). clear H. induction ids as [|(k, r0) ids IH]; cbn; [destruct Hr|]. destruct (N.eqb_spec k a); [discriminate|]. destruct Hr as [E|Hr]; [injection E as -> ->; contradiction|auto].
Qed.
Lemma ids_named d x t ks a : get_attr d x = Some t -> (exists r, In (a, r) ((t, 0%nat) :: flat_map (kid d) ks)) <-> is_named d (x :: map ka_name ks) a = true.
Proof.
  intro E. unfold is_named. cbn [existsb]. rewrite E, orb_true_iff, N.eqb_eq, existsb_exists. split.
  - intros (r & [H|H]); [injection H as -> _; auto|]. right. apply in_flat_map in H as (k & Hk & H). unfold kid in H. destruct (get_attr d (ka_name k)) as [b|] eqn:Eb; [|destruct H]. destruct H as [H|[]]. injection H as -> _. exists (ka_name k). split; [apply in_map; auto|]. rewrite Eb. apply N.eqb_refl.
  - intros [->|(s & Hs & H)]; [exists 0%nat; left; auto|]. apply in_map_iff in Hs as (k & <- & Hk). destruct (get_attr d (ka_name k)) as [b|] eqn:Eb; [|discriminate]. apply N.eqb_eq in H. subst b. exists (ka_role k). right. apply in_flat_map. exists k. split; auto. unfold kid. rewrite Eb. left. auto.
Qed.
Lemma named_attr8 d names a : names_ok d -> is_named d names a = true -> exists n, dnode d a = Some n /\ n_attr n = 8.
Proof. intros Hn H. unfold is_named in H. apply existsb_exists in H as (s & _ & H). destruct (get_attr d s) as [b|] eqn:E; [|discriminate]. apply N.eqb_eq in H. subst b. destruct (nm_some d Hn s a E) as (n & H1 & H2 & _). eauto. Qed.
Lemma ref_not_named d names i : wf d -> size_ok d -> entry_ok d (ERef i) -> is_named d names i = false.
Proof.
  intros (Hd & Hn) Hs (L & H8). destruct (is_named d names i) eqn:E; auto. exfalso. destruct (named_attr8 d names i Hn E) as (n & Hi & N8). destruct (npath_ex d i Hd Hs L) as (l & Hl). specialize (H8 l Hl).
  inversion Hl as [E0|j m l0 H1 H2 H3 E1 E2]; subst; [rewrite dnode_inv in Hi by auto; discriminate|]. rewrite H2 in Hi. injection Hi as ->. apply Forall_app in H8 as (_ & H8). apply Forall_cons_iff in H8 as (H8 & _). cbn in H8. congruence.
Qed.
Lemma match_vals c d ids names r : by_attribute c = false -> wf d -> size_ok d -> Forall (entry_ok d) r -> (forall x, (exists k, In (x, k) ids) <-> is_named d names x = true) ->
  map snd (match_rec c d ids r) = vals d names r.
Proof.
  intros Hb Hw Hs F H. unfold match_rec, vals, imms_of. induction F as [|e r He F IH]; [reflexivity|]. cbn [flat_map]. rewrite map_app, IH, flat_map_app. f_equal. unfold e_id. rewrite Hb. destruct e as [i|a v]; cbn [entry_node flat_map e_val app fst snd].
  - assert (X := ref_not_named d names i Hw Hs He). assert (Y := role_named d ids names i H). destruct (role_of ids i) eqn:E; [|reflexivity]. rewrite (proj1 Y) in X; discriminate.
  - assert (Y := role_named d ids names a H). rewrite app_nil_r. destruct (role_of ids a) eqn:E, (is_named d names a) eqn:E2; try reflexivity; exfalso; [assert (X : false = true) by (apply Y; discriminate); discriminate|].
    apply (proj2 Y); auto.
Qed.
Lemma match_avals c d ids names r : by_attribute c = true -> (forall x, (exists k, In (x, k) ids) <-> is_named d names x = true) ->
  map snd (match_rec c d ids r) = avals d names r.
Proof.
  intros Hb H. unfold match_rec, avals. induction r as [|e r IH]; [reflexivity|]. cbn [flat_map]. rewrite map_app, IH. f_equal. unfold e_id. rewrite Hb.
  assert (Y := role_named d ids names (e_attr d e) H). destruct (role_of ids (e_attr d e)) eqn:E, (is_named d names (e_attr d e)) eqn:E2; try reflexivity; exfalso; [assert (X : false = true) by (apply Y; discriminate); discriminate|]. apply (proj2 Y); auto.
Qed.
Lemma smatch_vals c x ks d r : kattrs c = [(x, ks)] -> no_target c = false -> by_attribute c = false -> wf d -> size_ok d -> Forall (entry_ok d) r -> get_attr d x <> None ->
  map snd (smatch c d r) = vals d (x :: map ka_name ks) r.
Proof.
  intros Ek Hn Hb Hw Hs F Hx. unfold smatch. rewrite Ek. cbn [smatch_l]. rewrite app_nil_r, map_map. unfold smatch1. cbn [fst snd]. rewrite Hn. destruct (get_attr d x) as [t|] eqn:E; [|congruence]. cbn [snd].
  rewrite <- (match_vals c d ((t, 0%nat) :: flat_map (kid d) ks) (x :: map ka_name ks) r Hb Hw Hs F (fun a => ids_named d x t ks a E)). apply map_ext. auto.
Qed.
Lemma kfinal_op c op l : k_init c = mkk 0 VInv VInv -> (forall own k p, kupd1 c own k p = mkk (k_n k) (op (k_a k) (snd p)) (k_b k)) -> (forall own ms k, kupd c own ms k = fold_left (kupd1 c own) ms k) ->
  kfinal c l = mkk 0 (fold1 op (map snd (flat_map snd l))) VInv.
Proof.
  intros Hi H1 H2. unfold kfinal, fold1. rewrite Hi. clear Hi. assert (G : forall l n a b, fold_left (fun k x => kupd c (fst x) (snd x) k) l (mkk n a b) = mkk n (fold_left op (map snd (flat_map snd l)) a) b).
  { clear l. induction l as [|(o, ms) l IH]; intros n a b; cbn [fold_left flat_map map fst snd]; auto. rewrite map_app, fold_left_app, H2.
    assert (M : forall ms n a b, fold_left (kupd1 c o) ms (mkk n a b) = mkk n (fold_left op (map snd ms) a) b). { clear - H1. induction ms as [|p ms IH]; intros n a b; cbn [fold_left map]; auto. rewrite H1. cbn [k_n k_a k_b]. apply IH. }
    rewrite M. apply IH. }
  apply G.
Qed.
(* ---------- integer folds ---------- *)
Lemma zsum_app a b : zsum (a ++ b) = (zsum a + zsum b)%Z.
Proof. unfold zsum. induction a; cbn [app fold_right]; lia. Qed.
Lemma swrap_eq z : (swrap z = z + 18446744073709551616 * - ((z + 9223372036854775808) / 18446744073709551616))%Z.
Proof. unfold swrap. assert (H := Z.div_mod (z + 9223372036854775808) 18446744073709551616 ltac:(lia)). lia. Qed.
Lemma swrap_mod a k : swrap (a + 18446744073709551616 * k)%Z = swrap a.
Proof. unfold swrap. replace (a + 18446744073709551616 * k + 9223372036854775808)%Z with (a + 9223372036854775808 + k * 18446744073709551616)%Z by lia. rewrite Z_mod_plus_full. reflexivity. Qed.
Lemma swrap_add_l a b : swrap (swrap a + b) = swrap (a + b).
Proof. rewrite (swrap_eq a). replace (a + 18446744073709551616 * - ((a + 9223372036854775808) / 18446744073709551616) + b)%Z with (a + b + 18446744073709551616 * - ((a + 9223372036854775808) / 18446744073709551616))%Z by lia. apply swrap_mod. Qed.
Lemma swrap_add_r a b : swrap (a + swrap b) = swrap (a + b).
Proof. rewrite Z.add_comm, swrap_add_l, Z.add_comm. reflexivity. Qed.
Lemma v_i64_int z : s64_ok z -> v_i64 (VInt z) = z.
Proof. unfold v_i64, int_range, s64_ok, LLONG_MIN, LLONG_MAX. cbn [num_of]. intro H. destruct (Z.leb_spec (-9223372036854775808) z), (Z.leb_spec z 9223372036854775807); cbn [andb]; try reflexivity; lia. Qed.
Lemma v_u64_uint n : u64_ok n -> v_u64 (VUint n) = n.
Proof. unfold v_u64, int_range, u64_ok, ULLONG_MAX. cbn [num_of]. intro H. assert (H9 : (Z.of_N n < 18446744073709551616)%Z) by (apply (N2Z.inj_lt n 18446744073709551616); exact H). destruct (Z.leb_spec 0 (Z.of_N n)), (Z.leb_spec (Z.of_N n) 18446744073709551615); cbn [andb]; try lia. Qed.
Lemma vadd_int a z : s64_ok z -> vadd (VInt a) (VInt z) = VInt (swrap (a + z)).
Proof. intro H. change (vadd (VInt a) (VInt z)) with (VInt (swrap (a + v_i64 (VInt z)))). rewrite v_i64_int by auto. reflexivity. Qed.
Lemma vadd_uint a z : u64_ok z -> vadd (VUint a) (VUint z) = VUint (wrap64 (a + z)).
Proof. intro H. change (vadd (VUint a) (VUint z)) with (VUint (wrap64 (a + v_u64 (VUint z)))). rewrite v_u64_uint by auto. reflexivity. Qed.
Lemma fold_vadd_int zs : forall a, Forall s64_ok zs -> fold_left vadd (map VInt zs) (VInt (swrap a)) = VInt (swrap (a + zsum zs)).
Proof.
  intros a H. revert a. induction H as [|z zs Hz H IH]; intro a; cbn [map fold_left].
  - cbn [zsum fold_right]. rewrite Z.add_0_r. reflexivity.
  - rewrite vadd_int by auto. rewrite IH. f_equal. rewrite <- Z.add_assoc, swrap_add_l. f_equal.
Qed.
Lemma fold1_int zs : Forall s64_ok zs -> fold1 vadd (map VInt zs) = match zs with [] => VInv | _ => VInt (swrap (zsum zs)) end.
Proof.
  intro H. unfold fold1. destruct zs as [|z zs]; [reflexivity|]. apply Forall_cons_iff in H as (Hz & H). cbn [map fold_left]. change (vadd VInv (VInt z)) with (VInt z).
  rewrite <- (swrap_id z Hz) at 1. rewrite fold_vadd_int by auto. reflexivity.
Qed.
Lemma nsum_app a b : nsum (a ++ b) = nsum a + nsum b.
Proof. unfold nsum. induction a; cbn [app fold_right]; lia. Qed.
Lemma wrap_add_l a b : wrap64 (wrap64 a + b) = wrap64 (a + b).
Proof. unfold wrap64. rewrite N.add_mod_idemp_l by discriminate. reflexivity. Qed.
Lemma wrap_add_r a b : wrap64 (a + wrap64 b) = wrap64 (a + b).
Proof. unfold wrap64. rewrite N.add_mod_idemp_r by discriminate. reflexivity. Qed.
Lemma wrap_id n : u64_ok n -> wrap64 n = n.
Proof. unfold u64_ok, wrap64. intro H. apply N.mod_small. exact H. Qed.
Lemma fold1_uint ns : Forall u64_ok ns -> fold1 vadd (map VUint ns) = match ns with [] => VInv | _ => VUint (wrap64 (nsum ns)) end.
Proof.
  intro H. unfold fold1. destruct ns as [|z ns]; [reflexivity|]. apply Forall_cons_iff in H as (Hz & H). cbn [map fold_left]. change (vadd VInv (VUint z)) with (VUint z).
  rewrite <- (wrap_id z Hz) at 1. clear Hz. revert z. induction H as [|y ns Hy H IH]; intro z; cbn [map fold_left nsum fold_right]; [rewrite N.add_0_r; reflexivity|].
  rewrite vadd_uint by auto. rewrite wrap_add_l, IH. f_equal. f_equal. cbn [nsum fold_right]. rewrite <- N.add_assoc. reflexivity.
Qed.
(* ---------- partition of the records into groups ---------- *)
Lemma group_key_of d q r K : wf d -> size_ok d -> Forall (entry_ok d) r -> group_key d q r K <-> key_of d q r = K.
Proof. intros Hw Hs F. split; [intro H; eapply group_key_fun; [apply key_of_ok; auto|auto]|intros <-; apply key_of_ok; auto]. Qed.
Lemma members_filter d q K recs rs : wf d -> size_ok d -> Forall (Forall (entry_ok d)) recs -> members d q K recs rs <-> rs = filter (fun r => if gkey_eq_dec (key_of d q r) K then true else false) recs.
Proof.
  intros Hw Hs F. assert (E : members d q K recs (filter (fun r => if gkey_eq_dec (key_of d q r) K then true else false) recs)).
  { apply keep_filter. intros r Hr. rewrite Forall_forall in F. rewrite (group_key_of d q r K) by auto. destruct (gkey_eq_dec (key_of d q r) K); split; auto; discriminate. }
  split; [intro H; eapply keep_fun; eauto|intros ->; exact E].
Qed.
Lemma zsum_partition {A} (key : A -> gkey) (f : A -> Z) (l : list A) Ks : NoDup Ks -> (forall a, In a l -> In (key a) Ks) ->
  zsum (map (fun K => zsum (map f (filter (fun a => if gkey_eq_dec (key a) K then true else false) l))) Ks) = zsum (map f l).
Proof.
  intros ND. induction l as [|a l IH]; intro H; cbn [map filter].
  - clear. induction Ks as [|K Ks IH]; cbn in *; auto.
  - cbn [zsum fold_right]. fold (zsum (map f l)). rewrite <- IH by (intros; apply H; right; auto). assert (Ha := H a (or_introl eq_refl)). clear IH H.
    induction Ks as [|K Ks IHK]; [destruct Ha|]. inversion ND as [|? ? Hn ND']; subst. cbn [map zsum fold_right]. destruct (gkey_eq_dec (key a) K) as [E|E].
    + assert (X : map (fun K0 => zsum (map f (if if gkey_eq_dec (key a) K0 then true else false then a :: filter (fun a0 => if gkey_eq_dec (key a0) K0 then true else false) l else filter (fun a0 => if gkey_eq_dec (key a0) K0 then true else false) l))) Ks = map (fun K0 => zsum (map f (filter (fun a0 => if gkey_eq_dec (key a0) K0 then true else false) l))) Ks).
      { apply map_ext_in. intros K0 HK0. destruct (gkey_eq_dec (key a) K0) as [E2|E2]; [exfalso; apply Hn; congruence|reflexivity]. }
      fold (zsum (map f (filter (fun a0 => if gkey_eq_dec (key a0) K then true else false) l))). unfold zsum in X. unfold zsum. rewrite X. cbn [map fold_right]. lia.
    + destruct Ha as [Ha|Ha]; [congruence|]. specialize (IHK ND' Ha). unfold zsum in *. rewrite IHK. lia.
Qed.
