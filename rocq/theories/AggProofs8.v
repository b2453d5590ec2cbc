(* Independence of the order of the records *)
From Verif Require Import Base VariantModel VariantSpec NamesModel NamesProps TextModel TreeModel TreeProofs CaliFileModel CaliFileProofs2 CaliFileProofs3 CaliFileProofs4 FloatModel ArithSpec ArithProofs AggModel AggSpec AggSpec2 AggProofs AggProofs2 AggProofs3 AggProofs4 AggProofs5 AggProofs6 AggProofs7.
From Coq Require Import Permutation Sorted.
Open Scope N_scope.

Lemma aggregated_ok q recs out d' : aggregated q recs out d' -> wf d' /\ size_ok d' /\ Forall (Forall (entry_ok d')) recs /\ exists G, is_output d' q recs out G.
Proof.
  intros (d & g & HR & HF & Hs). destruct (groups_ok q recs d g out d' HR HF Hs) as (F & G & HG).
  assert (Hx : dext d d') by (eapply flush_ext; exact HF). destruct (arun_wf q recs d g HR (size_dext _ _ Hx Hs)) as (Hw & _).
  unfold flush in HF. destruct (flush_ok _ _ _ _ _ _ HF Hw Hs) as (_ & Hw' & _). eauto.
Qed.
Definition encl_dec (K K' : gkey) : {encloses K K'} + {~ encloses K K'}.
Proof.
  destruct (list_eq_dec pv_eq_dec (gk_imm K) (gk_imm K')) as [E1|E1]; [|right; intros (X & _); contradiction].
  destruct (list_eq_dec pv_eq_dec (gk_np K) (gk_np K')) as [E2|E2]; [|right; intros (_ & X & _); contradiction].
  destruct (list_eq_dec pv_eq_dec (gk_path K) []) as [E3|E3]; [right; intros (_ & _ & X & _); contradiction|].
  destruct (list_eq_dec pv_eq_dec (firstn (length (gk_path K)) (gk_path K')) (gk_path K)) as [E4|E4].
  - destruct (skipn (length (gk_path K)) (gk_path K')) as [|x s] eqn:E5.
    + right. intros (_ & _ & _ & y & s & E6). rewrite E6, skipn_app, skipn_all, Nat.sub_diag in E5. discriminate.
    + left. repeat split; auto. exists x, s. rewrite <- (firstn_skipn (length (gk_path K)) (gk_path K')), E4, E5. reflexivity.
  - right. intros (_ & _ & _ & y & s & E6). apply E4. rewrite E6, firstn_app, Nat.sub_diag, firstn_all, firstn_O, app_nil_r. reflexivity.
Defined.
Definition contrib (d : mdb) (q : qspec) (c : kcfg) (K : gkey) (r : list entry) : list (bool * list (nat * value)) :=
  if gkey_eq_dec K (key_of d q r) then [(true, smatch c d r)]
  else if encl_dec K (key_of d q r) then if is_incl c && matched (smatch c d r) then [(false, smatch c d r)] else [] else [].
Lemma collect_contrib d q c K recs l : wf d -> size_ok d -> Forall (Forall (entry_ok d)) recs -> collect d q c K recs l <-> l = flat_map (contrib d q c K) recs.
Proof.
  intros Hw Hs F. assert (E : collect d q c K recs (flat_map (contrib d q c K) recs)).
  { induction F as [|r recs Hr F IH]; cbn [flat_map]; [constructor|]. assert (HK := key_of_ok d q r Hw Hs Hr). unfold contrib at 1. destruct (gkey_eq_dec K (key_of d q r)) as [->|Hn]; [apply co_own; auto|].
    destruct (encl_dec K (key_of d q r)) as [He|He].
    - destruct (is_incl c) eqn:Hi, (smatch c d r) as [|p ms] eqn:Em; cbn [andb matched app].
      + apply (co_skip d q c K r recs _ (key_of d q r)); auto. rewrite Em. intros (_ & _ & X). congruence.
      + rewrite <- Em. apply (co_incl d q c K r recs _ (key_of d q r)); auto. congruence.
      + apply (co_skip d q c K r recs _ (key_of d q r)); auto. intros (_ & X & _). congruence.
      + apply (co_skip d q c K r recs _ (key_of d q r)); auto. intros (_ & X & _). congruence.
    - apply (co_skip d q c K r recs _ (key_of d q r)); auto. intros (X & _). contradiction. }
  split; [|intros ->; exact E]. intro H. revert E. generalize (flat_map (contrib d q c K) recs). clear Hw Hs F. intros l' E. revert l' E.
  induction H as [|r rs l HK H IH|r rs l K' HK He Hc Hm H IH|r rs l K' HK Hne Hn H IH]; intros l' E; inversion E; subst; auto.
  - f_equal. auto.
  - exfalso. assert (K = K') by (eapply group_key_fun; eauto). subst. eapply encl_irrefl; eauto.
  - exfalso. assert (K = K') by (eapply group_key_fun; eauto). congruence.
  - exfalso. assert (K = K') by (eapply group_key_fun; eauto). subst. eapply encl_irrefl; eauto.
  - f_equal. auto.
  - exfalso. assert (K'0 = K') by (eapply group_key_fun; eauto). subst. tauto.
  - exfalso. assert (K = K') by (eapply group_key_fun; eauto). congruence.
  - exfalso. assert (K'0 = K') by (eapply group_key_fun; eauto). subst. tauto.
Qed.
(* ---------- stability ---------- *)
Lemma key_of_grow d d' q r : wf d -> wf d' -> grow d d' -> size_ok d' -> Forall (entry_ok d) r -> key_of d' q r = key_of d q r.
Proof.
  intros Hw Hw' G Hs F. assert (Hs0 := size_dext _ _ (gr_ext _ _ G) Hs). assert (H := key_of_ok d q r Hw Hs0 F). apply (group_key_grow d d') in H; auto.
  eapply group_key_fun; [|exact H]. apply key_of_ok; auto. exact (entries_grow d d' r Hw Hs G F).
Qed.
Lemma kid_role d d' ks a : grow d d' -> a < N.of_nat (length (d_nodes d)) -> forall tl, role_of (flat_map (kid d') ks ++ tl) a = role_of (flat_map (kid d) ks ++ tl) a.
Proof.
  intros G L. induction ks as [|k ks IH]; intro tl; cbn [flat_map]; auto. rewrite <- !app_assoc. unfold kid at 1 3. destruct (get_attr d (ka_name k)) as [b|] eqn:E.
  - rewrite (gr_keep _ _ G _ _ E). cbn [app role_of]. rewrite IH. reflexivity.
  - destruct (get_attr d' (ka_name k)) as [b|] eqn:E'; cbn [app role_of]; [|apply IH]. assert (X := gr_new _ _ G _ _ E E'). destruct (N.eqb_spec b a); [lia|apply IH].
Qed.
Lemma smatch1_grow c d d' r x : wf d -> grow d d' -> Forall (entry_ok d) r -> (no_target c = false -> get_attr d (fst x) <> None) -> smatch1 c d' r x = smatch1 c d r x.
Proof.
  intros Hw G F HT. assert (R : forall ids ids', (forall a, a < N.of_nat (length (d_nodes d)) -> role_of ids' a = role_of ids a) -> match_rec c d' ids' r = match_rec c d ids r).
  { intros ids ids' H. rewrite (match_rec_grow c d d' ids' r (gr_ext _ _ G) F). unfold match_rec. clear HT. induction F as [|e r He F IH]; cbn [flat_map]; auto. rewrite IH, H by (apply e_id_known; auto; apply Hw). reflexivity. }
  assert (K := fun a L => kid_role d d' (snd x) a G L []). setoid_rewrite app_nil_r in K.
  unfold smatch1. destruct (no_target c); [apply R; exact K|]. destruct (get_attr d (fst x)) as [t|] eqn:E; [|destruct (HT eq_refl eq_refl)]. rewrite (gr_keep _ _ G _ _ E). apply R. intros a L. cbn [role_of]. rewrite K; auto.
Qed.
Lemma smatch_grow c d d' r : wf d -> grow d d' -> Forall (entry_ok d) r -> (forall x, In x (kattrs c) -> no_target c = false -> get_attr d (fst x) <> None) -> smatch c d' r = smatch c d r.
Proof.
  intros Hw G F. unfold smatch. generalize 0%nat. induction (kattrs c) as [|x l IH]; intros b HT; cbn [smatch_l]; auto. rewrite IH by (intros; apply HT; auto; right; auto). rewrite (smatch1_grow c d d') by (auto; apply HT; left; auto). reflexivity.
Qed.
Lemma contrib_grow d d' q c K r : wf d -> wf d' -> grow d d' -> size_ok d' -> Forall (entry_ok d) r -> (forall x, In x (kattrs c) -> no_target c = false -> get_attr d (fst x) <> None) ->
  contrib d' q c K r = contrib d q c K r.
Proof. intros Hw Hw' G Hs F HT. unfold contrib. rewrite (key_of_grow d d'), (smatch_grow c d d') by auto. reflexivity. Qed.
(* ---------- commuting updates ---------- *)
Definition nd (v : value) : Prop := match v with VDouble _ => False | _ => True end.
Inductive ty := TI | TU.
Definition isty (t : ty) (v : value) : Prop := match t, v with TI, VInt z => s64_ok z | TU, VUint n => u64_ok n | _, _ => False end.
Lemma isty_nd t v : isty t v -> nd v.
Proof. destruct t, v; cbn; auto. Qed.
Lemma one_type_isty vs : one_type vs -> exists t, Forall (isty t) vs.
Proof.
  intros [(zs & -> & F)|(ns & -> & F)]; [exists TI|exists TU]; apply Forall_forall; intros v Hv; apply in_map_iff in Hv as (z & <- & Hz); rewrite Forall_forall in F; apply F; auto.
Qed.
Lemma vmin_int a z : s64_ok z -> vmin (VInt a) (VInt z) = VInt (Z.min a z).
Proof. intro H. change (vmin (VInt a) (VInt z)) with (VInt (Z.min a (v_i64 (VInt z)))). rewrite v_i64_int by auto. reflexivity. Qed.
Lemma vmin_uint a z : u64_ok z -> vmin (VUint a) (VUint z) = VUint (N.min a z).
Proof. intro H. change (vmin (VUint a) (VUint z)) with (VUint (N.min a (v_u64 (VUint z)))). rewrite v_u64_uint by auto. reflexivity. Qed.
Lemma vmax_int a z : s64_ok z -> vmax (VInt a) (VInt z) = VInt (Z.max a z).
Proof. intro H. change (vmax (VInt a) (VInt z)) with (VInt (Z.max a (v_i64 (VInt z)))). rewrite v_i64_int by auto. reflexivity. Qed.
Lemma vmax_uint a z : u64_ok z -> vmax (VUint a) (VUint z) = VUint (N.max a z).
Proof. intro H. change (vmax (VUint a) (VUint z)) with (VUint (N.max a (v_u64 (VUint z)))). rewrite v_u64_uint by auto. reflexivity. Qed.
Definition opc (op : value -> value -> value) : Prop :=
  (forall k x, nd k -> nd x -> nd (op k x)) /\ forall t k x y, nd k -> isty t x -> isty t y -> op (op k x) y = op (op k y) x.
Lemma vadd_opc : opc vadd.
Proof.
  split.
  - intros k x. destruct k; cbn; auto.
  - intros t k x y Hk Hx Hy. destruct k; cbn [nd] in Hk; try destruct Hk; try reflexivity.
    + change (vadd VInv x) with x. change (vadd VInv y) with y. destruct t, x, y; cbn [isty] in *; try tauto; [rewrite !vadd_int by auto|rewrite !vadd_uint by auto]; f_equal; f_equal; lia.
    + change (VInt (swrap (swrap (z + v_i64 x) + v_i64 y)) = VInt (swrap (swrap (z + v_i64 y) + v_i64 x))). rewrite !swrap_add_l. f_equal. f_equal. lia.
    + change (VUint (wrap64 (wrap64 (n + v_u64 x) + v_u64 y)) = VUint (wrap64 (wrap64 (n + v_u64 y) + v_u64 x))). rewrite !wrap_add_l. f_equal. f_equal. lia.
Qed.
Lemma vmin_opc : opc vmin.
Proof.
  split.
  - intros k x. destruct k; cbn; auto.
  - intros t k x y Hk Hx Hy. destruct k; cbn [nd] in Hk; try destruct Hk; try reflexivity.
    + change (vmin VInv x) with x. change (vmin VInv y) with y. destruct t, x, y; cbn [isty] in *; try tauto; [rewrite !vmin_int by auto|rewrite !vmin_uint by auto]; f_equal; lia.
    + change (VInt (Z.min (Z.min z (v_i64 x)) (v_i64 y)) = VInt (Z.min (Z.min z (v_i64 y)) (v_i64 x))). f_equal. lia.
    + change (VUint (N.min (N.min n (v_u64 x)) (v_u64 y)) = VUint (N.min (N.min n (v_u64 y)) (v_u64 x))). f_equal. lia.
Qed.
Lemma vmax_opc : opc vmax.
Proof.
  split.
  - intros k x. destruct k; cbn; auto.
  - intros t k x y Hk Hx Hy. destruct k; cbn [nd] in Hk; try destruct Hk; try reflexivity.
    + change (vmax VInv x) with x. change (vmax VInv y) with y. destruct t, x, y; cbn [isty] in *; try tauto; [rewrite !vmax_int by auto|rewrite !vmax_uint by auto]; f_equal; lia.
    + change (VInt (Z.max (Z.max z (v_i64 x)) (v_i64 y)) = VInt (Z.max (Z.max z (v_i64 y)) (v_i64 x))). f_equal. lia.
    + change (VUint (N.max (N.max n (v_u64 x)) (v_u64 y)) = VUint (N.max (N.max n (v_u64 y)) (v_u64 x))). f_equal. lia.
Qed.
Lemma fold_comm {S X} (f : S -> X -> S) (Inv : S -> Prop) (P : X -> Prop) :
  (forall s x, Inv s -> P x -> Inv (f s x)) -> (forall s x y, Inv s -> P x -> P y -> f (f s x) y = f (f s y) x) ->
  forall l l', Permutation l l' -> Forall P l -> forall s, Inv s -> fold_left f l s = fold_left f l' s.
Proof.
  intros H1 H2 l l' HP. induction HP as [|x l l' HP IH|x y l|l1 l2 l3 HP1 IH1 HP2 IH2]; intros F s Hs; cbn [fold_left]; auto.
  - apply Forall_cons_iff in F as (Fx & F). apply IH; auto.
  - apply Forall_cons_iff in F as (Fx & F). apply Forall_cons_iff in F as (Fy & F). rewrite H2; auto.
  - rewrite IH1 by auto. apply IH2; auto. eapply Permutation_Forall; eauto.
Qed.
(* what matched entries must look like *)
Definition okp (c : kcfg) (t u : ty) (p : nat * value) : Prop :=
  match c with
  | CCount | CScount _ _ => True
  | CAvg _ => match fst p with 0%nat | 1%nat => isty t (snd p) | _ => True end
  | CRatio _ _ _ _ => if (fst p <? 10)%nat then isty t (snd p) else isty u (snd p)
  | CAny _ | CVar _ => False
  | _ => isty t (snd p)
  end.
Definition kinv (k : kst) : Prop := nd (k_a k) /\ nd (k_b k).
Lemma kupd1_inv c o t u k p : okp c t u p -> kinv k -> kinv (kupd1 c o k p).
Proof.
  intros H (A & B). destruct p as (r, v). destruct vadd_opc as (Ha & _), vmin_opc as (Hmi & _), vmax_opc as (Hma & _).
  destruct c; cbn [okp fst snd] in H; try destruct H; cbn [kupd1]; try (split; cbn [k_a k_b]; auto; fail);
    try (split; cbn [k_a k_b]; auto; match goal with |- nd (?op _ _) => idtac end; eauto using isty_nd; fail).
  - destruct r as [|[|r]]; split; cbn [k_a k_b]; eauto using isty_nd.
  - destruct (r <? 10)%nat; split; cbn [k_a k_b]; eauto using isty_nd.
  - destruct o; split; cbn [k_a k_b]; eauto using isty_nd.
Qed.
Lemma kupd1_comm c o o' t u k p p' : okp c t u p -> okp c t u p' -> kinv k -> kupd1 c o' (kupd1 c o k p) p' = kupd1 c o (kupd1 c o' k p') p.
Proof.
  intros H H' (A & B). destruct p as (r, v), p' as (r', v'). destruct vadd_opc as (_ & Ha), vmin_opc as (_ & Hmi), vmax_opc as (_ & Hma).
  destruct c; cbn [okp fst snd] in H, H'; try destruct H; cbn [kupd1 k_n k_a k_b]; try reflexivity.
  - f_equal. apply (Ha t); auto.
  - f_equal. apply (Ha t); auto.
  - f_equal. apply (Hmi t); auto.
  - f_equal. apply (Hma t); auto.
  - destruct r as [|[|r]], r' as [|[|r']]; cbn [kupd1 k_n k_a k_b]; f_equal; try (apply (Ha t); auto); rewrite !wrap_add_l; f_equal; lia.
  - destruct (r <? 10)%nat, (r' <? 10)%nat; cbn [k_n k_a k_b]; f_equal; [apply (Ha t)|apply (Ha u)]; auto.
  - destruct o, o'; f_equal; apply (Ha t); auto.
Qed.
Definition flat (l : list (bool * list (nat * value))) : list (bool * (nat * value)) := flat_map (fun x => map (pair (fst x)) (snd x)) l.
Definition plain (c : kcfg) : bool := match c with CCount | CScount _ _ | CAny _ | CVar _ => false | _ => true end.
Lemma kfinal_flat c l : plain c = true -> kfinal c l = fold_left (fun k x => kupd1 c (fst x) k (snd x)) (flat l) (k_init c).
Proof.
  intro Hp. unfold kfinal. generalize (k_init c). induction l as [|(o, ms) l IH]; intro k; cbn [fold_left flat flat_map]; auto. rewrite fold_left_app, IH. cbn [fst snd]. f_equal.
  replace (kupd c o ms k) with (fold_left (kupd1 c o) ms k) by (destruct c; try discriminate; reflexivity). clear - k. revert k. induction ms as [|p ms IH]; intro k; cbn [map fold_left]; auto.
Qed.
Lemma perm_flat_map {A B} (f : A -> list B) l l' : Permutation l l' -> Permutation (flat_map f l) (flat_map f l').
Proof.
  induction 1 as [|x l l' H IH|x y l|l1 l2 l3 H1 IH1 H2 IH2]; cbn [flat_map]; auto.
  - apply Permutation_app_head. auto.
  - rewrite !app_assoc. apply Permutation_app_tail, Permutation_app_comm.
  - eapply Permutation_trans; eauto.
Qed.
Definition ordered (c : kcfg) : bool := match c with CAny _ | CVar _ => true | _ => false end.
Lemma kfinal_perm c t u l l' : ordered c = false -> Permutation l l' -> Forall (fun x => Forall (okp c t u) (snd x)) l -> kfinal c l = kfinal c l'.
Proof.
  intros Ho HP F. destruct (plain c) eqn:Ep.
  - rewrite !kfinal_flat by auto. apply (fold_comm (fun k x => kupd1 c (fst x) k (snd x)) kinv (fun x => okp c t u (snd x))).
    + intros s x Hs Hx. eapply kupd1_inv; eauto.
    + intros s x y Hs Hx Hy. eapply kupd1_comm; eauto.
    + apply perm_flat_map; auto.
    + clear - F. induction F as [|(o, ms) l H F IH]; cbn [flat flat_map]; [constructor|]. apply Forall_app. split; auto. cbn [fst snd] in *. clear - H. induction H; cbn [map]; constructor; auto.
    + destruct c; try discriminate; split; exact Logic.I.
  - destruct c; try discriminate; unfold kfinal.
    + apply (fold_comm (fun k x => kupd CCount (fst x) (snd x) k) (fun _ => True) (fun _ => True)); auto; [|apply Forall_forall; auto]. intros s x y _ _ _. cbn [kupd k_n k_a k_b]. f_equal. rewrite !wrap_add_l. f_equal. lia.
    + apply (fold_comm (fun k x => kupd (CScount arg scale) (fst x) (snd x) k) (fun _ => True) (fun _ => True)); auto; [|apply Forall_forall; auto]. intros s x y _ _ _. cbn [kupd k_n k_a k_b]. f_equal. rewrite !wrap_add_l. f_equal. lia.
Qed.
(* ---------- integral records give typed matches ---------- *)
Lemma fm_forall {A B} (P : B -> Prop) (f : A -> list B) l : Forall P (flat_map f l) <-> Forall (fun x => Forall P (f x)) l.
Proof. induction l as [|x l IH]; cbn [flat_map]; [split; constructor|]. rewrite Forall_app, Forall_cons_iff, IH. tauto. Qed.
Lemma map_forall {A B} (P : B -> Prop) (f : A -> B) l : Forall P (map f l) <-> Forall (fun x => P (f x)) l.
Proof. induction l as [|x l IH]; cbn [map]; [split; constructor|]. rewrite !Forall_cons_iff, IH. tauto. Qed.
Lemma match_in c d ids rec r v : In (r, v) (match_rec c d ids rec) -> exists e, In e rec /\ role_of ids (e_id c d e) = Some r /\ v = e_val d e.
Proof. unfold match_rec. intro H. apply in_flat_map in H as (e & He & H). exists e. destruct (role_of ids (e_id c d e)); [|destruct H]. destruct H as [H|[]]. injection H as -> ->. auto. Qed.
Lemma avals_in d names rec e : In e rec -> is_named d names (e_attr d e) = true -> In (e_val d e) (avals d names rec).
Proof. intros He H. unfold avals. apply in_flat_map. exists e. rewrite H. split; auto. left. auto. Qed.
Lemma smatch1_vals c x ks d r : no_target c = false -> by_attribute c = false -> wf d -> size_ok d -> Forall (entry_ok d) r -> get_attr d x <> None ->
  map snd (smatch1 c d r (x, ks)) = vals d (x :: map ka_name ks) r.
Proof.
  intros Hn Hb Hw Hs F Hx. unfold smatch1. cbn [fst snd]. rewrite Hn. destruct (get_attr d x) as [t|] eqn:E; [|congruence].
  apply (match_vals c d ((t, 0%nat) :: flat_map (kid d) ks) (x :: map ka_name ks) r Hb Hw Hs F (fun a => ids_named d x t ks a E)).
Qed.
Lemma role_small ids a r : role_of ids a = Some r -> In (a, r) ids.
Proof. induction ids as [|(k, r0) ids IH]; cbn; [discriminate|]. destruct (N.eqb_spec k a) as [->|]; intro H; [injection H as ->; left; auto|right; auto]. Qed.
Lemma integral_okp d recs c : wf d -> size_ok d -> Forall (Forall (entry_ok d)) recs -> (forall x, In x (kattrs c) -> no_target c = false -> get_attr d (fst x) <> None) -> integral d recs c ->
  ordered c = false /\ exists t u, Forall (fun r => Forall (okp c t u) (smatch c d r)) recs.
Proof.
  intros Hw Hs F HT HI.
  assert (V1 : forall x ks, no_target c = false -> by_attribute c = false -> kattrs c = [(x, ks)] -> one_type (flat_map (vals d (x :: map ka_name ks)) recs) -> exists t, Forall (fun r => Forall (fun p => isty t (snd p)) (smatch c d r)) recs).
  { intros x ks Hn Hb Hk H1. destruct (one_type_isty _ H1) as (t & Ht). exists t. apply fm_forall in Ht. apply Forall_forall. intros r Hr. rewrite Forall_forall in Ht, F. specialize (Ht r Hr). rewrite <- (smatch_vals c x ks d r) in Ht; auto; [apply (proj1 (map_forall (isty t) snd (smatch c d r))); exact Ht|]. apply (HT (x, ks)); auto. rewrite Hk. left. auto. }
  destruct c; cbn [integral] in HI; try contradiction; split; try reflexivity.
  - exists TI, TI. apply Forall_forall. intros r _. apply Forall_forall. intros p _. exact Logic.I.
  - exists TI, TI. apply Forall_forall. intros r _. apply Forall_forall. intros p _. exact Logic.I.
  - edestruct V1 as (t & Ht); [reflexivity|reflexivity|reflexivity|exact HI|]. exists t, t. exact Ht.
  - edestruct V1 as (t & Ht); [reflexivity|reflexivity|reflexivity|exact HI|]. exists t, t. exact Ht.
  - edestruct V1 as (t & Ht); [reflexivity|reflexivity|reflexivity|exact HI|]. exists t, t. exact Ht.
  - edestruct V1 as (t & Ht); [reflexivity|reflexivity|reflexivity|exact HI|]. exists t, t. exact Ht.
  - destruct (one_type_isty _ HI) as (t & Ht). exists t, t. apply fm_forall in Ht. apply Forall_forall. intros r Hr. rewrite Forall_forall in Ht, F. specialize (Ht r Hr). specialize (F r Hr). assert (HX := HT _ (or_introl eq_refl) eq_refl). cbn [fst] in HX.
    apply Forall_forall. intros (ro, v) Hin. unfold smatch in Hin. cbn [kattrs smatch_l] in Hin. rewrite app_nil_r in Hin. apply in_map_iff in Hin as ((ro', v') & E & Hin). cbn [fst snd] in E. injection E as <- <-.
    unfold smatch1 in Hin. cbn [no_target fst snd] in Hin. destruct (get_attr d x) as [tx|] eqn:Ex; [|congruence]. apply match_in in Hin as (e & He & Hro & ->). apply role_small in Hro. cbn [okp fst snd].
    assert (X : ro' = 0%nat \/ ro' = 1%nat -> In (e_val d e) (avals d [x; p_avgsum ++ x] r)).
    { intro Hro'. apply avals_in; auto. unfold is_named. cbn [existsb]. rewrite Ex. destruct Hro as [E|Hin]; [injection E as E _; unfold e_id in E; cbn [by_attribute] in E; rewrite E, N.eqb_refl; reflexivity|].
      cbn [flat_map] in Hin. rewrite app_nil_r in Hin. apply in_app_or in Hin as [Hin|Hin]; unfold kid in Hin; cbn [ka_name ka_role] in Hin.
      - destruct (get_attr d (p_avgsum ++ x)) as [b|]; [|destruct Hin]. destruct Hin as [E|[]]. injection E as E _. unfold e_id in E. cbn [by_attribute] in E. rewrite E, N.eqb_refl. rewrite orb_true_r. reflexivity.
      - destruct (get_attr d (p_avgcnt ++ x)) as [b|]; [|destruct Hin]. destruct Hin as [E|[]]. injection E as _ E. destruct Hro'; congruence. }
    rewrite Forall_forall in Ht. cbn [Nat.add]. destruct ro' as [|[|ro']]; [apply Ht; auto|apply Ht; auto|exact Logic.I].
  - destruct HI as (H & H0). destruct (one_type_isty _ H) as (t & Ht). destruct (one_type_isty _ H0) as (u & Hu). exists t, u. apply fm_forall in Ht. apply fm_forall in Hu. apply Forall_forall. intros r Hr. rewrite Forall_forall in Ht, Hu, F. specialize (Ht r Hr). specialize (Hu r Hr). specialize (F r Hr).
    assert (HX := HT _ (or_introl eq_refl) eq_refl). assert (HY := HT _ (or_intror (or_introl eq_refl)) eq_refl). cbn [fst] in HX, HY.
    assert (RS : forall z ro v, In (ro, v) (smatch1 (CRatio x y scale incl) d r (z, [mkka 1 (sel incl p_isrsum p_srsum ++ z) None (AGGPROP + HIDDEN)])) -> (ro < 2)%nat).
    { intros z ro v Hin. unfold smatch1 in Hin. cbn [no_target fst snd] in Hin. destruct (get_attr d z); [|destruct Hin]. apply match_in in Hin as (e & _ & Hro & _). apply role_small in Hro. destruct Hro as [E|Hro]; [injection E as _ <-; lia|]. cbn [flat_map] in Hro. rewrite app_nil_r in Hro. unfold kid in Hro. cbn [ka_name ka_role] in Hro. destruct (get_attr d (sel incl p_isrsum p_srsum ++ z)); [|destruct Hro]. destruct Hro as [E|[]]. injection E as _ <-. lia. }
    assert (VX := smatch1_vals (CRatio x y scale incl) x [mkka 1 (sel incl p_isrsum p_srsum ++ x) None (AGGPROP + HIDDEN)] d r eq_refl eq_refl Hw Hs F HX).
    assert (VY := smatch1_vals (CRatio x y scale incl) y [mkka 1 (sel incl p_isrsum p_srsum ++ y) None (AGGPROP + HIDDEN)] d r eq_refl eq_refl Hw Hs F HY).
    assert (Ht' : Forall (isty t) (map snd (smatch1 (CRatio x y scale incl) d r (x, [mkka 1 (sel incl p_isrsum p_srsum ++ x) None (AGGPROP + HIDDEN)])))) by (rewrite VX; exact Ht). assert (Hu' : Forall (isty u) (map snd (smatch1 (CRatio x y scale incl) d r (y, [mkka 1 (sel incl p_isrsum p_srsum ++ y) None (AGGPROP + HIDDEN)])))) by (rewrite VY; exact Hu). clear Ht Hu. rename Ht' into Ht. rename Hu' into Hu. apply (proj1 (map_forall (isty t) snd _)) in Ht. apply (proj1 (map_forall (isty u) snd _)) in Hu. rewrite Forall_forall in Ht, Hu.
    apply Forall_forall. intros (ro, v) Hin. unfold smatch in Hin. cbn [kattrs smatch_l] in Hin. rewrite app_nil_r in Hin. apply in_app_or in Hin as [Hin|Hin]; apply in_map_iff in Hin as ((ro', v') & E & Hin); cbn [fst snd] in E; injection E as <- <-; cbn [okp fst snd].
    + assert (L := RS _ _ _ Hin). destruct (Nat.ltb _ 10) eqn:E; [|apply Nat.ltb_ge in E; lia]. exact (Ht _ Hin).
    + destruct (Nat.ltb _ 10) eqn:E; [apply Nat.ltb_lt in E; lia|]. exact (Hu _ Hin).
  - edestruct V1 as (t & Ht); [reflexivity|reflexivity|reflexivity|exact HI|]. exists t, t. exact Ht.
Qed.
Lemma contrib_okp d q c t u K recs : Forall (fun r => Forall (okp c t u) (smatch c d r)) recs -> Forall (fun x => Forall (okp c t u) (snd x)) (flat_map (contrib d q c K) recs).
Proof.
  intro F. apply fm_forall. eapply Forall_impl; [|exact F]. cbn beta. intros r Hr. unfold contrib. destruct (gkey_eq_dec K (key_of d q r)); [constructor; auto|]. destruct (encl_dec K (key_of d q r)); [|constructor]. destruct (is_incl c && matched (smatch c d r)); constructor; auto.
Qed.
Lemma total_perm d c t u recs recs' : ordered c = false -> Forall (fun r => Forall (okp c t u) (smatch c d r)) recs -> Permutation recs recs' -> total d c recs = total d c recs'.
Proof.
  intros Ho F HP. unfold total. destruct vadd_opc as (Ha & Hc).
  destruct c; cbn [ktot]; try (clear; generalize VInv at 1 2; induction recs, recs'; intro; cbn [fold_left] in *; auto; fail).
  all: try (assert (X : forall (l : list (list entry)) v, fold_left (fun (t : value) (_ : list entry) => t) l v = v) by (clear; induction l; cbn; auto); rewrite !X; reflexivity).
  apply (fold_comm (fun tt r => fold_left (fun t p => vadd t (snd p)) (smatch (CPct x incl) d r) tt) nd (fun r => Forall (fun p => isty t (snd p)) (smatch (CPct x incl) d r))); auto; [| |exact Logic.I].
  - intros s r Hs Hr. revert s Hs. induction Hr as [|p ms Hp Hr IH]; intros s Hs; cbn [fold_left]; auto. apply IH, Ha; eauto using isty_nd.
  - intros s r r' Hs Hr Hr'. rewrite <- !fold_left_app. apply (fold_comm (fun t p => vadd t (snd p)) nd (fun p => isty t (snd p))); auto.
    + intros k p Hk Hp. apply Ha; eauto using isty_nd.
    + intros k p p' Hk Hp Hp'. apply (Hc t); auto.
    + apply Permutation_app_comm.
    + apply Forall_app. auto.
Qed.
Lemma total_grow d d' c recs : wf d -> grow d d' -> Forall (Forall (entry_ok d)) recs -> (forall x, In x (kattrs c) -> no_target c = false -> get_attr d (fst x) <> None) -> total d' c recs = total d c recs.
Proof. intros Hw G F HT. unfold total. generalize VInv. induction F as [|r recs Hr F IH]; intro v; cbn [fold_left]; auto. rewrite (smatch_grow c d d'); auto. Qed.
Lemma contribs_grow d d' q c K recs : wf d -> wf d' -> grow d d' -> size_ok d' -> Forall (Forall (entry_ok d)) recs -> (forall x, In x (kattrs c) -> no_target c = false -> get_attr d (fst x) <> None) ->
  flat_map (contrib d' q c K) recs = flat_map (contrib d q c K) recs.
Proof. intros Hw Hw' G Hs F HT. induction F as [|r recs Hr F IH]; cbn [flat_map]; auto. rewrite IH, (contrib_grow d d'); auto. Qed.
Lemma present_grow d d' q recs K : wf d -> wf d' -> grow d d' -> size_ok d' -> Forall (Forall (entry_ok d)) recs -> targets_known d q -> group_present d' q recs K <-> group_present d q recs K.
Proof.
  intros Hw Hw' G Hs F HT. assert (Hs0 := size_dext _ _ (gr_ext _ _ G) Hs). rewrite Forall_forall in F.
  assert (X : forall r K', In r recs -> group_key d' q r K' <-> group_key d q r K').
  { intros r K' Hr. rewrite (group_key_of d' q r), (group_key_of d q r) by (auto; exact (entries_grow d d' r Hw Hs G (F r Hr))). rewrite (key_of_grow d d'); auto. tauto. }
  split; intros (r & K' & Hr & HK & H); exists r, K'; (split; [auto|]); (split; [apply X; auto|]); (destruct H as [H|(H1 & c & H2 & H3 & H4)]; [auto|right; split; auto; exists c; split; auto; split; auto]).
  - rewrite <- (smatch_grow c d d' r Hw G (F r Hr) (fun x Hx Hn => HT c x H2 Hn Hx)). exact H4.
  - rewrite (smatch_grow c d d' r Hw G (F r Hr) (fun x Hx Hn => HT c x H2 Hn Hx)). exact H4.
Qed.
Lemma present_perm d q recs recs' K : Permutation recs recs' -> group_present d q recs K -> group_present d q recs' K.
Proof. intros HP (r & K' & Hr & H). exists r, K'. split; auto. eapply Permutation_in; eauto. Qed.

Theorem order_ok q d0 recs1 recs2 out1 out2 d1 d2 : wf d0 -> Forall (Forall (entry_ok d0)) recs1 -> targets_known d0 q -> Forall (integral d0 recs1) (q_ker q) -> Permutation recs1 recs2 ->
  aggregated q recs1 out1 d1 -> grow d0 d1 -> aggregated q recs2 out2 d2 -> grow d0 d2 ->
  exists G1 G2, is_output d1 q recs1 out1 G1 /\ is_output d2 q recs2 out2 G2 /\ Permutation (map gp_key G1) (map gp_key G2) /\
    forall x1 x2, In x1 G1 -> In x2 G2 -> gp_key x1 = gp_key x2 -> Forall2 (fun es1 es2 => exists rs, named d1 rs es1 /\ named d2 rs es2) (gp_res x1) (gp_res x2).
Proof.
  intros Hw0 F1 HT HI HP A1 Gr1 A2 Gr2. destruct (aggregated_ok _ _ _ _ A1) as (Hw1 & Hs1 & _ & G1 & HG1). destruct (aggregated_ok _ _ _ _ A2) as (Hw2 & Hs2 & _ & G2 & HG2).
  assert (F2 : Forall (Forall (entry_ok d0)) recs2) by (eapply Permutation_Forall; eauto). assert (Hs0 := size_dext _ _ (gr_ext _ _ Gr1) Hs1).
  exists G1, G2. split; auto. split; auto. destruct HG1 as (E1 & N1 & P1 & O1). destruct HG2 as (E2 & N2 & P2 & O2). split.
  - apply NoDup_Permutation; auto. intro K. rewrite P1, P2, (present_grow d0 d1), (present_grow d0 d2) by auto. split; apply present_perm; auto. apply Permutation_sym; auto.
  - intros x1 x2 H1 H2 EK. rewrite Forall_forall in O1, O2. destruct (O1 x1 H1) as (_ & _ & R1). destruct (O2 x2 H2) as (_ & _ & R2). rewrite EK in R1. clear O1 O2 E1 E2 N1 N2 P1 P2 EK H1 H2.
    assert (HT' : forall c, In c (q_ker q) -> forall x, In x (kattrs c) -> no_target c = false -> get_attr d0 (fst x) <> None) by (intros; eapply HT; eauto). clear HT.
    assert (L1 : Forall (Forall (entry_ok d1)) recs1) by (eapply Forall_impl; [|exact F1]; intros r Hr; exact (entries_grow d0 d1 r Hw0 Hs1 Gr1 Hr)).
    assert (L2 : Forall (Forall (entry_ok d2)) recs2) by (eapply Forall_impl; [|exact F2]; intros r Hr; exact (entries_grow d0 d2 r Hw0 Hs2 Gr2 Hr)).
    revert R1 R2 HI HT'. generalize (gp_res x1), (gp_res x2). generalize (q_ker q). clear x1.
    intros cs l1 l2 R1. revert l2. induction R1 as [|c es1 cs l1 (c1 & rs1 & C1 & K1 & Na1) R1 IH]; intros l2 R2 HI HT'; inversion R2 as [|? es2 ? l2' (c2 & rs2 & C2 & K2 & Na2) R2']; subst; constructor.
    + apply Forall_cons_iff in HI as (HI & _). assert (HTc := HT' c (or_introl eq_refl)). destruct (integral_okp d0 recs1 c Hw0 Hs0 F1 HTc HI) as (Ho & t & u & Hok).
      apply collect_contrib in C1; auto. apply collect_contrib in C2; auto. rewrite (contribs_grow d0 d1) in C1 by auto. rewrite (contribs_grow d0 d2) in C2 by auto.
      assert (EF : kfinal c c1 = kfinal c c2). { subst c1 c2. apply (kfinal_perm c t u); auto; [apply perm_flat_map; auto|apply contrib_okp; auto]. }
      assert (ET : total d1 c recs1 = total d2 c recs2). { rewrite (total_grow d0 d1), (total_grow d0 d2) by auto. eapply total_perm; eauto. }
      rewrite EF, ET, K2 in K1. injection K1 as ->. eauto.
    + apply Forall_cons_iff in HI as (_ & HI). apply IH; auto. intros. eapply HT'; [right; eauto|eauto|auto].
Qed.
