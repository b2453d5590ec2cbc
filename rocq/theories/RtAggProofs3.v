(* Processing a history of snapshots *)
From Verif Require Import Base VariantModel ArithModel RtAggModel RtAggSpec RtAggProofs RtAggProofs2.
Open Scope nat_scope.

Definition bump (g : grp) (ks : list kern) : grp := mkgrp (g_key g) (g_bk g) (wrap64 (g_cnt g + 1)) ks.
Lemma tail_ok d k0 c0 gs i g rec attrs d' : Rep d k0 c0 gs -> nth_error gs i = Some g ->
  match nth_error (d_ents d) (S i) with
  | None => None
  | Some e =>
      let e' := mkaent (wrap64 (a_cnt e + 1)) (a_kidx e) (a_klen e) (a_nidx e) (a_nk e) (a_next e) in
      match upd_kerns (d_kerns d) (a_nidx e) rec attrs (Nat.min (a_nk e) (length attrs)) with
      | None => None
      | Some ks => Some (mkadb (set_nth (d_ents d) (S i) e') (d_keyents d) ks (d_hash d) (d_ecap d) (d_kcap d) (d_ncap d))
      end
  end = Some d' ->
  exists ks', upd_l (g_ks g) rec attrs (Nat.min (length (g_ks g)) (length attrs)) = Some ks' /\ Rep d' k0 c0 (set_nth gs i (bump g ks')) /\
    d_ecap d' = d_ecap d /\ d_kcap d' = d_kcap d /\ d_ncap d' = d_ncap d.
Proof.
  intros R Hi. rewrite (rp_nth _ _ _ _ R i g Hi). cbn [a_cnt a_kidx a_klen a_nidx a_nk a_next]. cbv zeta.
  rewrite (rp_kerns _ _ _ _ R), (concat_map_at g_ks gs i g Hi). unfold nlen at 1.
  rewrite upd_kerns_local by lia. destruct (upd_l _ _ _ _) as [ks'|] eqn:E; cbn [option_map]; [|discriminate].
  intro H. inversion H; subst d'. exists ks'. split; auto. split; [|auto].
  apply (rep_update d k0 c0 gs i g (bump g ks') R Hi); auto. cbn. eapply upd_l_len; eauto.
Qed.
Lemma set_nth_last {A} (l : list A) x y : set_nth (l ++ [x]) (length l) y = l ++ [y].
Proof. apply set_nth_app. Qed.
Lemma set_nth_0 {A} (x : A) l i y z : nth_error (x :: l) 0 = Some z -> set_nth (x :: l) 0 y = y :: l /\ nth_error (y :: l) (S i) = nth_error (x :: l) (S i).
Proof. auto. Qed.
Lemma vgrow_ge cap n k : cap <= vgrow cap n k.
Proof. unfold vgrow. destruct (Nat.leb_spec (n + k) cap); lia. Qed.
Lemma vgrow_push_ge k : forall cap n, cap <= vgrow_push cap n k.
Proof. induction k as [|k IH]; intros cap n; cbn [vgrow_push]; [lia|]. eapply Nat.le_trans; [apply (vgrow_ge cap n 1)|apply IH]. Qed.
Definition caps_le (d d' : adb) : Prop := d_ecap d <= d_ecap d' /\ d_kcap d <= d_kcap d' /\ d_ncap d <= d_ncap d'.

Definition match_at (m : memory) (s : snap) (g : grp) : bool := key_eqb m (key16 s) (g_key g) && (g_bk g =? bucket s).
Lemma process_step m d k0 c0 gs s d' : Rep d k0 c0 gs -> process m d (s_info s) (s_alloc s) (s_rec s) = Some d' ->
  caps_le d d' /\
  ((exists i g ks', nth_error gs i = Some g /\ match_at m s g = true /\
      upd_l (g_ks g) (s_rec s) (i_aggr (s_info s)) (Nat.min (length (g_ks g)) (length (i_aggr (s_info s)))) = Some ks' /\
      Rep d' k0 c0 (set_nth gs i (bump g ks'))) \/
   ((forall g, In g gs -> match_at m s g = false) /\
    ((s_alloc s = false /\ (d_ncap d <= nlen gs + length (i_aggr (s_info s)) \/ d_kcap d <= length k0 + klen gs + length (key16 s) \/ d_ecap d <= S (length gs) + 1) /\
      Rep d' k0 (wrap64 (c0 + 1)) gs) \/
     (exists ks', upd_l (repeat kern0 (length (i_aggr (s_info s)))) (s_rec s) (i_aggr (s_info s)) (length (i_aggr (s_info s))) = Some ks' /\
      Rep d' k0 c0 (gs ++ [mkgrp (key16 s) (bucket s) (wrap64 (0 + 1)) ks']))))).
Proof.
  intros R. unfold process. destruct (make_key (s_info s) (s_rec s)) as [[key hash]|] eqn:Ek; [|discriminate].
  destruct (make_key_ok s key hash Ek) as (-> & ->). unfold find_or_create. fold (bucket s). cbv zeta.
  rewrite (rp_hash _ _ _ _ R _ (bucket_lt s)).
  destruct (chain_ok m d k0 c0 gs (key16 s) (bucket s) R (length gs) (S (length (d_ents d))) ltac:(lia)) as (r & Er & Hr).
  { rewrite (rp_len _ _ _ _ R). lia. }
  rewrite firstn_all in Er. rewrite Er. destruct r as [j|].
  - destruct Hr as (i & g & -> & Li & Hg & Hb & Hk). intro H.
    destruct (tail_ok d k0 c0 gs i g _ _ d' R Hg H) as (ks' & E1 & R' & C1 & C2 & C3).
    split; [unfold caps_le; lia|]. left. exists i, g, ks'. split; auto. split; [unfold match_at; rewrite Hk, Hb, Nat.eqb_refl; auto|]. auto.
  - assert (Hno : forall g, In g gs -> match_at m s g = false).
    { intros g Hg. apply In_nth_error in Hg as (i & Hi). assert (Li : i < length gs) by (apply nth_error_Some; congruence).
      unfold match_at. destruct (Nat.eqb_spec (g_bk g) (bucket s)) as [E|E]; [|apply andb_false_r]. rewrite (Hr i g Li Hi E). auto. }
    destruct (negb (s_alloc s) && _) eqn:Ef.
    + intro H. destruct (d_ents d) as [|e0 es] eqn:Ee; [pose proof (rp_0 _ _ _ _ R) as X; rewrite Ee in X; discriminate|].
      pose proof (rp_0 _ _ _ _ R) as R0. rewrite Ee in R0. cbn [nth_error] in R0. inversion R0; subst e0.
      cbn [nth_error a_cnt a_kidx a_klen a_nidx a_nk a_next Nat.min upd_kerns set_nth] in H.
      apply andb_true_iff in Ef as (Ea & Ec). apply negb_true_iff in Ea.
      inversion H; subst d'. split; [unfold caps_le; cbn; lia|]. right. split; auto. left. split; auto. split.
      { rewrite !orb_true_iff, !Nat.leb_le in Ec. rewrite (rp_keys _ _ _ _ R), (rp_kerns _ _ _ _ R), app_length in Ec. rewrite <- Ee, (rp_len _ _ _ _ R) in Ec. fold (klen gs) (nlen gs) in Ec. tauto. }
      constructor; cbn [d_ents d_keyents d_kerns d_hash].
      * pose proof (rp_len _ _ _ _ R) as X. rewrite Ee in X. exact X.
      * reflexivity.
      * intros i g Hi. pose proof (rp_nth _ _ _ _ R i g Hi) as X. rewrite Ee in X. exact X.
      * apply (rp_keys _ _ _ _ R).
      * apply (rp_kerns _ _ _ _ R).
      * apply (rp_hlen _ _ _ _ R).
      * apply (rp_hash _ _ _ _ R).
    + set (n := length (i_aggr (s_info s))).
      assert (R1 := rep_add d k0 c0 gs (mkgrp (key16 s) (bucket s) 0%N (repeat kern0 n)) (vgrow (d_ecap d) (length (d_ents d)) 1)
                 (vgrow_push (d_kcap d) (length (d_keyents d)) (length (key16 s))) (vgrow (d_ncap d) (length (d_kerns d)) n) R (bucket_lt s)).
      cbn [g_cnt g_key g_bk g_ks] in R1. rewrite repeat_length in R1.
      rewrite (rp_len _ _ _ _ R). rewrite (rp_len _ _ _ _ R) in R1. intro H.
      assert (Hlast : nth_error (gs ++ [mkgrp (key16 s) (bucket s) 0%N (repeat kern0 n)]) (length gs) = Some (mkgrp (key16 s) (bucket s) 0%N (repeat kern0 n))) by (rewrite nth_error_app2, Nat.sub_diag by lia; reflexivity).
      destruct (tail_ok _ k0 c0 _ (length gs) _ (s_rec s) (i_aggr (s_info s)) d' R1 Hlast H) as (ks' & E1 & R' & C1 & C2 & C3).
      cbn [g_ks] in E1. rewrite repeat_length in E1. fold n in E1. rewrite Nat.min_id in E1.
      split; [unfold caps_le; rewrite C1, C2, C3; cbn; repeat split; auto using vgrow_ge, vgrow_push_ge|].
      right. split; auto. right. exists ks'. split; auto. rewrite set_nth_last in R'. exact R'.
Qed.

(* ---- kernels hold the statistics of the values ---- *)
Definition e3 : cvar * cvar * cvar := (empty_var, empty_var, empty_var).
Definition kern_of (k : kern) (vals : list cvar) : Prop :=
  minmaxsum vals e3 = Some (k_min k, k_max k, k_sum k) /\ k_cnt k = N.modulo (N.of_nat (length vals)) 4294967296.
Lemma minmaxsum_app a : forall s b, minmaxsum (a ++ b) s = match minmaxsum a s with Some s1 => minmaxsum b s1 | None => None end.
Proof. induction a as [|x a IH]; intros s b; cbn [app minmaxsum]; auto. destruct (cv_minmaxsum _ _ _ _); auto. Qed.
Lemma kern_of_update k vals v k' : kern_of k vals -> kern_update k v = Some k' -> kern_of k' (vals ++ [v]).
Proof.
  intros (A & B). unfold kern_update. destruct (cv_minmaxsum v (k_min k) (k_max k) (k_sum k)) as [[[mn mx] sm]|] eqn:E; [|discriminate].
  intro H. inversion H; subst k'. split; cbn [k_min k_max k_sum k_cnt].
  - rewrite minmaxsum_app, A. cbn [minmaxsum fst snd]. rewrite E. reflexivity.
  - rewrite B, app_length. cbn [length]. rewrite N.add_mod_idemp_l by discriminate. f_equal. lia.
Qed.
Definition kerns_ok (ks : list kern) (attrs : list N) (mem : list snap) : Prop := Forall2 (fun k a => kern_of k (values_of a mem)) ks attrs.
Lemma values_snoc a mem s : values_of a (mem ++ [s]) = values_of a mem ++ map r_val (first_imm (s_rec s) a).
Proof. unfold values_of. rewrite flat_map_app. cbn. rewrite app_nil_r. reflexivity. Qed.
Lemma kerns_ok_step s ks : forall attrs rest mem ks', kerns_ok ks attrs mem ->
  upd_l ks (s_rec s) (attrs ++ rest) (Nat.min (length ks) (length (attrs ++ rest))) = Some ks' -> kerns_ok ks' attrs (mem ++ [s]).
Proof.
  induction ks as [|k q IH]; intros attrs rest mem ks' H; inversion H as [|k1 a q1 r H1 H2]; subst; cbn [length app].
  - cbn [Nat.min upd_l]. intro E. inversion E; subst. constructor.
  - cbn [Nat.min upd_l]. destruct (upd_l q (s_rec s) (r ++ rest) (Nat.min (length q) (length (r ++ rest)))) as [q'|] eqn:E.
    2: { destruct (get_imm _ _); [destruct (kern_update _ _)|]; discriminate. }
    assert (Hq := IH r rest mem q' H2 E).
    destruct (get_imm (s_rec s) a) as [e|] eqn:Eg.
    + destruct (kern_update k (r_val e)) as [k'|] eqn:Ek; [|discriminate]. intro X. inversion X; subst. constructor; auto.
      rewrite values_snoc, first_imm_get, Eg. eapply kern_of_update; eauto.
    + intro X. inversion X; subst. constructor; auto. rewrite values_snoc, first_imm_get, Eg. cbn. rewrite app_nil_r. auto.
Qed.
Lemma kerns_ok_0 attrs : kerns_ok (repeat kern0 (length attrs)) attrs [].
Proof. induction attrs; cbn; constructor; auto. split; reflexivity. Qed.

(* ---- history ---- *)
Fixpoint arun (m : memory) (d : adb) (h : list snap) : option adb :=
  match h with [] => Some d | s :: r => match process m d (s_info s) (s_alloc s) (s_rec s) with Some d1 => arun m d1 r | None => None end end.
Lemma arun_app m a : forall d b, arun m d (a ++ b) = match arun m d a with Some d1 => arun m d1 b | None => None end.
Proof. induction a as [|s a IH]; intros d b; cbn [app arun]; auto. destruct (process _ _ _ _ _); auto. Qed.
Definition grp_ok (m : memory) (ks : list snap) (f : snap) (g : grp) : Prop :=
  g_key g = key16 f /\ g_bk g = bucket f /\ g_cnt g = wrap64 (N.of_nat (length (filter (cls m f) ks))) /\
  kerns_ok (g_ks g) (i_aggr (s_info f)) (filter (cls m f) ks).
Definition hinv (m : memory) (ks : list snap) (gs : list grp) : Prop := Forall2 (grp_ok m ks) (firsts (cls m) ks) gs.
Lemma F2_nth {A B} (P : A -> B -> Prop) l k : Forall2 P l k -> forall i x y, nth_error l i = Some x -> nth_error k i = Some y -> P x y.
Proof. induction 1; intros [|i] u v; cbn; try discriminate; [intros E1 E2; inversion E1; inversion E2; subst; auto|eauto]. Qed.
Lemma F2_of_nth {A B} (P : A -> B -> Prop) l : forall k, length l = length k -> (forall i x y, nth_error l i = Some x -> nth_error k i = Some y -> P x y) -> Forall2 P l k.
Proof.
  induction l as [|x l IH]; intros [|y k] L H; cbn in L; try discriminate; constructor; [apply (H 0); auto|]. apply IH; [lia|]. intros i u v Hu Hv. apply (H (S i)); auto.
Qed.
Lemma F2_len {A B} (P : A -> B -> Prop) l k : Forall2 P l k -> length l = length k. Proof. induction 1; cbn; auto. Qed.
Lemma match_cls m s f g : g_key g = key16 f -> g_bk g = bucket f -> match_at m s g = cls m s f.
Proof. intros E1 E2. unfold match_at, cls. rewrite E1, E2. f_equal. apply Nat.eqb_sym. Qed.
Definition csym m := cls_sym m. Definition ctr m := cls_trans m.

Lemma hinv_hit m ks gs s i g ks' : hinv m ks gs -> Forall (fun t => prefix (i_aggr (s_info t)) (i_aggr (s_info s))) ks ->
  nth_error gs i = Some g -> match_at m s g = true ->
  upd_l (g_ks g) (s_rec s) (i_aggr (s_info s)) (Nat.min (length (g_ks g)) (length (i_aggr (s_info s)))) = Some ks' ->
  hinv m (ks ++ [s]) (set_nth gs i (bump g ks')) /\ existsb (cls m s) ks = true.
Proof.
  intros H Hp Hi Hm Hu. unfold hinv in *. pose proof (F2_len _ _ _ H) as HL.
  destruct (nth_error (firsts (cls m) ks) i) as [f|] eqn:Hf.
  2: { apply nth_error_None in Hf. assert (i < length gs) by (apply nth_error_Some; congruence). lia. }
  pose proof (F2_nth _ _ _ H i f g Hf Hi) as (Gk & Gb & Gc & Gs).
  assert (Hc : cls m s f = true) by (rewrite <- (match_cls m s f g Gk Gb); auto).
  assert (Hin : In f (firsts (cls m) ks)) by (eapply nth_error_In; eauto).
  assert (Hx : existsb (cls m s) (firsts (cls m) ks) = true) by (apply existsb_exists; eauto).
  split; [|apply existsb_exists; exists f; split; auto; eapply firsts_in; eauto].
  rewrite firsts_snoc, Hx, app_nil_r. apply F2_of_nth; [rewrite set_nth_len; auto|].
  intros j x y Hx' Hy. destruct (Nat.eq_dec i j) as [<-|Hne].
  - rewrite set_nth_same in Hy by (apply nth_error_Some; congruence). inversion Hy; subst y. assert (x = f) by congruence. subst x.
    unfold grp_ok, bump. cbn [g_key g_bk g_cnt g_ks]. rewrite filter_app. cbn [filter]. rewrite (cls_sym m s f Hc). split; auto. split; auto. split.
    + rewrite Gc, app_length. cbn [length]. unfold wrap64. rewrite N.add_mod_idemp_l by discriminate. f_equal. lia.
    + rewrite Forall_forall in Hp. destruct (Hp f (firsts_in _ _ _ Hin)) as (rest & Er). rewrite Er in Hu. eapply kerns_ok_step; eauto.
  - rewrite set_nth_other in Hy by auto. pose proof (F2_nth _ _ _ H j x y Hx' Hy) as (A & B & C & D).
    assert (Hn : cls m x s = false).
    { destruct (cls m x s) eqn:E; auto. exfalso. apply Hne. refine (firsts_distinct (cls m) (cls_refl m) (cls_sym m) (cls_trans m) ks i j f x Hf Hx' _). apply cls_sym. exact (cls_trans m x s f E Hc). }
    unfold grp_ok. rewrite filter_app. cbn [filter]. rewrite Hn, app_nil_r. auto.
Qed.
Lemma hinv_new m ks gs s ks' : hinv m ks gs -> (forall g, In g gs -> match_at m s g = false) ->
  upd_l (repeat kern0 (length (i_aggr (s_info s)))) (s_rec s) (i_aggr (s_info s)) (length (i_aggr (s_info s))) = Some ks' ->
  hinv m (ks ++ [s]) (gs ++ [mkgrp (key16 s) (bucket s) (wrap64 (0 + 1)) ks']).
Proof.
  intros H Hno Hu. unfold hinv in *. pose proof (F2_len _ _ _ H) as HL.
  assert (Hf : forall f, In f (firsts (cls m) ks) -> cls m s f = false).
  { intros f Hf. apply In_nth_error in Hf as (i & Hi). destruct (nth_error gs i) as [g|] eqn:Hg.
    - pose proof (F2_nth _ _ _ H i f g Hi Hg) as (Gk & Gb & _). rewrite <- (match_cls m s f g Gk Gb). apply Hno. eapply nth_error_In; eauto.
    - apply nth_error_None in Hg. assert (i < length (firsts (cls m) ks)) by (apply nth_error_Some; congruence). lia. }
  assert (Hx : existsb (cls m s) (firsts (cls m) ks) = false).
  { destruct (existsb _ _) eqn:E; auto. apply existsb_exists in E as (f & A & B). rewrite Hf in B; auto. }
  rewrite firsts_snoc, Hx. apply Forall2_app.
  - apply F2_of_nth; auto. intros j x y Hxx Hy. pose proof (F2_nth _ _ _ H j x y Hxx Hy) as (A & B & C & D).
    assert (Hn : cls m x s = false). { destruct (cls m x s) eqn:E; auto. apply cls_sym in E. rewrite Hf in E; [discriminate|]. eapply nth_error_In; eauto. }
    unfold grp_ok. rewrite filter_app. cbn [filter]. rewrite Hn, app_nil_r. auto.
  - constructor; [|constructor]. unfold grp_ok. cbn [g_key g_bk g_cnt g_ks]. rewrite filter_app. cbn [filter]. rewrite cls_refl.
    rewrite (firsts_new (cls m) (cls_refl m) (cls_trans m) ks s Hx). cbn [app length]. split; auto. split; auto. split; auto.
    set (at_ := i_aggr (s_info s)) in *. assert (X := kerns_ok_step s (repeat kern0 (length at_)) at_ [] [] ks' (kerns_ok_0 at_)). rewrite app_nil_r, repeat_length, Nat.min_id in X. apply X. auto.
Qed.
