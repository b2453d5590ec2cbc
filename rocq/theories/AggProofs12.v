(* Independence of the order of the records: minima and maxima of doubles *)
From Verif Require Import Base VariantModel VariantSpec VariantOrderProofs NamesModel NamesProps TextModel TreeModel TreeProofs CaliFileModel CaliFileProofs2 CaliFileProofs3 CaliFileProofs4 FloatModel ArithSpec ArithProofs ArithProps AggModel AggSpec AggSpec2 AggSpec3 AggProofs AggProofs2 AggProofs3 AggProofs4 AggProofs5 AggProofs6 AggProofs7 AggProofs8 AggProofs9 AggProofs10 AggProofs11.
From Coq Require Import Permutation Sorted.
Open Scope N_scope.

Section Dbl.
Context (bs : list N) (HN : Forall (fun b => dbl b <> DNan) bs) (HE : forall a b, In a bs -> In b bs -> dorder (dbl a) (dbl b) = Eq -> a = b).
Definition dset (v : value) : Prop := exists b, v = VDouble b /\ In b bs.
Definition dinv (v : value) : Prop := v = VInv \/ dset v.
Lemma nn b : In b bs -> dbl b <> DNan.
Proof. intro H. rewrite Forall_forall in HN. auto. Qed.
Lemma d_lt a b : In a bs -> In b bs -> dltb a b = true <-> dorder (dbl a) (dbl b) = Lt.
Proof. intros Ha Hb. apply dltb_lt; apply nn; auto. Qed.
Lemma d_asym a b : In a bs -> In b bs -> dltb a b = true -> dltb b a = false.
Proof.
  intros Ha Hb H. apply d_lt in H; auto. destruct (dltb b a) eqn:E; auto. apply d_lt in E; auto. rewrite (dorder_antisym _ _ (nn a Ha) (nn b Hb)), H in E. discriminate E.
Qed.
Lemma d_tri a b : In a bs -> In b bs -> dltb a b = false -> dltb b a = false -> a = b.
Proof.
  intros Ha Hb H1 H2. apply HE; auto. destruct (dorder (dbl a) (dbl b)) eqn:E; auto.
  - apply d_lt in E; auto. congruence.
  - assert (X : dorder (dbl b) (dbl a) = Lt) by (rewrite (dorder_antisym _ _ (nn a Ha) (nn b Hb)), E; reflexivity). apply d_lt in X; auto. congruence.
Qed.
Lemma d_trans a b c : In a bs -> In b bs -> In c bs -> dltb a b = true -> dltb b c = true -> dltb a c = true.
Proof. intros Ha Hb Hc H1 H2. apply d_lt in H1; auto. apply d_lt in H2; auto. apply d_lt; auto. eapply dorder_trans; [| | |exact H1|exact H2]; apply nn; auto. Qed.
Lemma v_f64_d b : v_f64 (VDouble b) = b.
Proof. reflexivity. Qed.
Lemma vmin_d a b : vmin (VDouble a) (VDouble b) = VDouble (if dltb b a then b else a).
Proof. reflexivity. Qed.
Lemma vmax_d a b : vmax (VDouble a) (VDouble b) = VDouble (if dltb a b then b else a).
Proof. reflexivity. Qed.
Ltac close3 a b c :=
  repeat match goal with
  | H : ?x = true, H' : ?x = false |- _ => rewrite H in H'; discriminate H'
  end; try reflexivity.
Lemma dmin_comm k x y : In k bs -> In x bs -> In y bs ->
  (let m := if dltb x k then x else k in if dltb y m then y else m) = (let m := if dltb y k then y else k in if dltb x m then x else m).
Proof.
  intros Hk Hx Hy. cbv zeta. destruct (dltb x k) eqn:Exk, (dltb y k) eqn:Eyk; rewrite ?Exk, ?Eyk; auto.
  - destruct (dltb y x) eqn:E1, (dltb x y) eqn:E2; auto; [rewrite (d_asym y x) in E2 by auto; discriminate E2|symmetry; apply d_tri; auto].
  - destruct (dltb y x) eqn:E1; auto. rewrite (d_trans y x k) in Eyk by auto. discriminate Eyk.
  - destruct (dltb x y) eqn:E1; auto. rewrite (d_trans x y k) in Exk by auto. discriminate Exk.
Qed.
Lemma dmax_comm k x y : In k bs -> In x bs -> In y bs ->
  (let m := if dltb k x then x else k in if dltb m y then y else m) = (let m := if dltb k y then y else k in if dltb m x then x else m).
Proof.
  intros Hk Hx Hy. cbv zeta. destruct (dltb k x) eqn:Exk, (dltb k y) eqn:Eyk; rewrite ?Exk, ?Eyk; auto.
  - destruct (dltb x y) eqn:E1, (dltb y x) eqn:E2; auto; [rewrite (d_asym x y) in E2 by auto; discriminate E2|apply d_tri; auto].
  - destruct (dltb x y) eqn:E1; auto. rewrite (d_trans k x y) in Eyk by auto. discriminate Eyk.
  - destruct (dltb y x) eqn:E1; auto. rewrite (d_trans k y x) in Exk by auto. discriminate Exk.
Qed.
Definition dopc (op : value -> value -> value) : Prop :=
  (forall k x, dinv k -> dset x -> dset (op k x)) /\ forall k x y, dinv k -> dset x -> dset y -> op (op k x) y = op (op k y) x.
Lemma vmin_dopc : dopc vmin.
Proof.
  split.
  - intros k x [->|(a & -> & Ha)] (b & -> & Hb); [exists b; auto|]. rewrite vmin_d. destruct (dltb b a); [exists b|exists a]; auto.
  - intros k x y [->|(a & -> & Ha)] (b & -> & Hb) (c & -> & Hc).
    + change (vmin (VDouble b) (VDouble c) = vmin (VDouble c) (VDouble b)). rewrite !vmin_d. f_equal. destruct (dltb c b) eqn:E1, (dltb b c) eqn:E2; auto; [rewrite (d_asym c b) in E2 by auto; discriminate E2|apply d_tri; auto].
    + rewrite !vmin_d. f_equal. apply dmin_comm; auto.
Qed.
Lemma vmax_dopc : dopc vmax.
Proof.
  split.
  - intros k x [->|(a & -> & Ha)] (b & -> & Hb); [exists b; auto|]. rewrite vmax_d. destruct (dltb a b); [exists b|exists a]; auto.
  - intros k x y [->|(a & -> & Ha)] (b & -> & Hb) (c & -> & Hc).
    + change (vmax (VDouble b) (VDouble c) = vmax (VDouble c) (VDouble b)). rewrite !vmax_d. f_equal. destruct (dltb c b) eqn:E1, (dltb b c) eqn:E2; auto; [rewrite (d_asym c b) in E2 by auto; discriminate E2|symmetry; apply d_tri; auto].
    + rewrite !vmax_d. f_equal. apply dmax_comm; auto.
Qed.
(* min and max are associative *)
Definition dopa (op : value -> value -> value) : Prop :=
  (forall x, op VInv x = x) /\ forall a s, dset a -> dset s -> dset (op a s) /\ forall v, dset v -> op a (op s v) = op (op a s) v.
Lemma vmin_dopa : dopa vmin.
Proof.
  split; [reflexivity|]. intros a s Ha Hs. destruct vmin_dopc as (M1 & M2). split; [apply M1; auto; right; auto|]. intros v Hv.
  assert (C : forall u w, dset u -> dset w -> vmin u w = vmin w u) by (intros u w Hu Hw; change (vmin (vmin VInv u) w = vmin (vmin VInv w) u); apply M2; auto; left; reflexivity).
  rewrite (C a (vmin s v)) by (auto; apply M1; auto; right; auto). rewrite M2 by (auto; right; auto). rewrite (C s a) by auto. reflexivity.
Qed.
Lemma vmax_dopa : dopa vmax.
Proof.
  split; [reflexivity|]. intros a s Ha Hs. destruct vmax_dopc as (M1 & M2). split; [apply M1; auto; right; auto|]. intros v Hv.
  assert (C : forall u w, dset u -> dset w -> vmax u w = vmax w u) by (intros u w Hu Hw; change (vmax (vmax VInv u) w = vmax (vmax VInv w) u); apply M2; auto; left; reflexivity).
  rewrite (C a (vmax s v)) by (auto; apply M1; auto; right; auto). rewrite M2 by (auto; right; auto). rewrite (C s a) by auto. reflexivity.
Qed.
Lemma dset_ne v : dset v -> nonempty v = true.
Proof. intros (b & -> & _). reflexivity. Qed.
Lemma foldd op vs : dopa op -> Forall dset vs -> forall a, dset a -> dset (fold_left op vs a) /\ forall b, dset b -> op b (fold_left op vs a) = fold_left op vs (op b a).
Proof.
  intros (_ & Ho) F. induction F as [|v vs Hv F IH]; intros a Ha; cbn [fold_left]; [split; auto|].
  destruct (Ho a v Ha Hv) as (H1 & _). destruct (IH _ H1) as (H2 & H3). split; auto. intros b Hb. rewrite H3 by auto. f_equal. destruct (Ho b a Hb Ha) as (_ & H4). apply H4; auto.
Qed.
Lemma foldd1 op vs : dopa op -> Forall dset vs -> vs <> [] -> dset (fold1 op vs).
Proof. intros Ho F Hn. destruct vs as [|v vs]; [congruence|]. apply Forall_cons_iff in F as (Hv & F). unfold fold1. cbn [fold_left]. rewrite (proj1 Ho). apply (foldd op vs Ho F v Hv). Qed.
Lemma foldd_merge op a b : dopa op -> Forall dset a -> Forall dset b -> fold1 op (opt (fold1 op a) ++ opt (fold1 op b)) = fold1 op (a ++ b).
Proof.
  intros Ho Fa Fb. assert (E0 : opt (fold1 op []) = []) by reflexivity. destruct a as [|x a].
  - rewrite E0. cbn [app]. destruct b as [|y b]; [reflexivity|]. assert (T := foldd1 op (y :: b) Ho Fb ltac:(discriminate)). unfold opt. rewrite dset_ne by auto. unfold fold1 at 1. cbn [fold_left]. apply (proj1 Ho).
  - assert (T := foldd1 op (x :: a) Ho Fa ltac:(discriminate)). unfold opt at 1. rewrite dset_ne by auto. destruct b as [|y b].
    + rewrite E0, app_nil_r, app_nil_r. unfold fold1 at 1. cbn [fold_left]. apply (proj1 Ho).
    + assert (U := foldd1 op (y :: b) Ho Fb ltac:(discriminate)). unfold opt. rewrite dset_ne by auto. cbn [app]. unfold fold1 at 1. cbn [fold_left]. rewrite (proj1 Ho).
      unfold fold1 at 3. change (x :: a ++ y :: b) with ((x :: a) ++ y :: b). rewrite fold_left_app. fold (fold1 op (x :: a)). cbn [fold_left]. apply Forall_cons_iff in Fb as (Hy & Fb). unfold fold1 at 2. cbn [fold_left]. rewrite (proj1 Ho). apply (foldd op b Ho Fb y Hy). auto.
Qed.
Lemma kmerge_d c lA lB : match c with CMin _ false | CMax _ false => True | _ => False end -> Forall dset (map snd (mflat lA)) -> Forall dset (map snd (mflat lB)) -> kfinal c (pk c lA ++ pk c lB) = kfinal c (lA ++ lB).
Proof.
  intros Hc FA FB.
  assert (G : forall op, dopa op -> k_init c = mkk 0 VInv VInv -> (forall own k p, kupd1 c own k p = mkk (k_n k) (op (k_a k) (snd p)) (k_b k)) -> (forall own ms k, kupd c own ms k = fold_left (kupd1 c own) ms k) ->
    (forall k, enc c k = if nonempty (k_a k) then [(1%nat, k_a k)] else []) -> kfinal c (pk c lA ++ pk c lB) = kfinal c (lA ++ lB)).
  { intros op Ho H0 H1 H2 H3. rewrite !(kfinal_op c op) by auto. f_equal. fold (mflat (pk c lA ++ pk c lB)). fold (mflat (lA ++ lB)). rewrite !mflat_app, !map_app, !(pk_op c op) by auto. apply foldd_merge; auto. }
  destruct c; try contradiction; destruct incl; try contradiction; [apply (G vmin); auto using vmin_dopa|apply (G vmax); auto using vmax_dopa]; intros ? ? (? & ?); reflexivity.
Qed.
Definition mm (c : kcfg) : bool := match c with CMin _ _ | CMax _ _ => true | _ => false end.
Lemma kfinal_perm_d c l l' : mm c = true -> Permutation l l' -> Forall (fun x => Forall (fun p => dset (snd p)) (snd x)) l -> kfinal c l = kfinal c l'.
Proof.
  intros Hm HP F. rewrite !kfinal_flat by (destruct c; try discriminate Hm; reflexivity). destruct vmin_dopc as (Mi & Mc), vmax_dopc as (Xi & Xc).
  apply (fold_comm (fun k x => kupd1 c (fst x) k (snd x)) (fun k => dinv (k_a k)) (fun x : bool * (nat * value) => dset (snd (snd x)))).
  - intros s (o & r & v) Hs Hx. destruct c; try discriminate Hm; cbn [kupd1 k_a fst snd] in *; right; auto.
  - intros s (o & r & v) (o' & r' & v') Hs Hx Hy. destruct c; try discriminate Hm; cbn [kupd1 k_n k_a k_b fst snd] in *; f_equal; auto.
  - apply perm_flat_map; auto.
  - clear - F. induction F as [|(o, ms) l H F IH]; cbn [flat flat_map]; [constructor|]. apply Forall_app. split; auto. cbn [fst snd] in *. clear - H. induction H; cbn [map]; constructor; auto.
  - destruct c; try discriminate Hm; left; reflexivity.
Qed.
End Dbl.
Lemma contrib_forall (P : nat * value -> Prop) d q c K recs : Forall (fun r => Forall P (smatch c d r)) recs -> Forall (fun x => Forall P (snd x)) (flat_map (contrib d q c K) recs).
Proof.
  intro F. apply fm_forall. eapply Forall_impl; [|exact F]. cbn beta. intros r Hr. unfold contrib. destruct (gkey_eq_dec K (key_of d q r)); [constructor; auto|]. destruct (encl_dec K (key_of d q r)); [|constructor]. destruct (is_incl c && matched (smatch c d r)); constructor; auto.
Qed.
Lemma double_matches d recs c x ks : wf d -> size_ok d -> Forall (Forall (entry_ok d)) recs -> (forall x, In x (kattrs c) -> no_target c = false -> get_attr d (fst x) <> None) ->
  no_target c = false -> by_attribute c = false -> kattrs c = [(x, ks)] -> comparable_doubles (flat_map (vals d (x :: map ka_name ks)) recs) ->
  exists bs, Forall (fun b => dbl b <> DNan) bs /\ (forall a b, In a bs -> In b bs -> dorder (dbl a) (dbl b) = Eq -> a = b) /\ Forall (fun r => Forall (fun p => dset bs (snd p)) (smatch c d r)) recs.
Proof.
  intros Hw Hs F HT Hn Hb Hk (bs & E & HN & HE). exists bs. split; auto. split; auto.
  assert (Ht : Forall (dset bs) (flat_map (vals d (x :: map ka_name ks)) recs)). { rewrite E. apply map_forall. apply Forall_forall. intros b Hb'. exists b. auto. }
  apply fm_forall in Ht. apply Forall_forall. intros r Hr. rewrite Forall_forall in Ht, F. specialize (Ht r Hr). rewrite <- (smatch_vals c x ks d r) in Ht; auto; [apply (proj1 (map_forall (dset bs) snd (smatch c d r))); exact Ht|]. apply (HT (x, ks)); auto. rewrite Hk. left. auto.
Qed.
Lemma kfinal_any d q c K recs recs' : wf d -> size_ok d -> Forall (Forall (entry_ok d)) recs -> (forall x, In x (kattrs c) -> no_target c = false -> get_attr d (fst x) <> None) -> order_free d recs c -> Permutation recs recs' ->
  kfinal c (flat_map (contrib d q c K) recs) = kfinal c (flat_map (contrib d q c K) recs') /\ total d c recs = total d c recs'.
Proof.
  intros Hw Hs F HT [HI|HD] HP.
  - destruct (integral_okp d recs c Hw Hs F HT HI) as (Ho & t & u & Hok). split; [|eapply total_perm; eauto]. apply (kfinal_perm c t u); auto; [apply perm_flat_map; auto|apply contrib_okp; auto].
  - assert (X : exists bs, mm c = true /\ Forall (fun b => dbl b <> DNan) bs /\ (forall a b, In a bs -> In b bs -> dorder (dbl a) (dbl b) = Eq -> a = b) /\ Forall (fun r => Forall (fun p => dset bs (snd p)) (smatch c d r)) recs).
    { destruct c as [|? ?|? ?|? ? ?|x i|x i|?|? ? ? ?|? ?|?|?]; try contradiction.
      - edestruct (double_matches d recs (CMin x i)) as (bs & H); [exact Hw|exact Hs|exact F|exact HT|reflexivity|reflexivity|reflexivity|exact HD|]. exists bs. auto.
      - edestruct (double_matches d recs (CMax x i)) as (bs & H); [exact Hw|exact Hs|exact F|exact HT|reflexivity|reflexivity|reflexivity|exact HD|]. exists bs. auto. }
    destruct X as (bs & Hm & HN & HE & HM). split.
    + apply (kfinal_perm_d bs HN HE); auto; [apply perm_flat_map; auto|apply contrib_forall; auto].
    + assert (X : forall (l : list (list entry)) v, fold_left (fun (t : value) (_ : list entry) => t) l v = v) by (clear; induction l; cbn; auto). unfold total. destruct c; try discriminate Hm; cbn [ktot]; rewrite !X; reflexivity.
Qed.
Theorem order_ok_free q d0 recs1 recs2 out1 out2 d1 d2 : wf d0 -> Forall (Forall (entry_ok d0)) recs1 -> targets_known d0 q -> Forall (order_free d0 recs1) (q_ker q) -> Permutation recs1 recs2 ->
  aggregated q recs1 out1 d1 -> grow d0 d1 -> aggregated q recs2 out2 d2 -> grow d0 d2 ->
  exists G1 G2, is_output d1 q recs1 out1 G1 /\ is_output d2 q recs2 out2 G2 /\ Permutation (map gp_key G1) (map gp_key G2) /\
    forall x1 x2, In x1 G1 -> In x2 G2 -> gp_key x1 = gp_key x2 -> Forall2 (fun es1 es2 => exists rs, named d1 rs es1 /\ named d2 rs es2) (gp_res x1) (gp_res x2).
Proof.
  intros Hw0 F1 HT HI HP A1 Gr1 A2 Gr2. destruct (aggregated_ok _ _ _ _ A1) as (Hw1 & Hs1 & _ & G1 & HG1). destruct (aggregated_ok _ _ _ _ A2) as (Hw2 & Hs2 & _ & G2 & HG2).
  assert (F2 : Forall (Forall (entry_ok d0)) recs2) by (eapply Permutation_Forall; eauto). assert (Hs0 := size_dext _ _ (gr_ext _ _ Gr1) Hs1).
  exists G1, G2. split; auto. split; auto. destruct HG1 as (E1 & N1 & P1 & O1). destruct HG2 as (E2 & N2 & P2 & O2). split.
  - apply NoDup_Permutation; auto. intro K. rewrite P1, P2, (present_grow d0 d1), (present_grow d0 d2) by auto. split; apply present_perm; auto. apply Permutation_sym; auto.
  - intros x1 x2 H1 H2 EK. rewrite Forall_forall in O1, O2. destruct (O1 x1 H1) as (_ & _ & R1). destruct (O2 x2 H2) as (_ & _ & R2). rewrite EK in R1. clear O1 O2 E1 E2 N1 N2 P1 P2 EK H1 H2.
    assert (HT' : forall c, In c (q_ker q) -> forall x, In x (kattrs c) -> no_target c = false -> get_attr d0 (fst x) <> None) by (intros; eapply HT; eauto). clear HT.
    assert (L1 : Forall (Forall (entry_ok d1)) recs1) by (eapply Forall_impl; [|exact F1]; intros r Hr; exact (entries_grow d0 d1 r Hw0 Hs1 Gr1 Hr)).
    assert (L2 : Forall (Forall (entry_ok d2)) recs2) by (eapply Forall_impl; [|exact F2]; intros r Hr; exact (entries_grow d0 d2 r Hw0 Hs2 Gr2 Hr)).
    revert R1 R2 HI HT'. generalize (gp_res x1), (gp_res x2). generalize (q_ker q). clear x1.
    intros cs l1 l2 R1. revert l2. induction R1 as [|c es1 cs l1 (c1 & rs1 & C1 & K1 & Na1) R1 IH]; intros l2 R2 HI HT'; inversion R2 as [|? es2 ? l2' (c2 & rs2 & C2 & K2 & Na2) R2']; subst; constructor.
    + apply Forall_cons_iff in HI as (HI & _). assert (HTc := HT' c (or_introl eq_refl)).
      apply collect_contrib in C1; auto. apply collect_contrib in C2; auto. rewrite (contribs_grow d0 d1) in C1 by auto. rewrite (contribs_grow d0 d2) in C2 by auto.
      destruct (kfinal_any d0 q c (gp_key x2) recs1 recs2 Hw0 Hs0 F1 HTc HI HP) as (EF & ET0).
      assert (ET : total d1 c recs1 = total d2 c recs2). { rewrite (total_grow d0 d1), (total_grow d0 d2) by auto. exact ET0. }
      subst c1 c2. rewrite EF, ET, K2 in K1. injection K1 as ->. eauto.
    + apply Forall_cons_iff in HI as (_ & HI). apply IH; auto. intros. eapply HT'; [right; eauto|eauto|auto].
Qed.
Lemma free_mk1 d recs c : merge_free d recs c -> mk1 c.
Proof. intros [H|H]; [eapply mergeable_mk1; eauto|]. destruct c; try contradiction; destruct incl; try contradiction; exact Logic.I. Qed.
Lemma kmerge_free d q recsA recsB c K : wf d -> size_ok d -> Forall (Forall (entry_ok d)) (recsA ++ recsB) -> (forall x, In x (kattrs c) -> no_target c = false -> get_attr d (fst x) <> None) -> merge_free d (recsA ++ recsB) c ->
  kfinal c (pk c (flat_map (contrib d q c K) recsA) ++ pk c (flat_map (contrib d q c K) recsB)) = kfinal c (flat_map (contrib d q c K) recsA ++ flat_map (contrib d q c K) recsB).
Proof.
  intros Hw Hs F HT HM. assert (G : mergeable d (recsA ++ recsB) c -> kfinal c (pk c (flat_map (contrib d q c K) recsA) ++ pk c (flat_map (contrib d q c K) recsB)) = kfinal c (flat_map (contrib d q c K) recsA ++ flat_map (contrib d q c K) recsB)).
  { intro Hm. destruct (gl_ok d q (recsA ++ recsB) c Hw Hs F HT Hm) as (t & Hgl). apply (kmerge c t); apply Hgl; auto using incl_appl, incl_appr, incl_refl; intro f; [apply nsum_le_l|apply nsum_le_r]. }
  destruct HM as [Hm|Ho]; [auto|].
  assert (X : (match c with CMin _ false | CMax _ false => True | _ => False end) /\ (mergeable d (recsA ++ recsB) c \/ exists bs, Forall (fun b => dbl b <> DNan) bs /\ (forall a b, In a bs -> In b bs -> dorder (dbl a) (dbl b) = Eq -> a = b) /\ Forall (fun r => Forall (fun p => dset bs (snd p)) (smatch c d r)) (recsA ++ recsB))).
  { destruct c as [|? ?|? ?|? ? ?|x i|x i|?|? ? ? ?|? ?|?|?]; try contradiction; (destruct i; [contradiction|]); (split; [exact Logic.I|]); (destruct Ho as [Ho|Ho]; [left; exact Ho|right]).
    - apply (double_matches d (recsA ++ recsB) (CMin x false) x [mkka 1 (p_min ++ x) None AGGPROP]); auto.
    - apply (double_matches d (recsA ++ recsB) (CMax x false) x [mkka 1 (p_max ++ x) None AGGPROP]); auto. }
  destruct X as (Hc & [Hm|(bs & HN & HE & HD)]); [auto|]. apply Forall_app in HD as (HA & HB).
  assert (Y : forall recs, Forall (fun r => Forall (fun p => dset bs (snd p)) (smatch c d r)) recs -> Forall (dset bs) (map snd (mflat (flat_map (contrib d q c K) recs)))).
  { intros recs H. apply map_forall. unfold mflat. apply fm_forall. apply contrib_forall. exact H. }
  apply (kmerge_d bs HN HE); auto.
Qed.
Theorem merge_ok_free q d0 recsA recsB outA outB outM outT dA dB dM dT :
  wf d0 -> Forall (Forall (entry_ok d0)) (recsA ++ recsB) -> targets_known d0 q -> Forall (merge_free d0 (recsA ++ recsB)) (q_ker q) -> separated dM q (recsA ++ recsB) ->
  aggregated q recsA outA dA -> grow d0 dA -> aggregated q recsB outB dB -> grow d0 dB ->
  aggregated q (outA ++ outB) outM dM -> grow dA dM -> grow dB dM ->
  aggregated q (recsA ++ recsB) outT dT -> grow d0 dT ->
  exists GM GT, is_output dM q (outA ++ outB) outM GM /\ is_output dT q (recsA ++ recsB) outT GT /\ Permutation (map gp_key GM) (map gp_key GT) /\
    forall x y, In x GM -> In y GT -> gp_key x = gp_key y -> Forall2 (fun es1 es2 => exists rs, named dM rs es1 /\ named dT rs es2) (gp_res x) (gp_res y).
Proof.
  intros Hw0 F0 HT HM Hsep AA G0A AB G0B AM GAM GBM AT G0T.
  destruct (aggregated_ok _ _ _ _ AA) as (HwA & HsA & _ & GA & HGA). destruct (aggregated_ok _ _ _ _ AB) as (HwB & HsB & _ & GB & HGB).
  destruct (aggregated_ok _ _ _ _ AM) as (HwM & HsM & FM & GM & HGM). destruct (aggregated_ok _ _ _ _ AT) as (HwT & HsT & FT & GT & HGT).
  assert (Hs0 := size_dext _ _ (gr_ext _ _ G0A) HsA).
  apply Forall_app in FM as FM2. destruct FM2 as (FMA & FMB). apply Forall_app in F0 as F02. destruct F02 as (F0A & F0B).
  assert (Hm : Forall mk1 (q_ker q)) by (eapply Forall_impl; [|exact HM]; intros c Hc; eapply free_mk1; eauto).
  exists GM, GT. split; auto. split; auto. 
  assert (PA := part_present q d0 dA dM recsA outA GA Hw0 HwA G0A GAM HsM F0A HT Hm HGA). assert (PB := part_present q d0 dB dM recsB outB GB Hw0 HwB G0B GBM HsM F0B HT Hm HGB).
  assert (KA : forall x, In x GA -> key_of dM q (orec x) = gp_key x) by (intros x Hx; exact (part_key q d0 dA dM recsA (recsA ++ recsB) outA GA Hw0 HwA HwM G0A GAM HsM F0A HT Hsep Hm HGA FMA x Hx)).
  assert (KB : forall x, In x GB -> key_of dM q (orec x) = gp_key x) by (intros x Hx; exact (part_key q d0 dB dM recsB (recsA ++ recsB) outB GB Hw0 HwB HwM G0B GBM HsM F0B HT Hsep Hm HGB FMB x Hx)).
  split.
  - destruct HGM as (_ & NM & PM & _). destruct HGT as (_ & NT & PT & _). apply NoDup_Permutation; auto. intro K. rewrite PM, PT, (present_grow d0 dT) by auto.
    assert (QM : group_present dM q (outA ++ outB) K <-> exists r, In r (outA ++ outB) /\ key_of dM q r = K).
    { rewrite Forall_forall in FM, Hm. split.
      - intros (r & K' & Hr & HK & [->|(_ & c & Hc & Hi & _)]); [|rewrite (mk1_plain c) in Hi by auto; discriminate]. exists r. split; auto. apply group_key_of; auto.
      - intros (r & Hr & HK). exists r, K. split; auto. split; [apply group_key_of; auto|left; auto]. }
    assert (QT : group_present d0 q (recsA ++ recsB) K <-> exists r, In r (recsA ++ recsB) /\ key_of d0 q r = K).
    { rewrite Forall_forall in F0, Hm. split.
      - intros (r & K' & Hr & HK & [->|(_ & c & Hc & Hi & _)]); [|rewrite (mk1_plain c) in Hi by auto; discriminate]. exists r. split; auto. apply group_key_of; auto.
      - intros (r & Hr & HK). exists r, K. split; auto. split; [apply group_key_of; auto|left; auto]. }
    rewrite QM, QT. assert (EA : outA = map orec GA) by (destruct HGA as (E & _); exact E). assert (EB : outB = map orec GB) by (destruct HGB as (E & _); exact E). split.
    + intros (r & Hr & HK). apply in_app_or in Hr as [Hr|Hr].
      * rewrite EA in Hr. apply in_map_iff in Hr as (x & <- & Hx). rewrite KA in HK by auto. subst K. destruct (proj1 (PA (gp_key x)) (in_map gp_key GA x Hx)) as (r & Hr & HK). exists r. split; auto. apply in_or_app. auto.
      * rewrite EB in Hr. apply in_map_iff in Hr as (x & <- & Hx). rewrite KB in HK by auto. subst K. destruct (proj1 (PB (gp_key x)) (in_map gp_key GB x Hx)) as (r & Hr & HK). exists r. split; auto. apply in_or_app. auto.
    + intros (r & Hr & HK). apply in_app_or in Hr as [Hr|Hr].
      * assert (X : In K (map gp_key GA)) by (apply PA; eauto). apply in_map_iff in X as (x & <- & Hx). exists (orec x). split; [|auto]. apply in_or_app. left. rewrite EA. apply in_map. auto.
      * assert (X : In K (map gp_key GB)) by (apply PB; eauto). apply in_map_iff in X as (x & <- & Hx). exists (orec x). split; [|auto]. apply in_or_app. right. rewrite EB. apply in_map. auto.
  - intros x y Hx Hy EK. destruct HGM as (_ & _ & _ & OM). destruct HGT as (_ & _ & _ & OT). rewrite Forall_forall in OM, OT. destruct (OM x Hx) as (_ & _ & RM). destruct (OT y Hy) as (_ & _ & RT). rewrite EK in RM.
    assert (L1 := F2_len _ _ _ RM). assert (L2 := F2_len _ _ _ RT).
    assert (PT : forall j es1 es2, nth_error (gp_res x) j = Some es1 -> nth_error (gp_res y) j = Some es2 -> exists rs, named dM rs es1 /\ named dT rs es2).
    { intros j es1 es2 H1 H2. destruct (F2_nth_ex _ _ _ RM j es1 H1) as (c & Hc & l1 & rs1 & C1 & K1 & N1). destruct (F2_nth _ _ _ RT j c es2 Hc H2) as (l2 & rs2 & C2 & K2 & N2).
      assert (HcI := nth_error_In _ _ Hc). rewrite Forall_forall in HM, Hm. assert (HTc : forall z, In z (kattrs c) -> no_target c = false -> get_attr d0 (fst z) <> None) by (intros; eapply HT; eauto).
      apply collect_contrib in C1; auto. apply collect_contrib in C2; auto. rewrite (contribs_grow d0 dT) in C2 by auto. rewrite flat_map_app in C1, C2.
      rewrite (out_contribs q d0 dA dM recsA (recsA ++ recsB) outA GA Hw0 HwA HwM G0A GAM HsM F0A HT Hsep (incl_appl _ (incl_refl _)) (proj2 (Forall_forall _ _) Hm) HGA FMA _ c j Hc) in C1.
      rewrite (out_contribs q d0 dB dM recsB (recsA ++ recsB) outB GB Hw0 HwB HwM G0B GBM HsM F0B HT Hsep (incl_appr _ (incl_refl _)) (proj2 (Forall_forall _ _) Hm) HGB FMB _ c j Hc) in C1.
      assert (EF : kfinal c l1 = kfinal c l2) by (subst l1 l2; apply (kmerge_free d0 q recsA recsB c (gp_key y)); auto).
      assert (EK2 : kresult c (total dM c (outA ++ outB)) (kfinal c l1) = kresult c (total dT c (recsA ++ recsB)) (kfinal c l2)). { rewrite EF. specialize (Hm c HcI). destruct c; try contradiction; reflexivity. }
      rewrite EK2, K2 in K1. injection K1 as ->. eauto. }
    clear - L1 L2 PT. assert (L : length (gp_res x) = length (gp_res y)) by congruence. clear L1 L2. revert PT L. generalize (gp_res x), (gp_res y). induction l as [|a l IH]; intros [|b m] PT L; try discriminate; constructor.
    + apply (PT 0%nat); reflexivity.
    + apply IH; [|cbn in L; lia]. intros j. apply (PT (S j)).
Qed.
