(* Merging partial results: kernel algebra *)
From Verif Require Import Base VariantModel VariantSpec NamesModel NamesProps TextModel TreeModel TreeProofs CaliFileModel CaliFileProofs2 CaliFileProofs3 CaliFileProofs4 FloatModel ArithSpec ArithProofs AggModel AggSpec AggSpec2 AggProofs AggProofs2 AggProofs3 AggProofs4 AggProofs5 AggProofs6 AggProofs7 AggProofs8.
From Coq Require Import Permutation Sorted.
Open Scope N_scope.

Lemma swrap_ok z : s64_ok (swrap z).
Proof. unfold swrap, s64_ok. assert (H := Z.mod_pos_bound (z + 9223372036854775808) 18446744073709551616 ltac:(lia)). lia. Qed.
Lemma wrap_ok n : u64_ok (wrap64 n).
Proof. unfold wrap64, u64_ok. apply N.mod_lt. discriminate. Qed.
(* associative on values of one type *)
Definition opa (op : value -> value -> value) : Prop :=
  (forall x, op VInv x = x) /\ forall t a s, isty t a -> isty t s -> isty t (op a s) /\ forall v, isty t v -> op a (op s v) = op (op a s) v.
Lemma vadd_opa : opa vadd.
Proof.
  split; [reflexivity|]. intros t a s Ha Hs. destruct t, a, s; cbn [isty] in Ha, Hs; try contradiction.
  - rewrite vadd_int by auto. split; [apply swrap_ok|]. intros v Hv. destruct v; cbn [isty] in Hv; try contradiction. rewrite !vadd_int by (auto using swrap_ok). rewrite swrap_add_l, swrap_add_r. f_equal. f_equal. lia.
  - rewrite vadd_uint by auto. split; [apply wrap_ok|]. intros v Hv. destruct v; cbn [isty] in Hv; try contradiction. rewrite !vadd_uint by (auto using wrap_ok). rewrite wrap_add_l, wrap_add_r. f_equal. f_equal. lia.
Qed.
Lemma vmin_opa : opa vmin.
Proof.
  split; [reflexivity|]. intros t a s Ha Hs. destruct t, a, s; cbn [isty] in Ha, Hs; try contradiction.
  - rewrite vmin_int by auto. split; [destruct (Z.min_spec z z0) as [(_ & ->)|(_ & ->)]; auto|]. intros v Hv. destruct v; cbn [isty] in Hv; try contradiction. rewrite (vmin_int z0), (vmin_int (Z.min z z0)) by auto. rewrite vmin_int; [f_equal; lia|]. destruct (Z.min_spec z0 z1) as [(_ & ->)|(_ & ->)]; auto.
  - rewrite vmin_uint by auto. split; [destruct (N.min_spec n n0) as [(_ & ->)|(_ & ->)]; auto|]. intros v Hv. destruct v; cbn [isty] in Hv; try contradiction. rewrite (vmin_uint n0), (vmin_uint (N.min n n0)) by auto. rewrite vmin_uint; [f_equal; lia|]. destruct (N.min_spec n0 n1) as [(_ & ->)|(_ & ->)]; auto.
Qed.
Lemma vmax_opa : opa vmax.
Proof.
  split; [reflexivity|]. intros t a s Ha Hs. destruct t, a, s; cbn [isty] in Ha, Hs; try contradiction.
  - rewrite vmax_int by auto. split; [destruct (Z.max_spec z z0) as [(_ & ->)|(_ & ->)]; auto|]. intros v Hv. destruct v; cbn [isty] in Hv; try contradiction. rewrite (vmax_int z0), (vmax_int (Z.max z z0)) by auto. rewrite vmax_int; [f_equal; lia|]. destruct (Z.max_spec z0 z1) as [(_ & ->)|(_ & ->)]; auto.
  - rewrite vmax_uint by auto. split; [destruct (N.max_spec n n0) as [(_ & ->)|(_ & ->)]; auto|]. intros v Hv. destruct v; cbn [isty] in Hv; try contradiction. rewrite (vmax_uint n0), (vmax_uint (N.max n n0)) by auto. rewrite vmax_uint; [f_equal; lia|]. destruct (N.max_spec n0 n1) as [(_ & ->)|(_ & ->)]; auto.
Qed.
Definition opt (v : value) : list value := if nonempty v then [v] else [].
Lemma isty_ne t v : isty t v -> nonempty v = true.
Proof. destruct t, v; cbn; auto; contradiction. Qed.
Lemma fold_typed op t vs : opa op -> Forall (isty t) vs -> forall a, isty t a -> isty t (fold_left op vs a) /\ forall b, isty t b -> op b (fold_left op vs a) = fold_left op vs (op b a).
Proof.
  intros (_ & Ho) F. induction F as [|v vs Hv F IH]; intros a Ha; cbn [fold_left]; [split; auto|].
  destruct (Ho t a v Ha Hv) as (H1 & _). destruct (IH _ H1) as (H2 & H3). split; auto. intros b Hb. rewrite H3 by auto. f_equal. destruct (Ho t b a Hb Ha) as (_ & H4). apply H4; auto.
Qed.
Lemma fold1_typed op t vs : opa op -> Forall (isty t) vs -> vs <> [] -> isty t (fold1 op vs).
Proof. intros Ho F Hn. destruct vs as [|v vs]; [congruence|]. apply Forall_cons_iff in F as (Hv & F). unfold fold1. cbn [fold_left]. rewrite (proj1 Ho). apply (fold_typed op t vs Ho F v Hv). Qed.
Lemma fold1_merge op t a b : opa op -> Forall (isty t) a -> Forall (isty t) b -> fold1 op (opt (fold1 op a) ++ opt (fold1 op b)) = fold1 op (a ++ b).
Proof.
  intros Ho Fa Fb. assert (E0 : opt (fold1 op []) = []) by reflexivity. destruct a as [|x a].
  - rewrite E0. cbn [app]. destruct b as [|y b]; [reflexivity|]. assert (T := fold1_typed op t (y :: b) Ho Fb ltac:(discriminate)). unfold opt. rewrite (isty_ne t) by auto. unfold fold1 at 1. cbn [fold_left]. apply (proj1 Ho).
  - assert (T := fold1_typed op t (x :: a) Ho Fa ltac:(discriminate)). unfold opt at 1. rewrite (isty_ne t) by auto. destruct b as [|y b].
    + rewrite E0, app_nil_r, app_nil_r. unfold fold1 at 1. cbn [fold_left]. apply (proj1 Ho).
    + assert (U := fold1_typed op t (y :: b) Ho Fb ltac:(discriminate)). unfold opt. rewrite (isty_ne t) by auto. cbn [app]. unfold fold1 at 1. cbn [fold_left]. rewrite (proj1 Ho).
      unfold fold1 at 3. change (x :: a ++ y :: b) with ((x :: a) ++ y :: b). rewrite fold_left_app. fold (fold1 op (x :: a)). cbn [fold_left]. apply Forall_cons_iff in Fb as (Hy & Fb). unfold fold1 at 2. cbn [fold_left]. rewrite (proj1 Ho). apply (fold_typed op t b Ho Fb y Hy). auto.
Qed.
(* ---------- closed forms of kernel states ---------- *)
Definition cnt1 (ms : list (nat * value)) : N := match ms with (_, v) :: _ => v_u64 v | [] => 1 end.
Definition acnt (p : nat * value) : N := match fst p with 0%nat => 1 | 1%nat => 0 | _ => v_u64 (snd p) end.
Definition asum (ps : list (nat * value)) : list value := flat_map (fun p => match fst p with 0%nat | 1%nat => [snd p] | _ => [] end) ps.
Definition mflat (l : list (bool * list (nat * value))) : list (nat * value) := flat_map snd l.
Lemma kfinal_count c l : match c with CCount | CScount _ _ => True | _ => False end -> kfinal c l = mkk (wrap64 (nsum (map (fun x => cnt1 (snd x)) l))) VInv VInv.
Proof.
  intro Hc. unfold kfinal. replace (k_init c) with (mkk (wrap64 0) VInv VInv) by (destruct c; try contradiction; reflexivity).
  assert (G : forall n, fold_left (fun k x => kupd c (fst x) (snd x) k) l (mkk (wrap64 n) VInv VInv) = mkk (wrap64 (n + nsum (map (fun x => cnt1 (snd x)) l))) VInv VInv).
  { induction l as [|(o, ms) l IH]; intro n; cbn [fold_left map fst snd].
    - cbn [nsum fold_right]. rewrite N.add_0_r. reflexivity.
    - replace (kupd c o ms (mkk (wrap64 n) VInv VInv)) with (mkk (wrap64 (n + cnt1 ms)) VInv VInv) by (destruct c; try contradiction; cbn [kupd k_n k_a k_b]; rewrite wrap_add_l; reflexivity).
      rewrite IH. cbn [nsum fold_right]. rewrite N.add_assoc. reflexivity. }
  rewrite G. reflexivity.
Qed.
Lemma kfinal_avg x l : kfinal (CAvg x) l = mkk (wrap64 (nsum (map acnt (mflat l)))) (fold1 vadd (asum (mflat l))) VInv.
Proof.
  unfold kfinal. change (k_init (CAvg x)) with (mkk (wrap64 0) VInv VInv).
  assert (M : forall o ms n a, fold_left (kupd1 (CAvg x) o) ms (mkk (wrap64 n) a VInv) = mkk (wrap64 (n + nsum (map acnt ms))) (fold_left vadd (asum ms) a) VInv).
  { intros o. induction ms as [|(r, v) ms IH]; intros n a; cbn [fold_left map].
    - cbn [nsum fold_right]. rewrite N.add_0_r. reflexivity.
    - unfold acnt at 1. unfold asum. cbn [flat_map fst snd nsum fold_right]. fold (asum ms). destruct r as [|[|r]]; cbn [kupd1 k_n k_a k_b app fold_left]; [rewrite wrap_add_l, IH|rewrite IH, N.add_0_l|rewrite wrap_add_l, IH]; try rewrite N.add_assoc; reflexivity. }
  assert (G : forall n a, fold_left (fun k y => kupd (CAvg x) (fst y) (snd y) k) l (mkk (wrap64 n) a VInv) = mkk (wrap64 (n + nsum (map acnt (mflat l)))) (fold_left vadd (asum (mflat l)) a) VInv).
  { induction l as [|(o, ms) l IH]; intros n a; cbn [fold_left mflat flat_map map fst snd].
    - cbn [nsum fold_right]. rewrite N.add_0_r. reflexivity.
    - cbn [kupd]. rewrite M, IH. rewrite map_app, nsum_app, N.add_assoc. unfold asum at 3. rewrite flat_map_app, fold_left_app. reflexivity. }
  rewrite G. reflexivity.
Qed.
Definition enc (c : kcfg) (k : kst) : list (nat * value) :=
  match c with
  | CCount | CScount _ _ => if 0 <? k_n k then [(1%nat, VUint (k_n k))] else []
  | CSum _ _ | CScale _ _ _ | CMin _ _ | CMax _ _ => if nonempty (k_a k) then [(1%nat, k_a k)] else []
  | CAvg _ => if 0 <? k_n k then [(1%nat, k_a k); (2%nat, VUint (k_n k))] else []
  | _ => []
  end.
Definition pk (c : kcfg) (l : list (bool * list (nat * value))) : list (bool * list (nat * value)) := match l with [] => [] | _ => [(true, enc c (kfinal c l))] end.
Definition gl (c : kcfg) (t : ty) (l : list (bool * list (nat * value))) : Prop :=
  match c with
  | CCount | CScount _ _ => Forall (fun x => 0 < cnt1 (snd x)) l /\ u64_ok (nsum (map (fun x => cnt1 (snd x)) l))
  | CSum _ _ | CScale _ _ _ | CMin _ _ | CMax _ _ => Forall (isty t) (map snd (mflat l))
  | CAvg _ => Forall (isty t) (asum (mflat l)) /\ u64_ok (nsum (map acnt (mflat l))) /\ Forall (fun x => nsum (map acnt (snd x)) = 0 <-> asum (snd x) = []) l
  | _ => False
  end.
Lemma pk_op c op l : k_init c = mkk 0 VInv VInv -> (forall own k p, kupd1 c own k p = mkk (k_n k) (op (k_a k) (snd p)) (k_b k)) -> (forall own ms k, kupd c own ms k = fold_left (kupd1 c own) ms k) ->
  (forall k, enc c k = if nonempty (k_a k) then [(1%nat, k_a k)] else []) -> map snd (mflat (pk c l)) = opt (fold1 op (map snd (mflat l))).
Proof.
  intros H0 H1 H2 H3. destruct l as [|x l]; [reflexivity|]. unfold pk, mflat at 1. cbn [flat_map snd]. rewrite app_nil_r, H3, (kfinal_op c op) by auto. cbn [k_a]. unfold opt. fold (mflat (x :: l)). destruct (nonempty (fold1 op (map snd (mflat (x :: l))))); reflexivity.
Qed.
Lemma mflat_app a b : mflat (a ++ b) = mflat a ++ mflat b.
Proof. apply flat_map_app. Qed.
Lemma kmerge_op c op t lA lB : opa op -> k_init c = mkk 0 VInv VInv -> (forall own k p, kupd1 c own k p = mkk (k_n k) (op (k_a k) (snd p)) (k_b k)) -> (forall own ms k, kupd c own ms k = fold_left (kupd1 c own) ms k) ->
  (forall k, enc c k = if nonempty (k_a k) then [(1%nat, k_a k)] else []) -> Forall (isty t) (map snd (mflat lA)) -> Forall (isty t) (map snd (mflat lB)) -> kfinal c (pk c lA ++ pk c lB) = kfinal c (lA ++ lB).
Proof.
  intros Ho H0 H1 H2 H3 FA FB. rewrite !(kfinal_op c op) by auto. f_equal. fold (mflat (pk c lA ++ pk c lB)). fold (mflat (lA ++ lB)). rewrite !mflat_app, !map_app, !(pk_op c op) by auto. apply (fold1_merge op t); auto.
Qed.
Lemma nsum_pos {A} (f : A -> N) l : l <> [] -> Forall (fun x => 0 < f x) l -> 0 < nsum (map f l).
Proof. intros Hn F. destruct F as [|x l Hx F]; [congruence|]. cbn [map nsum fold_right]. lia. Qed.
Lemma pk_count c t l : match c with CCount | CScount _ _ => True | _ => False end -> gl c t l -> nsum (map (fun x => cnt1 (snd x)) (pk c l)) = nsum (map (fun x => cnt1 (snd x)) l).
Proof.
  intros Hc H. destruct l as [|x l]; [reflexivity|]. assert (H' : Forall (fun x => 0 < cnt1 (snd x)) (x :: l) /\ u64_ok (nsum (map (fun x => cnt1 (snd x)) (x :: l)))) by (destruct c; try contradiction; exact H). destruct H' as (F & Hu).
  assert (P := nsum_pos _ (x :: l) ltac:(discriminate) F). unfold pk. rewrite kfinal_count by auto. rewrite (wrap_id _ Hu).
  replace (enc c _) with [(1%nat, VUint (nsum (map (fun x => cnt1 (snd x)) (x :: l))))]. 2:{ destruct c; try contradiction; cbn [enc k_n]; destruct (N.ltb_spec 0 (nsum (map (fun x => cnt1 (snd x)) (x :: l)))); auto; lia. }
  cbn [map snd]. unfold cnt1 at 1. rewrite v_u64_uint by exact Hu. cbn [nsum fold_right]. rewrite N.add_0_r. reflexivity.
Qed.
Lemma asum_app a b : asum (a ++ b) = asum a ++ asum b.
Proof. apply flat_map_app. Qed.
Lemma acnt_zero l : Forall (fun x => nsum (map acnt (snd x)) = 0 <-> asum (snd x) = []) l -> nsum (map acnt (mflat l)) = 0 <-> asum (mflat l) = [].
Proof.
  induction 1 as [|(o, ms) l H F IH]; cbn [mflat flat_map snd]; [split; reflexivity|]. cbn [snd] in H. rewrite map_app, nsum_app, asum_app. fold (mflat l). rewrite N.eq_add_0, H, IH. split; [intros (-> & ->); reflexivity|intro E; apply app_eq_nil in E; auto].
Qed.
Lemma pk_avg x t l : gl (CAvg x) t l -> nsum (map acnt (mflat (pk (CAvg x) l))) = nsum (map acnt (mflat l)) /\ asum (mflat (pk (CAvg x) l)) = opt (fold1 vadd (asum (mflat l))).
Proof.
  intros (F & Hu & Hz). apply acnt_zero in Hz. destruct l as [|y l]; [split; reflexivity|]. unfold pk. rewrite kfinal_avg. cbn [enc k_n k_a]. rewrite (wrap_id _ Hu). destruct (N.ltb_spec 0 (nsum (map acnt (mflat (y :: l))))) as [L|L].
  - unfold mflat at 1 3. cbn [flat_map snd app map]. unfold acnt at 1 2. cbn [fst snd]. rewrite v_u64_uint by exact Hu. cbn [nsum fold_right]. split; [rewrite N.add_0_l, N.add_0_r; reflexivity|]. unfold asum at 1. cbn [flat_map fst snd app]. unfold opt.
    rewrite (isty_ne t); auto. apply (fold1_typed vadd); auto using vadd_opa. intro E. apply Hz in E. lia.
  - assert (E : nsum (map acnt (mflat (y :: l))) = 0) by lia. rewrite E. split; [reflexivity|]. apply Hz in E. rewrite E. reflexivity.
Qed.
Lemma kmerge c t lA lB : gl c t lA -> gl c t lB -> kfinal c (pk c lA ++ pk c lB) = kfinal c (lA ++ lB).
Proof.
  intros HA HB. destruct c; try contradiction.
  - rewrite !kfinal_count by exact Logic.I. rewrite !map_app, !nsum_app, !(pk_count CCount t) by (auto; exact Logic.I). reflexivity.
  - rewrite !kfinal_count by exact Logic.I. rewrite !map_app, !nsum_app, !(pk_count (CScount arg scale) t) by (auto; exact Logic.I). reflexivity.
  - apply (kmerge_op _ vadd t); auto using vadd_opa. intros ? ? (? & ?); reflexivity.
  - apply (kmerge_op _ vadd t); auto using vadd_opa. intros ? ? (? & ?); reflexivity.
  - apply (kmerge_op _ vmin t); auto using vmin_opa. intros ? ? (? & ?); reflexivity.
  - apply (kmerge_op _ vmax t); auto using vmax_opa. intros ? ? (? & ?); reflexivity.
  - rewrite !kfinal_avg. rewrite !mflat_app, !map_app, !nsum_app, !asum_app. destruct (pk_avg x t lA HA) as (-> & ->). destruct (pk_avg x t lB HB) as (-> & ->). f_equal. apply (fold1_merge vadd t); auto using vadd_opa; [apply HA|apply HB].
Qed.
