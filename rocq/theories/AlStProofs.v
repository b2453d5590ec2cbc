From Verif Require Import Base AlStModel AlStSpec.
From Coq Require Import Lia Permutation.
Open Scope Z_scope.

(* ---------- maps ---------- *)
Lemma mfind_put {A} (m : list (N * A)) k x k' : mfind (mput m k x) k' = if N.eqb k k' then Some x else mfind m k'.
Proof.
  unfold mfind. induction m as [|e m IH]; cbn [mput find option_map fst].
  - destruct (N.eqb k k'); reflexivity.
  - destruct (N.eqb_spec (fst e) k) as [->|Hn]; cbn [find option_map fst].
    + destruct (N.eqb_spec k k') as [->|Hk]; [reflexivity|]. reflexivity.
    + destruct (N.eqb_spec (fst e) k') as [E|Hk]; [|exact IH]. destruct (N.eqb_spec k k'); [congruence|]. reflexivity.
Qed.
Lemma mfind_in {A} (m : list (N * A)) k x : mfind m k = Some x -> In (k, x) m.
Proof.
  unfold mfind. destruct (find (fun e => N.eqb (fst e) k) m) as [[k' y]|] eqn:E; [|discriminate]. cbn. intro H. injection H as ->.
  apply find_some in E as [E1 E2]. apply N.eqb_eq in E2. cbn in E2. subst k'. exact E1.
Qed.
Lemma mfind_none {A} (m : list (N * A)) k : mfind m k = None -> ~ In k (map fst m).
Proof.
  unfold mfind. destruct (find (fun e => N.eqb (fst e) k) m) eqn:E; [discriminate|]. intros _ H. apply in_map_iff in H as (e & He & Hi).
  pose proof (find_none _ _ E e Hi) as Hf. cbn in Hf. rewrite He, N.eqb_refl in Hf. discriminate.
Qed.
Lemma mfind_nodup {A} (m : list (N * A)) k x : NoDup (map fst m) -> In (k, x) m -> mfind m k = Some x.
Proof.
  unfold mfind. induction m as [|e m IH]; intros Hn Hi; [destruct Hi|]. cbn [map] in Hn. inversion Hn as [|? ? H1 H2]; subst. cbn [find].
  destruct Hi as [->|Hi]; [cbn [fst]; rewrite N.eqb_refl; reflexivity|].
  destruct (N.eqb_spec (fst e) k) as [E|_]; [|apply IH; assumption]. exfalso. apply H1. rewrite E. apply (in_map fst) in Hi. exact Hi.
Qed.
Lemma mput_absent {A} (m : list (N * A)) k x : mfind m k = None -> mput m k x = m ++ [(k, x)].
Proof.
  intro H. apply mfind_none in H. induction m as [|e m IH]; [reflexivity|]. cbn [mput map app] in *.
  destruct (N.eqb_spec (fst e) k) as [E|_]; [exfalso; apply H; left; exact E|]. rewrite IH; [reflexivity|intro; apply H; right; assumption].
Qed.
Lemma mdel_find {A} (m : list (N * A)) k k' : mfind (mdel m k) k' = if N.eqb k k' then None else mfind m k'.
Proof.
  unfold mfind, mdel. induction m as [|e m IH]; cbn [filter find]; [destruct (N.eqb k k'); reflexivity|].
  destruct (N.eqb_spec (fst e) k) as [E|Hn]; cbn [negb find].
  - rewrite IH. destruct (N.eqb_spec k k') as [->|Hk]; [reflexivity|]. destruct (N.eqb_spec (fst e) k'); [congruence|reflexivity].
  - destruct (N.eqb_spec (fst e) k') as [E|Hk]; [|exact IH]. destruct (N.eqb_spec k k'); [congruence|reflexivity].
Qed.
Lemma mdel_nodup {A} (m : list (N * A)) k : NoDup (map fst m) -> NoDup (map fst (mdel m k)).
Proof.
  unfold mdel. induction m as [|e m IH]; cbn [filter map]; intro H; [constructor|]. inversion H as [|? ? H1 H2]; subst.
  destruct (negb (N.eqb (fst e) k)); [|apply IH, H2]. cbn [map]. constructor; [|apply IH, H2].
  intro Hc. apply H1. apply in_map_iff in Hc as (x & Hx & Hi). apply filter_In in Hi as [Hi _]. rewrite <- Hx. apply in_map, Hi.
Qed.
Lemma mdel_absent {A} (m : list (N * A)) k : ~ In k (map fst m) -> mdel m k = m.
Proof.
  unfold mdel. induction m as [|e m IH]; cbn [filter map]; intro H; [reflexivity|].
  destruct (N.eqb_spec (fst e) k) as [E|_]; [exfalso; apply H; left; exact E|]. cbn [negb]. rewrite IH; [reflexivity|intro; apply H; right; assumption].
Qed.
Lemma mdel_perm {A} (m : list (N * A)) k x : NoDup (map fst m) -> mfind m k = Some x -> Permutation m ((k, x) :: mdel m k).
Proof.
  unfold mfind, mdel. induction m as [|e m IH]; cbn [filter map find]; intros Hn Hf; [discriminate|]. inversion Hn as [|? ? H1 H2]; subst.
  destruct (N.eqb_spec (fst e) k) as [E|E]; cbn [negb].
  - cbn in Hf. injection Hf as <-. fold (mdel m k). rewrite mdel_absent by (rewrite <- E; exact H1). destruct e; cbn in *; subst. reflexivity.
  - rewrite (IH H2 Hf) at 1. apply perm_swap.
Qed.

(* ---------- threads ---------- *)
Lemma lset_same {A} (l : list A) i x y : nth_error l i = Some y -> nth_error (lset l i x) i = Some x.
Proof. revert i. induction l as [|z l IH]; intros [|i] H; try discriminate; [reflexivity|apply IH, H]. Qed.
Lemma lset_other {A} (l : list A) i j x : i <> j -> nth_error (lset l i x) j = nth_error l j.
Proof. revert i j. induction l as [|z l IH]; intros [|i] [|j] H; try reflexivity; [congruence|]. cbn. apply IH. congruence. Qed.
Lemma lset_inv {A} (l : list A) i j x y : nth_error (lset l i x) j = Some y -> (i = j /\ y = x) \/ (i <> j /\ nth_error l j = Some y).
Proof.
  destruct (Nat.eq_dec i j) as [->|Hn]; [|rewrite lset_other by exact Hn; auto].
  intro H. left. split; [reflexivity|]. destruct (nth_error l j) as [z|] eqn:E; [rewrite (lset_same l j x z E) in H; congruence|].
  exfalso. apply nth_error_None in E. assert (L : length (lset l j x) = length l). { clear. revert j. induction l as [|z l IH]; intros [|j]; cbn; try reflexivity. f_equal. apply IH. }
  assert (nth_error (lset l j x) j <> None) by congruence. apply nth_error_Some in H0. lia.
Qed.
(* the pending events of the threads *)
Fixpoint pends {B} (f : nat -> apc -> list B) (k : nat) (l : list apc) : list B :=
  match l with [] => [] | pc :: r => f k pc ++ pends f (S k) r end.
Lemma pends_split {B} (f : nat -> apc -> list B) l : forall i k pc, nth_error l i = Some pc ->
  exists rest, Permutation (pends f k l) (f (k + i)%nat pc ++ rest) /\ forall x, Permutation (pends f k (lset l i x)) (f (k + i)%nat x ++ rest).
Proof.
  induction l as [|y l IH]; intros [|i] k pc H; try discriminate; cbn [nth_error] in H; cbn [pends lset].
  - injection H as ->. exists (pends f (S k) l). rewrite Nat.add_0_r. split; [reflexivity|intro x; reflexivity].
  - destruct (IH i (S k) pc H) as (rest & P1 & P2). exists (f k y ++ rest). rewrite <- Nat.add_succ_comm. split.
    + rewrite P1. rewrite !app_assoc. apply Permutation_app_tail, Permutation_app_comm.
    + intro x. rewrite (P2 x). rewrite !app_assoc. apply Permutation_app_tail, Permutation_app_comm.
Qed.
Lemma pends_in {B} (f : nat -> apc -> list B) l : forall k b, In b (pends f k l) -> exists i pc, nth_error l i = Some pc /\ In b (f (k + i)%nat pc).
Proof.
  induction l as [|y l IH]; intros k b H; [destruct H|]. cbn [pends] in H. apply in_app_or in H as [H|H].
  - exists O, y. rewrite Nat.add_0_r. split; [reflexivity|exact H].
  - destruct (IH (S k) b H) as (i & pc & E & Hi). exists (S i), pc. split; [exact E|]. rewrite <- Nat.add_succ_comm. exact Hi.
Qed.
Lemma pends_idle {B} (f : nat -> apc -> list B) l : (forall k, f k Idle = []) -> Forall (fun pc => pc = Idle) l -> forall k, pends f k l = [].
Proof. intros H F. induction F as [|x l -> F IH]; intro k; [reflexivity|]. cbn [pends]. rewrite H, IH. reflexivity. Qed.

(* ---------- sums ---------- *)
Lemma zsum_app a b : zsum (a ++ b) = zsum a + zsum b.
Proof. unfold zsum. induction a as [|x a IH]; cbn [app fold_right]; lia. Qed.
Lemma zsum_perm a b : Permutation a b -> zsum a = zsum b.
Proof. unfold zsum. induction 1; cbn [fold_right] in *; lia. Qed.
Lemma zsum_sub {B} (f : B -> Z) l1 : forall l2, (forall x, 0 <= f x) -> NoDup l1 -> incl l1 l2 -> zsum (map f l1) <= zsum (map f l2).
Proof.
  induction l1 as [|x l1 IH]; intros l2 Hf Hn Hi.
  - clear Hn Hi. cbn. induction l2 as [|y l2 IH]; [cbn; lia|]. change (zsum (map f (y :: l2))) with (f y + zsum (map f l2)). specialize (Hf y). lia.
  - inversion Hn as [|? ? Hx Hn']; subst. destruct (in_split x l2 (Hi x (or_introl eq_refl))) as (a & b & ->).
    assert (Hi' : incl l1 (a ++ b)). { intros y Hy. specialize (Hi y (or_intror Hy)). apply in_app_or in Hi as [Hi|[<-|Hi]]; [apply in_or_app; auto|contradiction|apply in_or_app; auto]. }
    specialize (IH (a ++ b) Hf Hn' Hi'). rewrite map_app, zsum_app in *. change (zsum (map f (x :: b))) with (f x + zsum (map f b)). change (zsum (map f (x :: l1))) with (f x + zsum (map f l1)). lia.
Qed.
Lemma zmax_app a x : 0 <= x -> zmax (a ++ [x]) = Z.max (zmax a) x.
Proof. intro Hx. unfold zmax. induction a as [|y a IH]; cbn [app fold_right]; lia. Qed.
Lemma peak_app l : forall x d, peak x (l ++ [d]) = Z.max (peak x l) (x + zsum l + d).
Proof.
  induction l as [|y l IH]; intros x d; cbn [app peak].
  - change (zsum []) with 0. lia.
  - rewrite IH. change (zsum (y :: l)) with (y + zsum l). lia.
Qed.
Lemma peak_ge l : forall x, x <= peak x l /\ x + zsum l <= peak x l.
Proof.
  induction l as [|y l IH]; intro x; cbn [peak]; [change (zsum []) with 0; lia|]. destruct (IH (x + y)). change (zsum (y :: l)) with (y + zsum l). lia.
Qed.
