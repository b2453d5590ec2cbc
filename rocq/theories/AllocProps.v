From Coq Require Import Permutation Sorted.
From Verif Require Import Base SplayModel SplaySpec SplayProofs SplayProofs2 SplayProofs3 SplayProps AllocModel AllocSpec.
Open Scope N_scope.

Lemma ai_cmp_ok : cmp_ok ai_cmp.
Proof.
  constructor; intros; unfold ai_cmp in *; repeat match goal with
  | |- context [?a <? ?b] => destruct (N.ltb_spec a b)
  | |- context [?a =? ?b] => destruct (N.eqb_spec a b)
  | H : context [?a <? ?b] |- _ => destruct (N.ltb_spec a b)
  | H : context [?a =? ?b] |- _ => destruct (N.eqb_spec a b)
  end; try lia.
Qed.
Lemma ai_cmp_eq : forall a b, ai_cmp a b = 0%Z <-> ai_start a = ai_start b.
Proof. intros. unfold ai_cmp. destruct (N.ltb_spec (ai_start a) (ai_start b)); [split; lia|]. destruct (N.eqb_spec (ai_start a) (ai_start b)); split; lia. Qed.
Lemma ai_cmp_lt : forall a b, (ai_cmp a b < 0)%Z <-> ai_start a < ai_start b.
Proof. intros. unfold ai_cmp. destruct (N.ltb_spec (ai_start a) (ai_start b)); [split; lia|]. destruct (N.eqb_spec (ai_start a) (ai_start b)); split; lia. Qed.
Lemma has_start_ok : forall D p, pred_ok_on D ai_cmp (has_start p).
Proof.
  intros D p a b _ _ L. apply ai_cmp_lt in L. unfold has_start.
  destruct (N.ltb_spec p (ai_start a)), (N.ltb_spec p (ai_start b)), (N.eqb_spec p (ai_start a)), (N.eqb_spec p (ai_start b)); split; intros; lia.
Qed.
Lemma has_start_0 : forall p a, has_start p a = 0%Z <-> ai_start a = p.
Proof. intros. unfold has_start. destruct (N.ltb_spec p (ai_start a)), (N.eqb_spec p (ai_start a)); split; intros; lia. Qed.

Record ainv (s : asvc) (T : @tr ainf) : Prop := mkainv {
  av_si : SI (al_tree s) T;
  av_sorted : sorted ai_cmp (vals T);
  av_elem : forall a, In a (vals T) -> ai_elem a <> 0;
  av_pins : forall a, In a (al_pins s) -> ai_elem a <> 0
}.
Lemma ainv_live : forall s T, ainv s T -> forall a, live s a <-> In a (vals T).
Proof. intros s T I a. apply si_held. apply I. Qed.
Lemma in_remove_nth : forall A (l : list A) k x, In x (remove_nth k l) -> In x l.
Proof.
  intros A l k x H. unfold remove_nth in H. apply in_app_or in H. rewrite <- (firstn_skipn k l). apply in_or_app. destruct H as [H|H]; auto.
  right. clear - H. revert l H. induction k; intros [|y l] H; cbn [skipn] in *; auto. right; auto.
Qed.
Lemma contains_ok : forall s T addr, ainv s T -> disjoint s -> pred_ok_on (fun v => In v (vals T)) ai_cmp (contains_addr addr).
Proof.
  intros s T addr I (W & D) a b Ia Ib L. apply ai_cmp_lt in L. pose proof (ainv_live _ _ I) as LV.
  specialize (D a b (proj2 (LV a) Ia) (proj2 (LV b) Ib) L). pose proof (W a (proj2 (LV a) Ia)). pose proof (W b (proj2 (LV b) Ib)).
  unfold contains_addr, wrap64. rewrite !N.mod_small by auto.
  destruct (N.ltb_spec addr (ai_start a)), (N.ltb_spec addr (ai_start b)), (N.leb_spec (ai_start a) addr), (N.leb_spec (ai_start b) addr),
    (N.ltb_spec addr (ai_start a + ai_size a)), (N.ltb_spec addr (ai_start b + ai_size b)); cbn [andb]; split; intros; lia.
Qed.
Lemma contains_0 : forall addr a, ai_start a + ai_size a < W64 -> (contains_addr addr a = 0%Z <-> covers a addr).
Proof.
  intros. unfold contains_addr, wrap64, covers. rewrite N.mod_small by auto.
  destruct (N.ltb_spec addr (ai_start a)), (N.leb_spec (ai_start a) addr), (N.ltb_spec addr (ai_start a + ai_size a)); cbn [andb]; split; intros; lia.
Qed.
Lemma al_step_inv : forall s T o, ainv s T -> elem_ok o -> exists x s' T', al_step s o = Some (x, s') /\ ainv s' T'.
Proof.
  intros s T o I EO. destruct o as [ptr elem dims|k|ptr|k|addr| |]; cbn [al_step elem_ok] in *.
  - destruct EO as (EO & _). apply N.eqb_neq in EO as EO'. rewrite EO'. eexists _, _, T. split; [reflexivity|]. destruct I. constructor; cbn [al_tree al_pins]; auto.
    intros a H. apply in_app_or in H. destruct H as [H|[<-|[]]]; auto.
  - destruct (nth_error (al_pins s) k) as [info|] eqn:E; [|exists AoNone, s, T; auto].
    destruct I as [SI_ SO EL EP].
    destruct (insert_si ai_cmp (al_tree s) T info SI_) as (t & T' & E1 & S1 & V1). rewrite E1.
    destruct (tins_vals ai_cmp ai_cmp_ok (st_next (al_tree s)) info T SO) as (A & B).
    eexists _, _, T'. split; [reflexivity|]. constructor; cbn [al_tree al_pins]; auto.
    + rewrite V1. auto.
    + intros a H. rewrite V1 in H. apply B in H. destruct H as [->|(H & _)]; auto. apply EP. eapply nth_error_In; eauto.
    + intros a H. apply EP. eapply in_remove_nth; eauto.
  - destruct I as [SI_ SO EL EP]. destruct (find_si (al_tree s) T (has_start ptr) SI_) as (F & D). rewrite F.
    destruct (tfind (has_start ptr) T) as [[i v]|] eqn:TF; cbn [option_map fst].
    + rewrite (D _ _ eq_refl). destruct (tfind_in _ _ _ _ TF) as (Ii & _).
      destruct (remove_si (al_tree s) T i SI_ Ii) as (t & T' & v' & a & b & E1 & S1 & _ & V1 & V2). rewrite E1.
      eexists _, _, T'. split; [reflexivity|]. constructor; cbn [al_tree al_pins]; auto.
      * rewrite V1 in SO. apply (sorted_mid ai_cmp ai_cmp_ok) in SO. destruct SO as (Sa & Sb & La & Lb). rewrite V2. apply sorted_app. split; auto. split; auto.
        intros x y X Y. unfold lt_. eapply (cmp_trans _ ai_cmp_ok); [apply La|apply Lb]; auto.
      * intros x H. apply EL. rewrite V1. rewrite V2 in H. apply in_app_or in H. apply in_or_app. cbn; tauto.
    + eexists _, _, T. split; [reflexivity|]. constructor; auto.
  - destruct (nth_error (al_psub s) k); [|exists AoNone, s, T; auto]. eexists _, _, T. split; [reflexivity|]. destruct I; constructor; auto.
  - destruct I as [SI_ SO EL EP]. destruct (find_si (al_tree s) T (contains_addr addr) SI_) as (F & D). rewrite F.
    destruct (tfind (contains_addr addr) T) as [[i v]|] eqn:TF; cbn [option_map fst].
    + rewrite (D _ _ eq_refl). destruct (tfind_in _ _ _ _ TF) as (_ & Iv & _). apply EL in Iv as Ev. apply N.eqb_neq in Ev. rewrite Ev.
      eexists _, _, T. split; [reflexivity|]. constructor; auto.
    + eexists _, _, T. split; [reflexivity|]. constructor; auto.
  - eexists _, _, T. split; [reflexivity|]. destruct I; constructor; auto.
  - eexists _, _, T. split; [reflexivity|]. destruct I; constructor; auto.
Qed.
Lemma ainv_init : ainv al_init Lf.
Proof. constructor; cbn; [apply si_init|constructor|intros a []|intros a []]. Qed.
Lemma al_run_inv : forall l s T, ainv s T -> Forall elem_ok l -> exists xs s' T', al_run s l = Some (xs, s') /\ ainv s' T'.
Proof.
  induction l; intros s T I F.
  - exists [], s, T. auto.
  - inversion F; subst. destruct (al_step_inv s T a I H1) as (x & s1 & T1 & E & I1). destruct (IHl s1 T1 I1 H2) as (xs & s2 & T2 & E2 & I2).
    exists (x :: xs), s2, T2. cbn [al_run]. rewrite E, E2. auto.
Qed.
Definition reached (s : asvc) : Prop := exists l xs, Forall elem_ok l /\ al_run al_init l = Some (xs, s).
Lemma reached_inv : forall s, reached s -> exists T, ainv s T.
Proof. intros s (l & xs & F & R). destruct (al_run_inv l al_init Lf ainv_init F) as (ys & s' & T & E & I). rewrite R in E. injection E as <- <-. eauto. Qed.

(* C48.  No sequence of tracking calls, from any number of threads, crashes the tracker *)
Theorem C48_safe : forall l, Forall elem_ok l -> exists xs s, al_run al_init l = Some (xs, s).
Proof. intros l F. destruct (al_run_inv l al_init Lf ainv_init F) as (xs & s & T & E & _). eauto. Qed.

(* Tracking makes the allocation live and replaces only one with the same start address *)
Theorem C48_track : forall s k info, reached s -> nth_error (al_pins s) k = Some info ->
  exists s', al_step s (ATrackB k) = Some (AoNone, s') /\
    (forall a, live s' a <-> a = info \/ (live s a /\ ai_start a <> ai_start info)).
Proof.
  intros s k info R E. destruct (reached_inv s R) as (T & I). pose proof (ainv_live _ _ I) as LV. destruct I as [SI_ SO EL EP].
  destruct (insert_si ai_cmp (al_tree s) T info SI_) as (t & T' & E1 & S1 & V1).
  destruct (tins_vals ai_cmp ai_cmp_ok (st_next (al_tree s)) info T SO) as (A & B).
  cbn [al_step]. rewrite E, E1. eexists. split; [reflexivity|]. intros a. unfold live at 1. cbn [al_tree]. rewrite (si_held _ _ S1), V1, B, LV.
  pose proof (ai_cmp_eq info a) as Q. split; intros [X|(X & Y)]; auto; right; split; auto; intro Z; apply Y; [apply Q; auto|symmetry; apply Q; auto].
Qed.
(* Untracking an address finds the live allocation that starts there, reports its uid, and removes
   exactly that one; it fails iff there is none *)
Theorem C48_untrack : forall s ptr, reached s ->
  (forall a, live s a -> ai_start a = ptr ->
     exists s', al_step s (AUntrackA ptr) = Some (AoTrack (- to_int (ai_size a)) (ai_uid a) ptr, s') /\
       (forall b, live s' b <-> live s b /\ b <> a) /\ al_psub s' = al_psub s ++ [ai_size a] /\ al_failed s' = al_failed s) /\
  ((forall a, live s a -> ai_start a <> ptr) ->
     exists s', al_step s (AUntrackA ptr) = Some (AoNone, s') /\ al_tree s' = al_tree s /\ al_psub s' = al_psub s /\ al_failed s' = al_failed s + 1).
Proof.
  intros s ptr R. destruct (reached_inv s R) as (T & I). pose proof (ainv_live _ _ I) as LV. destruct I as [SI_ SO EL EP].
  cbn [al_step]. destruct (find_si (al_tree s) T (has_start ptr) SI_) as (F & D). rewrite F.
  destruct (tfind (has_start ptr) T) as [[i v]|] eqn:TF; cbn [option_map fst].
  - rewrite (D _ _ eq_refl). destruct (tfind_in _ _ _ _ TF) as (Ii & Iv & P0). apply has_start_0 in P0.
    destruct (remove_si (al_tree s) T i SI_ Ii) as (t & T' & v' & x & y & E1 & S1 & DV & V1 & V2). rewrite E1.
    rewrite (D _ _ eq_refl) in DV. injection DV as <-. rewrite V1 in SO. apply (sorted_mid ai_cmp ai_cmp_ok) in SO. destruct SO as (Sa & Sb & La & Lb). split.
    + intros a La_ Sta. assert (a = v) as ->.
      { apply LV in La_. rewrite V1 in La_. apply in_app_or in La_. destruct La_ as [X|[X|X]]; auto.
        - specialize (La _ X). apply ai_cmp_lt in La. lia.
        - specialize (Lb _ X). apply ai_cmp_lt in Lb. lia. }
      eexists. split; [reflexivity|]. split; [|split; reflexivity]. intros b. unfold live at 1. cbn [al_tree]. rewrite (si_held _ _ S1), V2, LV, V1, !in_app_iff. cbn [In].
      split.
      * intros [X|X]; split; auto; intros ->; [specialize (La _ X); apply ai_cmp_lt in La|specialize (Lb _ X); apply ai_cmp_lt in Lb]; lia.
      * intros ([X|[X|X]] & Y); auto. congruence.
    + intros N. exfalso. apply (N v); auto. apply LV. auto.
  - split.
    + intros a La_ Sta. exfalso. apply LV in La_. apply (tfind_none ai_cmp ai_cmp_ok (has_start ptr) (fun _ => True) T (fun _ _ => Logic.I) (has_start_ok _ _) SO TF a La_). apply has_start_0; auto.
    + intros _. eexists. split; [reflexivity|]. auto.
Qed.
(* An address is attributed to the live allocation that contains it, with its element index, and to none
   if no live allocation contains it - provided live allocations do not overlap *)
Theorem C48_resolve : forall s addr, reached s -> disjoint s ->
  (forall a, live s a -> covers a addr ->
     al_step s (AResolve addr) = Some (AoResolved (ai_uid a) ((addr - ai_start a) / ai_elem a), s)) /\
  ((forall a, live s a -> ~ covers a addr) -> al_step s (AResolve addr) = Some (AoNone, s)).
Proof.
  intros s addr R DJ. destruct (reached_inv s R) as (T & I). pose proof (ainv_live _ _ I) as LV. pose proof (contains_ok s T addr I DJ) as CK. destruct I as [SI_ SO EL EP].
  cbn [al_step]. destruct (find_si (al_tree s) T (contains_addr addr) SI_) as (F & D). rewrite F.
  destruct (tfind (contains_addr addr) T) as [[i v]|] eqn:TF; cbn [option_map fst].
  - rewrite (D _ _ eq_refl). destruct (tfind_in _ _ _ _ TF) as (Ii & Iv & P0). apply EL in Iv as Ev. apply N.eqb_neq in Ev. rewrite Ev.
    apply LV in Iv. destruct DJ as (W & DJ). apply contains_0 in P0; [|auto]. split.
    + intros a La Ca. assert (ai_start a = ai_start v) as SE.
      { unfold covers in *. destruct (N.lt_trichotomy (ai_start a) (ai_start v)) as [X|[X|X]]; auto.
        - specialize (DJ a v La Iv X). lia.
        - specialize (DJ v a Iv La X). lia. }
      assert (a = v) as ->; [|reflexivity]. apply LV in La, Iv. apply ai_cmp_eq in SE.
      destruct (in_split _ _ La) as (p & q & EQ). rewrite EQ in SO, Iv. apply (sorted_mid ai_cmp ai_cmp_ok) in SO. destruct SO as (_ & _ & L1 & L2).
      apply in_app_or in Iv. destruct Iv as [X|[X|X]]; auto.
      * specialize (L1 _ X). apply ai_cmp_lt in L1. apply ai_cmp_eq in SE. lia.
      * specialize (L2 _ X). apply ai_cmp_lt in L2. apply ai_cmp_eq in SE. lia.
    + intros N. exfalso. apply (N v); auto.
  - split; [|reflexivity]. intros a La Ca. exfalso. destruct DJ as (W & _). apply (contains_0 addr a (W _ La)) in Ca. apply LV in La.
    apply (tfind_none ai_cmp ai_cmp_ok (contains_addr addr) _ T (fun v H => H) CK SO TF a La Ca).
Qed.
