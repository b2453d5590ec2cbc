From Coq Require Import Permutation Sorted.
From Verif Require Import Base SplayModel SplaySpec SplayProofs SplayProofs2 SplayProofs3.
Open Scope nat_scope.
Section P.
Context {V : Type}.
Variable cmp : V -> V -> Z.
Notation tr := (@tr V).
Hypothesis CO : cmp_ok cmp.
Definition lt_ (a b : V) : Prop := (cmp a b < 0)%Z.
Definition sorted (l : list V) : Prop := StronglySorted lt_ l.

Lemma gt_lt : forall a b, (0 < cmp a b)%Z -> lt_ b a.
Proof. intros. apply (cmp_anti _ CO). auto. Qed.
Lemma eq_sym' : forall a b, cmp a b = 0%Z -> cmp b a = 0%Z.
Proof. intros a b E. destruct (Z_lt_le_dec (cmp b a) 0) as [H|H]; [apply (cmp_anti _ CO) in H; lia|]. destruct (Z_lt_le_dec 0 (cmp b a)) as [G|G]; [apply (cmp_anti _ CO) in G; lia|lia]. Qed.
Lemma eq_r : forall c v w, cmp v w = 0%Z -> lt_ c w -> lt_ c v.
Proof.
  intros c v w E L. unfold lt_ in *. destruct (Z_lt_le_dec (cmp c v) 0) as [|G]; auto.
  destruct (Z_lt_le_dec 0 (cmp c v)) as [H|H].
  - pose proof (cmp_trans _ CO v c w (proj2 (cmp_anti _ CO v c) H) L). lia.
  - assert (cmp v c = 0%Z) by (apply eq_sym'; lia). pose proof (cmp_eq _ CO v c w H0 L). lia.
Qed.
Lemma sorted_app : forall a b, sorted (a ++ b) <-> sorted a /\ sorted b /\ (forall x y, In x a -> In y b -> lt_ x y).
Proof.
  induction a; intros b; cbn [app].
  - split; [intros; split; [constructor|split; auto; intros x y []]|intros (_ & H & _); auto].
  - split.
    + intros H. inversion H as [|? ? S F]; subst. apply IHa in S. destruct S as (A & B & C). rewrite Forall_forall in F. split; [constructor; auto; apply Forall_forall; intros; apply F; apply in_or_app; auto|].
      split; auto. intros x y [->|X] Y; [apply F; apply in_or_app; auto|auto].
    + intros (A & B & C). inversion A as [|? ? S F]; subst. constructor.
      * apply IHa. split; [auto|]. split; auto. intros; apply C; auto. right; auto.
      * rewrite Forall_forall in *. intros x X. apply in_app_or in X. destruct X; [auto|]. apply C; auto. left; auto.
Qed.
Lemma sorted_mid : forall a v b, sorted (a ++ v :: b) <-> sorted a /\ sorted b /\ (forall x, In x a -> lt_ x v) /\ (forall y, In y b -> lt_ v y).
Proof.
  intros. rewrite sorted_app. split.
  - intros (A & B & C). inversion B as [|? ? S F]; subst. rewrite Forall_forall in F. split; auto. split; auto. split; auto. intros; apply C; auto. left; auto.
  - intros (A & B & C & D). split; auto. split; [constructor; auto; apply Forall_forall; auto|]. intros x y X [<-|Y]; auto. unfold lt_. eapply (cmp_trans _ CO); [apply C|apply D]; auto.
Qed.
Lemma tins_vals : forall nx v (t : tr), sorted (vals t) ->
  sorted (vals (tins cmp nx v t)) /\ forall w, In w (vals (tins cmp nx v t)) <-> w = v \/ (In w (vals t) /\ cmp v w <> 0%Z).
Proof.
  induction t as [|n l IHl w r IHr]; intros S; cbn [tins vals app] in *.
  - split; [constructor; constructor|]. intros x; cbn. split; [intros [->|[]]; auto|intros [->|[[] _]]; auto].
  - apply sorted_mid in S. destruct S as (Sl & Sr & Ll & Lr). destruct (IHl Sl) as (IL1 & IL2). destruct (IHr Sr) as (IR1 & IR2).
    destruct (cmp v w <? 0)%Z eqn:A; [|destruct (cmp v w >? 0)%Z eqn:B]; cbn [vals].
    + apply Z.ltb_lt in A. split.
      * apply sorted_mid. split; auto. split; auto. split; auto. intros x X. apply IL2 in X. destruct X as [->|(X & _)]; auto.
      * intros x. rewrite !in_app_iff. cbn [In]. rewrite IL2. split.
        -- intros [[->|(X & Y)]|[<-|X]]; auto.
           ++ right. split; auto. lia.
           ++ right. split; auto. pose proof (cmp_trans _ CO v w x A (Lr _ X)). lia.
        -- tauto.
    + assert (A' : lt_ w v) by (apply gt_lt; lia). split.
      * apply sorted_mid. split; auto. split; auto. split; auto. intros x X. apply IR2 in X. destruct X as [->|(X & _)]; auto.
      * intros x. rewrite !in_app_iff. cbn [In]. rewrite IR2. split.
        -- intros [X|[<-|[->|(X & Y)]]]; auto.
           ++ right. split; auto. pose proof (cmp_trans _ CO x w v (Ll _ X) A') as Q. apply (cmp_anti _ CO) in Q. lia.
           ++ right. split; auto. unfold lt_ in A'. apply (cmp_anti _ CO) in A'. lia.
        -- tauto.
    + assert (E : cmp v w = 0%Z) by lia. split.
      * apply sorted_mid. split; auto. split; auto. split.
        -- intros x X. eapply eq_r; eauto.
        -- intros y Y. apply (cmp_eq _ CO v w y E). apply Lr; auto.
      * intros x. rewrite !in_app_iff. cbn [In]. split.
        -- intros [X|[<-|X]]; auto.
           ++ right. split; auto. pose proof (eq_r _ _ _ E (Ll _ X)) as Q. unfold lt_ in Q. apply (cmp_anti _ CO) in Q. lia.
           ++ right. split; auto. pose proof (cmp_eq _ CO v w x E (Lr _ X)). lia.
        -- intros [->|([X|[<-|X]] & Y)]; auto. congruence.
Qed.
Lemma tfind_none : forall p (D : V -> Prop) (t : tr), (forall v, In v (vals t) -> D v) -> pred_ok_on D cmp p -> sorted (vals t) -> tfind p t = None -> forall v, In v (vals t) -> p v <> 0%Z.
Proof.
  intros p D t DD PO. induction t as [|n l IHl w r IHr]; intros S E v I; cbn [vals tfind] in *; [contradiction|].
  assert (Dl : forall v, In v (vals l) -> D v) by (intros; apply DD; apply in_or_app; auto).
  assert (Dr : forall v, In v (vals r) -> D v) by (intros; apply DD; apply in_or_app; right; right; auto).
  assert (Dw : D w) by (apply DD; apply in_or_app; right; left; auto).
  apply sorted_mid in S. destruct S as (Sl & Sr & Ll & Lr). apply in_app_or in I.
  destruct (p w <? 0)%Z eqn:A.
  - destruct I as [I|[<-|I]]; [auto|lia|]. destruct (PO w v Dw (Dr _ I) (Lr _ I)) as (_ & Q). lia.
  - destruct (p w >? 0)%Z eqn:B; [|discriminate].
    destruct I as [I|[<-|I]]; [|lia|auto]. destruct (PO v w (Dl _ I) Dw (Ll _ I)) as (Q & _). lia.
Qed.
Lemma rep_held : forall (t : tr) h p d, rep h t p d -> forall v, In v (vals t) <-> exists i n, In i (ids t) /\ h i = Some n /\ sn_val n = v.
Proof.
  induction t as [|i l IHl w r IHr]; intros h p d R v; cbn [vals ids].
  - split; [intros []|intros (i & n & [] & _)].
  - destruct R as (R1 & R2 & R3). rewrite in_app_iff. cbn [In]. rewrite (IHl _ _ _ R2), (IHr _ _ _ R3). split.
    + intros [(j & n & A & B & C)|[<-|(j & n & A & B & C)]].
      * exists j, n. split; auto. right. apply in_or_app; auto.
      * eexists i, _. split; [left; auto|]. split; [exact R1|auto].
      * exists j, n. split; auto. right. apply in_or_app; auto.
    + intros (j & n & [<-|A] & B & C).
      * rewrite R1 in B. injection B as <-. auto.
      * apply in_app_or in A. destruct A; [left; eauto|right; right; eauto].
Qed.
Lemma si_held : forall s (T : tr), SI s T -> forall v, held s v <-> In v (vals T).
Proof.
  intros s T [R RT ND LT DM] v. rewrite (rep_held _ _ _ _ R). unfold held. split.
  - intros (i & n & A & B). exists i, n. split; auto. destruct (in_dec Nat.eq_dec i (ids T)); auto. rewrite (DM i) in A; congruence.
  - intros (i & n & _ & A). eauto.
Qed.
(* equal contents as sets; keys are unique in both *)
Definition same (l : list V) (S : list V) : Prop := forall v, In v l <-> In v S.
Lemma without_in : forall v S w, In w (without cmp v S) <-> In w S /\ cmp v w <> 0%Z.
Proof. intros. unfold without. rewrite filter_In. destruct (cmp v w =? 0)%Z eqn:E; cbn [negb]; split; intros (A & B); split; auto; try discriminate; try lia. Qed.
Lemma step_si : forall s (T : tr) S o, SI s T -> sorted (vals T) -> same (vals T) S -> op_ok_on (fun v => In v S) cmp o ->
  exists v s' T' S', sstep cmp s o = Some (v, s') /\ seff cmp S o v S' /\ SI s' T' /\ sorted (vals T') /\ same (vals T') S'.
Proof.
  intros s T S o I SO SA OK. destruct o as [v|p|p]; cbn [sstep op_ok_on] in *.
  - destruct (insert_si cmp s T v I) as (s' & T' & E & I' & VL). destruct (tins_vals (st_next s) v T SO) as (A & B).
    exists None, s', T', (v :: without cmp v S). rewrite E. split; auto. split; [constructor|]. split; auto. rewrite VL. split; auto.
    intros w. rewrite B. cbn [In]. rewrite without_in, (SA w). split; intros [X|X]; auto.
  - destruct (find_si s T p I) as (F & D). rewrite F. destruct (tfind p T) as [[i v]|] eqn:E; cbn [option_map fst].
    + rewrite (D _ _ eq_refl). exists (Some v), s, T, S. destruct (tfind_in _ _ _ _ E) as (_ & A & B). split; auto. split; [constructor; auto; apply SA; auto|auto].
    + exists None, s, T, S. split; auto. split; [|auto]. constructor. intros v Hv. apply (tfind_none p (fun v => In v S) T); auto; [intros; apply SA; auto|apply SA; auto].
  - destruct (find_si s T p I) as (F & D). rewrite F. destruct (tfind p T) as [[i v]|] eqn:E; cbn [option_map fst].
    + rewrite (D _ _ eq_refl). destruct (tfind_in _ _ _ _ E) as (Ii & A & B).
      destruct (remove_si s T i I Ii) as (s' & T' & v' & a & b & RM & I' & DV & V1 & V2).
      rewrite (D _ _ eq_refl) in DV. injection DV as <-. rewrite RM.
      rewrite V1 in SO, A. pose proof SO as SO'. apply sorted_mid in SO'. destruct SO' as (Sa & Sb & La & Lb).
      exists (Some v), s', T', (without cmp v S). split; auto. split; [constructor; auto; apply SA; rewrite V1; auto|]. split; auto.
      rewrite V2. split.
      * apply sorted_app. split; auto. split; auto. intros x y X Y. unfold lt_. eapply (cmp_trans _ CO); [apply La|apply Lb]; auto.
      * intros w. rewrite without_in, <- (SA w), V1, !in_app_iff. cbn [In]. split.
        -- intros [X|X]; split; auto.
           ++ pose proof (La _ X) as Q. unfold lt_ in Q. apply (cmp_anti _ CO) in Q. lia.
           ++ pose proof (Lb _ X) as Q. unfold lt_ in Q. lia.
        -- intros ([X|[<-|X]] & Y); auto. contradiction Y. apply (cmp_refl _ CO).
    + exists None, s, T, S. split; auto. split; [|auto]. constructor. intros v Hv. apply (tfind_none p (fun v => In v S) T); auto; [intros; apply SA; auto|apply SA; auto].
Qed.
Lemma op_ok_weaken : forall (D : V -> Prop) o, op_ok cmp o -> op_ok_on D cmp o.
Proof. intros D [v|p|p] H; cbn in *; auto; intros a b _ _ L; apply H; auto. Qed.
Lemma run_si : forall l s (T : tr) S, SI s T -> sorted (vals T) -> same (vals T) S -> Forall (op_ok cmp) l ->
  exists vs s' T' S', srun cmp s l = Some (vs, s') /\ effs cmp S l vs S' /\ SI s' T' /\ sorted (vals T') /\ same (vals T') S'.
Proof.
  induction l as [|o l IH]; intros s T S I SO SA F.
  - exists [], s, T, S. split; auto. split; [constructor|auto].
  - inversion F; subst. destruct (step_si s T S o I SO SA (op_ok_weaken _ _ H1)) as (v & s1 & T1 & S1 & E & EF & I1 & SO1 & SA1).
    destruct (IH s1 T1 S1 I1 SO1 SA1 H2) as (vs & s2 & T2 & S2 & E2 & EF2 & I2 & SO2 & SA2).
    exists (v :: vs), s2, T2, S2. cbn [srun]. rewrite E, E2. split; auto. split; [econstructor; eauto|auto].
Qed.
End P.

(* C41.  Any sequence of insertions, lookups and removals from the empty tree runs without touching
   freed or null nodes and without endless loops, gives the results a plain set would give, and the
   nodes in memory afterwards hold exactly the elements of that set (none lost, none leaked). *)
Theorem C41_tree : forall (V : Type) (cmp : V -> V -> Z) (l : list (sop V)), cmp_ok cmp -> Forall (op_ok cmp) l ->
  exists vs s S, srun cmp st_init l = Some (vs, s) /\ effs cmp [] l vs S /\ forall v, held s v <-> In v S.
Proof.
  intros V cmp l CO F. destruct (run_si cmp CO l st_init Lf [] si_init) as (vs & s & T & S & E & EF & I & SO & SA); auto.
  - constructor.
  - intros v; split; auto.
  - exists vs, s, S. split; auto. split; auto. intros v. rewrite (si_held _ _ I v). apply SA.
Qed.
(* two elements with the same key are never stored at once *)
Theorem C41_unique : forall (V : Type) (cmp : V -> V -> Z) (l : list (sop V)) vs s v w, cmp_ok cmp -> Forall (op_ok cmp) l ->
  srun cmp st_init l = Some (vs, s) -> held s v -> held s w -> cmp v w = 0%Z -> v = w.
Proof.
  intros V cmp l vs s v w CO F R Hv Hw E.
  destruct (run_si cmp CO l st_init Lf [] si_init) as (vs' & s' & T & S & E' & EF & I & SO & SA); auto; [constructor|intros x; split; auto|].
  rewrite R in E'. injection E' as <- <-. apply (si_held _ _ I) in Hv. apply (si_held _ _ I) in Hw.
  destruct (in_split _ _ Hv) as (a & b & EQ). rewrite EQ in SO, Hw. apply (sorted_mid cmp CO) in SO. destruct SO as (_ & _ & A & B).
  apply in_app_or in Hw. destruct Hw as [H|[H|H]]; auto.
  - specialize (A _ H). unfold lt_ in A. apply (cmp_anti _ CO) in A. lia.
  - specialize (B _ H). unfold lt_ in B. lia.
Qed.
(* the memory used is one node per stored element: every node in memory belongs to the tree *)
Theorem C41_no_leak : forall (V : Type) (cmp : V -> V -> Z) (l : list (sop V)) vs s v, cmp_ok cmp -> Forall (op_ok cmp) l ->
  srun cmp st_init l = Some (vs, s) -> forall i j n m, st_heap s i = Some n -> st_heap s j = Some m -> sn_val n = v -> sn_val m = v -> i = j.
Proof.
  intros V cmp l vs s v CO F R i j n m Hi Hj Vn Vm.
  destruct (run_si cmp CO l st_init Lf [] si_init) as (vs' & s' & T & S & E' & EF & I & SO & SA); auto; [constructor|intros x; split; auto|].
  rewrite R in E'. injection E' as <- <-. destruct I as [RP RT ND LT DM].
  assert (Ii : In i (ids T)) by (destruct (in_dec Nat.eq_dec i (ids T)); auto; rewrite (DM i) in Hi; congruence).
  assert (Ij : In j (ids T)) by (destruct (in_dec Nat.eq_dec j (ids T)); auto; rewrite (DM j) in Hj; congruence).
  revert RP SO Ii Ij. clear RT ND LT DM SA EF. generalize (@None nat) as p. generalize NA as d.
  induction T as [|k t1 IH1 w t2 IH2]; intros d p RP SO Ii Ij; [contradiction|]. destruct RP as (R1 & R2 & R3). cbn [vals] in SO.
  apply (sorted_mid cmp CO) in SO. destruct SO as (S1 & S2 & L1 & L2).
  assert (IV : forall x nd t q e, rep (st_heap s) t q e -> In x (ids t) -> st_heap s x = Some nd -> sn_val nd = v -> In v (vals t)).
  { intros x nd t q e RR Ix Hx Vx. apply (rep_held t _ _ _ RR). eauto. }
  assert (NR : forall a b, lt_ cmp a b -> a <> b). { intros a b L ->. unfold lt_ in L. rewrite (cmp_refl _ CO) in L. lia. }
  cbn [ids] in Ii, Ij. destruct Ii as [<-|Ii]; destruct Ij as [<-|Ij]; auto.
  - exfalso. rewrite R1 in Hi. injection Hi as <-. cbn [sn_val] in Vn. subst w. apply in_app_or in Ij. destruct Ij as [X|X].
    + apply (NR v v); auto. apply L1. eapply IV; eauto.
    + apply (NR v v); auto. apply L2. eapply IV; eauto.
  - exfalso. rewrite R1 in Hj. injection Hj as <-. cbn [sn_val] in Vm. subst w. apply in_app_or in Ii. destruct Ii as [X|X].
    + apply (NR v v); auto. apply L1. eapply IV; eauto.
    + apply (NR v v); auto. apply L2. eapply IV; eauto.
  - apply in_app_or in Ii, Ij. destruct Ii as [X|X], Ij as [Y|Y].
    + eapply IH1; eauto.
    + exfalso. apply (NR v v); auto. unfold lt_. eapply (cmp_trans _ CO); [apply L1; eapply (IV i)|apply L2; eapply (IV j)]; eauto.
    + exfalso. apply (NR v v); auto. unfold lt_. eapply (cmp_trans _ CO); [apply L1; eapply (IV j)|apply L2; eapply (IV i)]; eauto.
    + eapply IH2; eauto.
Qed.
