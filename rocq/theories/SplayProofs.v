From Verif Require Import Base SplayModel.
Open Scope nat_scope.
Section P.
Context {V : Type}.
Notation heap := (heap V).

Inductive tr := Lf | Nd (i : nat) (l : tr) (v : V) (r : tr).
Definition rid (t : tr) : option nat := match t with Lf => None | Nd i _ _ _ => Some i end.
Fixpoint ids (t : tr) : list nat := match t with Lf => [] | Nd i l _ r => i :: ids l ++ ids r end.
Fixpoint vals (t : tr) : list V := match t with Lf => [] | Nd _ l v r => vals l ++ v :: vals r end.
Fixpoint rep (h : heap) (t : tr) (p : option nat) (d : hand) : Prop :=
  match t with
  | Lf => True
  | Nd i l v r => h i = Some (mksn p (rid l) (rid r) v d) /\ rep h l (Some i) LEFT /\ rep h r (Some i) RIGHT
  end.
Inductive frame := FL (i : nat) (v : V) (r : tr) | FR (i : nat) (l : tr) (v : V).
Definition fid (f : frame) : nat := match f with FL i _ _ => i | FR i _ _ => i end.
Definition cid (c : list frame) : option nat := match c with [] => None | f :: _ => Some (fid f) end.
Definition chand (c : list frame) : hand := match c with [] => NA | FL _ _ _ :: _ => LEFT | FR _ _ _ :: _ => RIGHT end.
Definition fids (f : frame) : list nat := match f with FL i _ r => i :: ids r | FR i l _ => i :: ids l end.
Definition cids (c : list frame) : list nat := flat_map fids c.
Fixpoint crep (h : heap) (c : list frame) : Prop :=
  match c with
  | [] => True
  | FL i v r :: c' => (exists x, h i = Some (mksn (cid c') x (rid r) v (chand c'))) /\ rep h r (Some i) RIGHT /\ crep h c'
  | FR i l v :: c' => (exists x, h i = Some (mksn (cid c') (rid l) x v (chand c'))) /\ rep h l (Some i) LEFT /\ crep h c'
  end.
Definition rot (t : tr) (f : frame) : tr :=
  match t with
  | Lf => Lf
  | Nd n l v r => match f with FL p pv pr => Nd n l v (Nd p r pv pr) | FR p pl pv => Nd n (Nd p pl pv l) v r end
  end.
Definition plug1 (t : tr) (f : frame) : tr := match f with FL p pv pr => Nd p t pv pr | FR p pl pv => Nd p pl pv t end.

Lemma rep_ext : forall t h h' p d, (forall j, In j (ids t) -> h' j = h j) -> rep h t p d -> rep h' t p d.
Proof.
  induction t; intros h h' p d E R; cbn [rep] in *; auto. destruct R as (A & B & C).
  split; [rewrite E; auto; left; auto|]. split.
  - apply (IHt1 h); auto. intros; apply E. right. apply in_or_app; auto.
  - apply (IHt2 h); auto. intros; apply E. right. apply in_or_app; auto.
Qed.
Lemma crep_ext : forall c h h', (forall j, In j (cids c) -> h' j = h j) -> crep h c -> crep h' c.
Proof.
  induction c as [|[i v r|i l v] c IH]; intros h h' E R; cbn [crep] in *; auto; destruct R as ((x & A) & B & C).
  - split; [exists x; rewrite E; auto; left; auto|]. split.
    + apply (rep_ext r h); auto. intros; apply E. cbn. right. apply in_or_app; auto.
    + apply (IH h); auto. intros; apply E. cbn. right. apply in_or_app; auto.
  - split; [exists x; rewrite E; auto; left; auto|]. split.
    + apply (rep_ext l h); auto. intros; apply E. cbn. right. apply in_or_app; auto.
    + apply (IH h); auto. intros; apply E. cbn. right. apply in_or_app; auto.
Qed.
Lemma neqb : forall a b : nat, a <> b -> (a =? b) = false.
Proof. intros. apply Nat.eqb_neq; auto. Qed.
Lemma wr_some : forall (h : heap) i n f, h i = Some n -> wr h i f = Some (hupd h i (Some (f n))).
Proof. intros. unfold wr. rewrite H. reflexivity. Qed.
Lemma hupd_eq : forall (h : heap) i n, hupd h i n i = n.
Proof. intros. unfold hupd. rewrite Nat.eqb_refl. reflexivity. Qed.
Lemma hupd_neq : forall (h : heap) i n j, j <> i -> hupd h i n j = h j.
Proof. intros. unfold hupd. rewrite neqb; auto. Qed.

(* the raw effect of a rotation *)
Lemma rotate_left_raw : forall (h : heap) n l v r p d pp x pl pv pd,
  h n = Some (mksn (Some p) l r v d) -> h p = Some (mksn pp pl x pv pd) -> n <> p ->
  (forall i, l = Some i -> i <> n /\ i <> p /\ exists m, h i = Some m) ->
  exists h', rotate_left h n = Some h' /\
    h' n = Some (mksn pp (Some p) r v (match pp with Some _ => pd | None => NA end)) /\
    h' p = Some (mksn (Some n) pl l pv LEFT) /\
    (forall i m, l = Some i -> h i = Some m -> h' i = Some (set_hand RIGHT (set_par (Some p) m))) /\
    (forall j, j <> n -> j <> p -> l <> Some j -> h' j = h j).
Proof.
  intros h n l v r p d pp x pl pv pd Hn Hp NP HL. unfold rotate_left. rewrite Hn. cbn [bind sn_par sn_left].
  destruct l as [i|].
  - destruct (HL i eq_refl) as (Ni & Np & m & Hi). cbn [opt_wr]. rewrite (wr_some _ _ _ _ Hi). cbn [bind].
    rewrite (hupd_neq h i _ p) by auto. rewrite Hp. cbn [bind sn_par sn_hand]. rewrite (hupd_neq h i _ n) by auto. rewrite Hn. cbn [bind sn_left].
    rewrite (wr_some _ p (mksn pp pl x pv pd)) by (rewrite hupd_neq; auto). cbn [bind].
    rewrite (wr_some _ n (mksn (Some p) (Some i) r v d)) by (rewrite !hupd_neq; auto). cbn [bind].
    rewrite (wr_some _ n (set_left (Some p) (mksn (Some p) (Some i) r v d))) by (rewrite hupd_eq; auto).
    eexists. split; [reflexivity|]. split; [|split; [|split]].
    + rewrite hupd_eq. reflexivity.
    + rewrite !(hupd_neq _ n) by auto. rewrite hupd_eq. reflexivity.
    + intros i' m' E1 E2. injection E1 as <-. assert (m' = m) by congruence. subst m'. rewrite !(hupd_neq _ n) by auto. rewrite (hupd_neq _ p) by auto. rewrite hupd_eq. reflexivity.
    + intros j J1 J2 J3. rewrite !(hupd_neq _ n) by auto. rewrite (hupd_neq _ p) by auto. rewrite hupd_neq by congruence. auto.
  - cbn [opt_wr bind]. rewrite Hp. cbn [bind sn_par sn_hand]. rewrite Hn. cbn [bind sn_left].
    rewrite (wr_some _ p (mksn pp pl x pv pd)) by auto. cbn [bind].
    rewrite (wr_some _ n (mksn (Some p) None r v d)) by (rewrite !hupd_neq; auto). cbn [bind].
    rewrite (wr_some _ n (set_left (Some p) (mksn (Some p) None r v d))) by (rewrite hupd_eq; auto).
    eexists. split; [reflexivity|]. split; [|split; [|split]].
    + rewrite hupd_eq. reflexivity.
    + rewrite !(hupd_neq _ n) by auto. rewrite hupd_eq. reflexivity.
    + intros; discriminate.
    + intros j J1 J2 J3. rewrite !(hupd_neq _ n) by auto. rewrite (hupd_neq _ p) by auto. auto.
Qed.
Lemma rotate_right_raw : forall (h : heap) n l v r p d pp x pr pv pd,
  h n = Some (mksn (Some p) l r v d) -> h p = Some (mksn pp x pr pv pd) -> n <> p ->
  (forall i, r = Some i -> i <> n /\ i <> p /\ exists m, h i = Some m) ->
  exists h', rotate_right h n = Some h' /\
    h' n = Some (mksn pp l (Some p) v (match pp with Some _ => pd | None => NA end)) /\
    h' p = Some (mksn (Some n) r pr pv RIGHT) /\
    (forall i m, r = Some i -> h i = Some m -> h' i = Some (set_hand LEFT (set_par (Some p) m))) /\
    (forall j, j <> n -> j <> p -> r <> Some j -> h' j = h j).
Proof.
  intros h n l v r p d pp x pr pv pd Hn Hp NP HL. unfold rotate_right. rewrite Hn. cbn [bind sn_par sn_right].
  destruct r as [i|].
  - destruct (HL i eq_refl) as (Ni & Np & m & Hi). cbn [opt_wr]. rewrite (wr_some _ _ _ _ Hi). cbn [bind].
    rewrite (hupd_neq h i _ p) by auto. rewrite Hp. cbn [bind sn_par sn_hand]. rewrite (hupd_neq h i _ n) by auto. rewrite Hn. cbn [bind sn_right].
    rewrite (wr_some _ p (mksn pp x pr pv pd)) by (rewrite hupd_neq; auto). cbn [bind].
    rewrite (wr_some _ n (mksn (Some p) l (Some i) v d)) by (rewrite !hupd_neq; auto). cbn [bind].
    rewrite (wr_some _ n (set_right (Some p) (mksn (Some p) l (Some i) v d))) by (rewrite hupd_eq; auto).
    eexists. split; [reflexivity|]. split; [|split; [|split]].
    + rewrite hupd_eq. reflexivity.
    + rewrite !(hupd_neq _ n) by auto. rewrite hupd_eq. reflexivity.
    + intros i' m' E1 E2. injection E1 as <-. assert (m' = m) by congruence. subst m'. rewrite !(hupd_neq _ n) by auto. rewrite (hupd_neq _ p) by auto. rewrite hupd_eq. reflexivity.
    + intros j J1 J2 J3. rewrite !(hupd_neq _ n) by auto. rewrite (hupd_neq _ p) by auto. rewrite hupd_neq by congruence. auto.
  - cbn [opt_wr bind]. rewrite Hp. cbn [bind sn_par sn_hand]. rewrite Hn. cbn [bind sn_right].
    rewrite (wr_some _ p (mksn pp x pr pv pd)) by auto. cbn [bind].
    rewrite (wr_some _ n (mksn (Some p) l None v d)) by (rewrite !hupd_neq; auto). cbn [bind].
    rewrite (wr_some _ n (set_right (Some p) (mksn (Some p) l None v d))) by (rewrite hupd_eq; auto).
    eexists. split; [reflexivity|]. split; [|split; [|split]].
    + rewrite hupd_eq. reflexivity.
    + rewrite !(hupd_neq _ n) by auto. rewrite hupd_eq. reflexivity.
    + intros; discriminate.
    + intros j J1 J2 J3. rewrite !(hupd_neq _ n) by auto. rewrite (hupd_neq _ p) by auto. auto.
Qed.

Definition rotate (d : hand) (h : heap) (i : nat) : option heap :=
  match d with RIGHT => rotate_left h i | _ => rotate_right h i end.
Definition fhand (f : frame) : hand := match f with FL _ _ _ => LEFT | FR _ _ _ => RIGHT end.
Lemma chand_fix : forall c : list frame, match cid c with Some _ => chand c | None => NA end = chand c.
Proof. destruct c; reflexivity. Qed.
Lemma rep_rid : forall t h p d i, rep h t p d -> rid t = Some i -> exists m, h i = Some m.
Proof. destruct t; intros; [discriminate|]. injection H0 as <-. destruct H. eauto. Qed.
Lemma rid_in : forall t i, rid t = Some i -> In i (ids t).
Proof. destruct t; intros; [discriminate|]. injection H as <-. left; auto. Qed.

(* moving a subtree below another parent *)
Lemma rep_move : forall t h h' p d p' d', NoDup (ids t) -> rep h t p d ->
  (forall i m, rid t = Some i -> h i = Some m -> h' i = Some (set_hand d' (set_par p' m))) ->
  (forall j, In j (ids t) -> rid t <> Some j -> h' j = h j) -> rep h' t p' d'.
Proof.
  intros t h h' p d p' d' ND R A B. destruct t; cbn [rep] in *; auto. destruct R as (R1 & R2 & R3).
  inversion ND as [|? ? N1 N2]; subst.
  split; [exact (A _ _ eq_refl R1)|]. split.
  - apply (rep_ext t1 h); auto. intros j J. apply B; [right; apply in_or_app; auto|]. cbn. intros E. injection E as <-. apply N1. apply in_or_app; auto.
  - apply (rep_ext t2 h); auto. intros j J. apply B; [right; apply in_or_app; auto|]. cbn. intros E. injection E as <-. apply N1. apply in_or_app; auto.
Qed.
Lemma nodup_app : forall (a b : list nat), NoDup (a ++ b) -> NoDup a /\ NoDup b /\ (forall x, In x a -> In x b -> False).
Proof.
  induction a; intros b H; cbn in *; [split; [constructor|auto]|]. inversion H; subst. destruct (IHa _ H3) as (A & B & C).
  split; [constructor; auto; intro; apply H2; apply in_or_app; auto|]. split; auto.
  intros x [->|X] Y; [apply H2; apply in_or_app; auto|eauto].
Qed.
Lemma rot_step : forall f c t h, rid t <> None -> NoDup (cids (f :: c) ++ ids t) -> crep h (f :: c) -> rep h t (Some (fid f)) (fhand f) ->
  exists h' n, rid t = Some n /\ rotate (fhand f) h n = Some h' /\ crep h' c /\ rep h' (rot t f) (cid c) (chand c) /\
    (forall j, ~ In j (fids f ++ ids t) -> h' j = h j).
Proof.
  intros f c t h NE ND CR R. destruct t as [|n l v r]; [contradiction NE; reflexivity|]. clear NE.
  destruct f as [p pv pr|p pl pv]; cbn [fid fhand rotate rid] in *.
  - destruct R as (R1 & R2 & R3). destruct CR as ((x & P1) & P2 & P3).
    cbn [cids flat_map fids] in ND. rewrite <- app_assoc in ND. cbn [app] in ND. inversion ND as [|? ? N1 ND1]; subst.
    destruct (nodup_app _ _ ND1) as (Npr & ND2 & Dpr). destruct (nodup_app _ _ ND2) as (Nc & Nt & Dc).
    cbn [ids] in Nt. inversion Nt as [|? ? Nn Nlr]; subst. destruct (nodup_app _ _ Nlr) as (Nl & Nr & Dlr).
    assert (NP : n <> p). { intros ->. apply N1. rewrite !in_app_iff. right; right. left; auto. }
    destruct (rotate_right_raw h n (rid l) v (rid r) p LEFT (cid c) x (rid pr) pv (chand c) R1 P1 NP) as (h' & E & E1 & E2 & E3 & E4).
    { intros i I. apply rid_in in I as I'. split; [|split].
      - intros ->. apply Nn. apply in_or_app; auto.
      - intros ->. apply N1. rewrite !in_app_iff. right; right. right. apply in_or_app; auto.
      - eapply rep_rid; eauto. }
    rewrite chand_fix in E1. exists h', n. split; [auto|]. split; [auto|]. split; [|split].
    + apply (crep_ext c h); auto. intros j J. apply E4.
      * intros ->. apply (Dc n); auto. left; auto.
      * intros ->. apply N1. rewrite !in_app_iff. auto.
      * intros I. apply rid_in in I. apply (Dc j); auto. right. apply in_or_app; auto.
    + cbn [rot rep]. split; [exact E1|]. split; [|split; [exact E2|split]].
      * apply (rep_ext l h); auto. intros j J. apply E4.
        -- intros ->. apply Nn. apply in_or_app; auto.
        -- intros ->. apply N1. rewrite !in_app_iff. right; right. right. apply in_or_app; auto.
        -- intros I. apply rid_in in I. eauto.
      * apply (rep_move r h h' (Some n) RIGHT); auto. intros j J K. apply E4; auto.
        -- intros ->. apply Nn. apply in_or_app; auto.
        -- intros ->. apply N1. rewrite !in_app_iff. right; right. right. apply in_or_app; auto.
      * apply (rep_ext pr h); auto. intros j J. apply E4.
        -- intros ->. apply (Dpr n); auto. apply in_or_app. right. left; auto.
        -- intros ->. apply N1. rewrite !in_app_iff. auto.
        -- intros I. apply rid_in in I. apply (Dpr j); auto. apply in_or_app. right. right. apply in_or_app; auto.
    + intros j J. apply E4.
      * intros ->. apply J. apply in_or_app. right. left; auto.
      * intros ->. apply J. left; auto.
      * intros I. apply rid_in in I. apply J. apply in_or_app. right. right. apply in_or_app; auto.
  - destruct R as (R1 & R2 & R3). destruct CR as ((x & P1) & P2 & P3).
    cbn [cids flat_map fids] in ND. rewrite <- app_assoc in ND. cbn [app] in ND. inversion ND as [|? ? N1 ND1]; subst.
    destruct (nodup_app _ _ ND1) as (Npr & ND2 & Dpr). destruct (nodup_app _ _ ND2) as (Nc & Nt & Dc).
    cbn [ids] in Nt. inversion Nt as [|? ? Nn Nlr]; subst. destruct (nodup_app _ _ Nlr) as (Nl & Nr & Dlr).
    assert (NP : n <> p). { intros ->. apply N1. rewrite !in_app_iff. right; right. left; auto. }
    destruct (rotate_left_raw h n (rid l) v (rid r) p RIGHT (cid c) x (rid pl) pv (chand c) R1 P1 NP) as (h' & E & E1 & E2 & E3 & E4).
    { intros i I. apply rid_in in I as I'. split; [|split].
      - intros ->. apply Nn. apply in_or_app; auto.
      - intros ->. apply N1. rewrite !in_app_iff. right; right. right. apply in_or_app; auto.
      - eapply rep_rid; [exact R2|eauto]. }
    rewrite chand_fix in E1. exists h', n. split; [auto|]. split; [auto|]. split; [|split].
    + apply (crep_ext c h); auto. intros j J. apply E4.
      * intros ->. apply (Dc n); auto. left; auto.
      * intros ->. apply N1. rewrite !in_app_iff. auto.
      * intros I. apply rid_in in I. apply (Dc j); auto. right. apply in_or_app; auto.
    + cbn [rot rep]. split; [exact E1|]. split; [split; [exact E2|split]|].
      * apply (rep_ext pl h); auto. intros j J. apply E4.
        -- intros ->. apply (Dpr n); auto. apply in_or_app. right. left; auto.
        -- intros ->. apply N1. rewrite !in_app_iff. auto.
        -- intros I. apply rid_in in I. apply (Dpr j); auto. apply in_or_app. right. right. apply in_or_app; auto.
      * apply (rep_move l h h' (Some n) LEFT); auto. intros j J K. apply E4; auto.
        -- intros ->. apply Nn. apply in_or_app; auto.
        -- intros ->. apply N1. rewrite !in_app_iff. right; right. right. apply in_or_app; auto.
      * apply (rep_ext r h); auto. intros j J. apply E4.
        -- intros ->. apply Nn. apply in_or_app; auto.
        -- intros ->. apply N1. rewrite !in_app_iff. right; right. right. apply in_or_app; auto.
        -- intros I. apply rid_in in I. eauto.
    + intros j J. apply E4.
      * intros ->. apply J. apply in_or_app. right. left; auto.
      * intros ->. apply J. left; auto.
      * intros I. apply rid_in in I. apply J. apply in_or_app. right. right. apply in_or_app; auto.
Qed.
End P.
