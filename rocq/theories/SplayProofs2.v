From Coq Require Import Permutation.
From Verif Require Import Base SplayModel SplayProofs.
Open Scope nat_scope.
Section P.
Context {V : Type}.
Notation heap := (heap V).
Notation tr := (@tr V).
Notation frame := (@frame V).

Lemma rot_perm : forall (f : frame) c t, t <> Lf -> Permutation (cids (f :: c) ++ ids t) (cids c ++ ids (rot t f)).
Proof.
  intros f c t NE. destruct t as [|n l v r]; [contradiction|].
  cbn [cids flat_map]. rewrite <- app_assoc. fold (cids c). rewrite (Permutation_app_comm (fids f)). rewrite <- app_assoc.
  apply Permutation_app_head. rewrite Permutation_app_comm. destruct f as [p pv pr|p pl pv]; cbn [fids rot ids app].
  - rewrite <- Permutation_middle. cbn [app]. apply perm_trans with (n :: p :: ids l ++ ids r ++ ids pr).
    + eapply perm_trans; [apply perm_swap|]. constructor. constructor. rewrite (app_assoc (ids l)). rewrite (Permutation_app_comm (ids pr)). apply Permutation_refl.
    + constructor. apply Permutation_middle.
  - rewrite <- Permutation_middle. cbn [app]. eapply perm_trans; [apply perm_swap|]. constructor. constructor. rewrite <- app_assoc. apply Permutation_refl.
Qed.
Lemma rot_rid : forall (t : tr) f, rid (rot t f) = rid t.
Proof. destruct t; auto. destruct f; auto. Qed.
Lemma fold_rot_rid : forall c (t : tr), rid (fold_left rot c t) = rid t.
Proof. induction c; intros; cbn [fold_left]; auto. rewrite IHc. apply rot_rid. Qed.
Lemma rid_lf : forall (t : tr), rid t <> None -> t <> Lf.
Proof. intros t H ->. apply H; auto. Qed.

Lemma splay_spec : forall k c (t : tr) h fuel n, length c <= k -> length c < fuel -> rid t = Some n ->
  NoDup (cids c ++ ids t) -> crep h c -> rep h t (cid c) (chand c) ->
  exists h', splay fuel h n = Some h' /\ rep h' (fold_left rot c t) None NA /\
    NoDup (ids (fold_left rot c t)) /\ (forall j, ~ In j (cids c ++ ids t) -> h' j = h j) /\
    Permutation (cids c ++ ids t) (ids (fold_left rot c t)).
Proof.
  induction k as [k IH] using lt_wf_ind. intros c t h fuel n LK LF RI ND CR R.
  destruct fuel as [|fuel]; [lia|]. destruct t as [|n' l v r]; [discriminate|]. injection RI as ->.
  set (t := Nd n l v r) in *. assert (TN : t <> Lf) by discriminate. assert (RN : rid t <> None) by discriminate.
  destruct c as [|f c].
  - exists h. cbn [splay]. pose proof R as (R1 & _). rewrite R1. cbn [bind sn_par cid fold_left cids flat_map app] in *. auto.
  - assert (HN : h n = Some (mksn (Some (fid f)) (rid l) (rid r) v (fhand f))).
    { destruct R as (R1 & _). rewrite R1. destruct f; reflexivity. }
    assert (R' : rep h t (Some (fid f)) (fhand f)) by (destruct f; exact R).
    assert (HP : exists x, h (fid f) = Some x /\ sn_par x = cid c /\ sn_hand x = chand c).
    { destruct f; destruct CR as ((x & A) & _); eexists; (split; [exact A|split; reflexivity]). }
    destruct HP as (np & HP & HPP & HPH).
    destruct (rot_step f c t h RN ND CR R') as (h1 & n1 & RI1 & RO1 & CR1 & RE1 & OUT1).
    injection RI1 as <-.
    assert (PM1 := rot_perm f c t TN).
    assert (ND1 : NoDup (cids c ++ ids (rot t f))) by (eapply Permutation_NoDup; eauto).
    cbn [splay]. rewrite HN. cbn [bind sn_par]. rewrite HP. cbn [bind]. rewrite HPP. cbn [sn_hand].
    destruct c as [|g c].
    + cbn [cid]. destruct (IH 0 ltac:(cbn in LK; lia) [] (rot t f) h1 fuel n) as (h2 & S2 & RE2 & ND2 & OUT2 & PM2); auto.
      * cbn in LF. cbn; lia.
      * rewrite rot_rid. reflexivity.
      * exists h2. cbn [fold_left] in *. split.
        -- destruct f; cbn [fhand rotate] in *; rewrite RO1; cbn [bind]; exact S2.
        -- split; [exact RE2|]. split; [exact ND2|]. split.
           ++ intros j J. rewrite OUT2, OUT1; auto.
              ** intro X. apply J. cbn [cids flat_map] in *. rewrite app_nil_r. exact X.
              ** intro X. apply J. eapply Permutation_in; [apply Permutation_sym; exact PM1|exact X].
           ++ eapply Permutation_trans; [exact PM1|exact PM2].
    + cbn [cid]. rewrite HPH.
      assert (RN1 : rid (rot t f) <> None) by (rewrite rot_rid; discriminate).
      assert (RE1' : rep h1 (rot t f) (Some (fid g)) (fhand g)) by (destruct g; exact RE1).
      destruct (rot_step g c (rot t f) h1 RN1 ND1 CR1 RE1') as (h2 & n2 & RI2 & RO2 & CR2 & RE2 & OUT2).
      rewrite rot_rid in RI2. injection RI2 as <-.
      assert (PM2 := rot_perm g c (rot t f) (rid_lf _ RN1)).
      assert (ND2 : NoDup (cids c ++ ids (rot (rot t f) g))) by (eapply Permutation_NoDup; eauto).
      destruct (IH (length c) ltac:(cbn in LK; lia) c (rot (rot t f) g) h2 fuel n) as (h3 & S3 & RE3 & ND3 & OUT3 & PM3); auto.
      * cbn in LF. lia.
      * rewrite !rot_rid. reflexivity.
      * exists h3. cbn [fold_left]. split.
        -- destruct f, g; cbn [fhand rotate chand] in *; rewrite RO1; cbn [bind]; rewrite RO2; cbn [bind]; exact S3.
        -- split; [exact RE3|]. split; [exact ND3|]. split.
           ++ intros j J. rewrite OUT3, OUT2, OUT1; auto.
              ** intro X. apply J. cbn [cids flat_map] in *. rewrite in_app_iff in *. rewrite in_app_iff. tauto.
              ** intro X. apply J. eapply Permutation_in; [apply Permutation_sym; exact PM1|]. cbn [cids flat_map]. rewrite in_app_iff in *. rewrite in_app_iff. tauto.
              ** intro X. apply J. eapply Permutation_in; [apply Permutation_sym; exact PM1|]. eapply Permutation_in; [apply Permutation_sym; exact PM2|exact X].
           ++ eapply Permutation_trans; [exact PM1|]. eapply Permutation_trans; [exact PM2|exact PM3].
Qed.

(* values *)
Lemma vals_plug : forall (t u : tr) f, vals t = vals u -> vals (plug1 t f) = vals (plug1 u f).
Proof. intros t u [] E; cbn; rewrite E; auto. Qed.
Lemma vals_fold_plug : forall c (t u : tr), vals t = vals u -> vals (fold_left plug1 c t) = vals (fold_left plug1 c u).
Proof. induction c; intros; cbn [fold_left]; auto. apply IHc. apply vals_plug; auto. Qed.
Lemma vals_rot : forall (t : tr) f, t <> Lf -> vals (rot t f) = vals (plug1 t f).
Proof. intros [|n l v r] f H; [contradiction|]. destruct f; cbn; rewrite <- ?app_assoc; reflexivity. Qed.
Lemma vals_fold_rot : forall c (t : tr), t <> Lf -> vals (fold_left rot c t) = vals (fold_left plug1 c t).
Proof.
  induction c; intros t H; cbn [fold_left]; auto. rewrite IHc.
  - apply vals_fold_plug. apply vals_rot; auto.
  - apply rid_lf. rewrite rot_rid. destruct t; [contradiction|discriminate].
Qed.

(* looking at a subtree of a represented tree *)
Definition at_ (h : heap) (c : list frame) (t : tr) : Prop := crep h c /\ rep h t (cid c) (chand c).
Lemma ids_plug : forall c (t : tr), Permutation (cids c ++ ids t) (ids (fold_left plug1 c t)).
Proof.
  induction c as [|f c IH]; intros t; cbn [cids flat_map fold_left app]; [apply Permutation_refl|].
  eapply Permutation_trans; [|apply IH]. rewrite <- app_assoc. rewrite (Permutation_app_comm (fids f)). rewrite <- app_assoc.
  apply Permutation_app_head. destruct f; cbn [fids plug1 ids].
  - rewrite Permutation_app_comm. cbn [app]. constructor. apply Permutation_app_comm.
  - rewrite Permutation_app_comm. apply Permutation_refl.
Qed.
Lemma at_left : forall h c i l v r, at_ h c (Nd i l v r) -> at_ h (FL i v r :: c) l.
Proof. intros h c i l v r (C & R1 & R2 & R3). split; [|exact R2]. split; [exists (rid l); exact R1|split; auto]. Qed.
Lemma at_right : forall h c i l v r, at_ h c (Nd i l v r) -> at_ h (FR i l v :: c) r.
Proof. intros h c i l v r (C & R1 & R2 & R3). split; [|exact R3]. split; [exists (rid r); exact R1|split; auto]. Qed.
Lemma at_find : forall (t : tr) h c i, at_ h c t -> In i (ids t) ->
  exists c' t', fold_left plug1 c' t' = fold_left plug1 c t /\ rid t' = Some i /\ at_ h c' t'.
Proof.
  induction t as [|n l IHl v r IHr]; intros h c i A H; [contradiction|]. destruct H as [->|H].
  - exists c, (Nd i l v r). auto.
  - apply in_app_or in H. destruct H as [H|H].
    + destruct (IHl h _ i (at_left _ _ _ _ _ _ A) H) as (c' & t' & E & R & A'). exists c', t'. auto.
    + destruct (IHr h _ i (at_right _ _ _ _ _ _ A) H) as (c' & t' & E & R & A'). exists c', t'. auto.
Qed.
Fixpoint depth (t : tr) : nat := match t with Lf => 0 | Nd _ l _ r => S (Nat.max (depth l) (depth r)) end.
Lemma depth_ids : forall t : tr, depth t <= length (ids t).
Proof. induction t; cbn [depth ids length]; rewrite ?app_length; lia. Qed.
Lemma cids_len : forall c : list frame, length c <= length (cids c).
Proof. induction c as [|[]]; cbn [length cids flat_map fids]; auto; cbn [app length]; rewrite ?app_length; unfold cids in IHc; lia. Qed.

(* find *)
Fixpoint tfind (p : V -> Z) (t : tr) : option (nat * V) :=
  match t with
  | Lf => None
  | Nd i l v r => if (p v <? 0)%Z then tfind p l else if (p v >? 0)%Z then tfind p r else Some (i, v)
  end.
Lemma node_find_spec : forall p (t : tr) h pp d fuel i, rep h t pp d -> rid t = Some i -> depth t <= fuel ->
  node_find fuel h p i = Some (option_map fst (tfind p t)).
Proof.
  induction t as [|n l IHl v r IHr]; intros h pp d fuel i R E L; [discriminate|]. injection E as ->.
  cbn [depth] in L. destruct fuel; [lia|]. destruct R as (R1 & R2 & R3). cbn [node_find tfind]. rewrite R1. cbn [bind sn_val sn_left sn_right].
  destruct (p v <? 0)%Z.
  - destruct l as [|j ll lv lr]; [reflexivity|]. cbn [rid]. apply (IHl h (Some i) LEFT); auto. lia.
  - destruct (p v >? 0)%Z; [|reflexivity]. destruct r as [|j rl rv rr]; [reflexivity|]. cbn [rid]. apply (IHr h (Some i) RIGHT); auto. lia.
Qed.
Lemma tfind_in : forall p (t : tr) i v, tfind p t = Some (i, v) -> In i (ids t) /\ In v (vals t) /\ p v = 0%Z.
Proof.
  induction t as [|n l IHl w r IHr]; intros i v E; [discriminate|]. cbn [tfind] in E. cbn [ids vals].
  destruct (p w <? 0)%Z eqn:A.
  - destruct (IHl _ _ E) as (X & Y & Z0). split; [right; apply in_or_app; auto|split; auto; apply in_or_app; auto].
  - destruct (p w >? 0)%Z eqn:B.
    + destruct (IHr _ _ E) as (X & Y & Z0). split; [right; apply in_or_app; auto|split; auto; apply in_or_app; right; right; auto].
    + injection E as -> ->. split; [left; auto|]. split; [apply in_or_app; right; left; auto|]. lia.
Qed.
Lemma rep_val : forall p (t : tr) h pp d i v, rep h t pp d -> tfind p t = Some (i, v) -> exists n, h i = Some n /\ sn_val n = v.
Proof.
  induction t as [|n l IHl w r IHr]; intros h pp d i v R E; [discriminate|]. cbn [tfind] in E. destruct R as (R1 & R2 & R3).
  destruct (p w <? 0)%Z; [eauto|]. destruct (p w >? 0)%Z; [eauto|]. injection E as -> ->. eauto.
Qed.
(* insert *)
Variable cmp : V -> V -> Z.
Fixpoint tins (nx : nat) (v : V) (t : tr) : tr :=
  match t with
  | Lf => Nd nx Lf v Lf
  | Nd i l w r => if (cmp v w <? 0)%Z then Nd i (tins nx v l) w r
                  else if (cmp v w >? 0)%Z then Nd i l w (tins nx v r) else Nd i l v r
  end.
Fixpoint tfresh (v : V) (t : tr) : bool :=
  match t with
  | Lf => true
  | Nd i l w r => if (cmp v w <? 0)%Z then tfresh v l else if (cmp v w >? 0)%Z then tfresh v r else false
  end.
Lemma tins_ids : forall nx v t, Permutation (ids (tins nx v t)) (if tfresh v t then nx :: ids t else ids t).
Proof.
  induction t as [|n l IHl w r IHr]; cbn [tins tfresh ids app]; auto.
  destruct (cmp v w <? 0)%Z; [|destruct (cmp v w >? 0)%Z]; cbn [ids].
  - destruct (tfresh v l).
    + eapply perm_trans; [|apply perm_swap]. constructor. apply (Permutation_app_tail (ids r) IHl).
    + constructor. apply Permutation_app_tail; auto.
  - destruct (tfresh v r).
    + eapply perm_trans; [|apply perm_swap]. constructor. eapply perm_trans; [apply Permutation_app_head; exact IHr|].
      apply Permutation_sym. apply Permutation_middle.
    + constructor. apply Permutation_app_head; auto.
  - apply Permutation_refl.
Qed.
Lemma node_insert_spec : forall nx v t h c fuel i, at_ h c t -> NoDup (cids c ++ ids t) -> ~ In nx (cids c ++ ids t) ->
  rid t = Some i -> depth t <= fuel ->
  exists h' c' t' j, node_insert fuel cmp h nx i v = Some (h', j, tfresh v t) /\ at_ h' c' t' /\ rid t' = Some j /\
    fold_left plug1 c' t' = fold_left plug1 c (tins nx v t) /\
    (forall k, ~ In k (cids c ++ ids t) -> k <> nx -> h' k = h k).
Proof.
  intros nx v. induction t as [|n l IHl w r IHr]; intros h c fuel i A ND NX E L; [discriminate|]. injection E as ->.
  cbn [depth] in L. destruct fuel; [lia|]. pose proof A as (C & R1 & R2 & R3).
  assert (NI : nx <> i). { intros ->. apply NX. apply in_or_app. right. left; auto. }
  assert (ND' := proj1 (proj2 (nodup_app _ _ ND))). cbn [ids] in ND'. inversion ND' as [|? ? Ni Nlr]; subst.
  assert (Di : ~ In i (cids c)). { intro X. destruct (nodup_app _ _ ND) as (_ & _ & D). apply (D i X). left; auto. }
  cbn [node_insert tins tfresh]. rewrite R1. cbn [bind sn_val sn_left sn_right].
  destruct (cmp v w <? 0)%Z eqn:LT; [|destruct (cmp v w >? 0)%Z eqn:GT].
  - destruct l as [|lj ll lv lr].
    + cbn [rid]. unfold wr. rewrite hupd_neq by auto. rewrite R1. cbn [bind].
      eexists _, (FL i w r :: c), (Nd nx Lf v Lf), nx. split; [reflexivity|]. split; [|split; [reflexivity|split; [reflexivity|]]].
      * split.
        -- split; [exists (Some nx); rewrite hupd_eq; reflexivity|]. split.
           ++ apply (rep_ext r h); auto. intros j J. rewrite !hupd_neq; auto.
              ** intros ->. apply NX. apply in_or_app. right. right. auto.
              ** intros ->. apply Ni. auto.
           ++ apply (crep_ext c h); auto. intros j J. rewrite !hupd_neq; auto.
              ** intros ->. apply NX. apply in_or_app. auto.
              ** intros ->. apply Di. auto.
        -- split; [|split; exact Logic.I]. rewrite hupd_neq by auto. rewrite hupd_eq. reflexivity.
      * intros k K1 K2. rewrite !hupd_neq; auto. intros ->. apply K1. apply in_or_app. right. left; auto.
    + assert (P : Permutation (cids (FL i w r :: c) ++ ids (Nd lj ll lv lr)) (cids c ++ ids (Nd i (Nd lj ll lv lr) w r))).
      { eapply perm_trans; [apply ids_plug|]. cbn [fold_left]. apply Permutation_sym. apply ids_plug. }
      destruct (IHl h (FL i w r :: c) fuel lj) as (h' & c' & t' & j & E1 & A1 & RI1 & PL & OUT).
      * apply at_left; auto.
      * eapply Permutation_NoDup; [apply Permutation_sym; exact P|auto].
      * intro X. apply NX. eapply Permutation_in; eauto.
      * reflexivity.
      * lia.
      * exists h', c', t', j. split; [exact E1|]. split; [auto|]. split; [auto|]. split; [rewrite PL; reflexivity|].
        intros k K. apply OUT. intro X. apply K. eapply Permutation_in; eauto.
  - destruct r as [|lj ll lv lr].
    + cbn [rid]. unfold wr. rewrite hupd_neq by auto. rewrite R1. cbn [bind].
      eexists _, (FR i l w :: c), (Nd nx Lf v Lf), nx. split; [reflexivity|]. split; [|split; [reflexivity|split; [reflexivity|]]].
      * split.
        -- split; [exists (Some nx); rewrite hupd_eq; reflexivity|]. split.
           ++ apply (rep_ext l h); auto. intros j J. rewrite !hupd_neq; auto.
              ** intros ->. apply NX. apply in_or_app. right. right. apply in_or_app; auto.
              ** intros ->. apply Ni. apply in_or_app; auto.
           ++ apply (crep_ext c h); auto. intros j J. rewrite !hupd_neq; auto.
              ** intros ->. apply NX. apply in_or_app. auto.
              ** intros ->. apply Di. auto.
        -- split; [|split; exact Logic.I]. rewrite hupd_neq by auto. rewrite hupd_eq. reflexivity.
      * intros k K1 K2. rewrite !hupd_neq; auto. intros ->. apply K1. apply in_or_app. right. left; auto.
    + assert (P : Permutation (cids (FR i l w :: c) ++ ids (Nd lj ll lv lr)) (cids c ++ ids (Nd i l w (Nd lj ll lv lr)))).
      { eapply perm_trans; [apply ids_plug|]. cbn [fold_left]. apply Permutation_sym. apply ids_plug. }
      destruct (IHr h (FR i l w :: c) fuel lj) as (h' & c' & t' & j & E1 & A1 & RI1 & PL & OUT).
      * apply at_right; auto.
      * eapply Permutation_NoDup; [apply Permutation_sym; exact P|auto].
      * intro X. apply NX. eapply Permutation_in; eauto.
      * reflexivity.
      * lia.
      * exists h', c', t', j. split; [exact E1|]. split; [auto|]. split; [auto|]. split; [rewrite PL; reflexivity|].
        intros k K. apply OUT. intro X. apply K. eapply Permutation_in; eauto.
  - unfold wr. rewrite R1. cbn [bind]. eexists _, c, (Nd i l v r), i. split; [reflexivity|]. split; [|split; [reflexivity|split; [reflexivity|]]].
    + split; [apply (crep_ext c h); auto; intros j J; apply hupd_neq; intros ->; auto|].
      split; [rewrite hupd_eq; reflexivity|]. split.
      * apply (rep_ext l h); auto. intros j J. apply hupd_neq. intros ->. apply Ni. apply in_or_app; auto.
      * apply (rep_ext r h); auto. intros j J. apply hupd_neq. intros ->. apply Ni. apply in_or_app; auto.
    + intros k K1 K2. apply hupd_neq. intros ->. apply K1. apply in_or_app. right. left; auto.
Qed.
End P.
