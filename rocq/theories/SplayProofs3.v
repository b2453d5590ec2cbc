From Coq Require Import Permutation.
From Verif Require Import Base SplayModel SplaySpec SplayProofs SplayProofs2.
Open Scope nat_scope.
Section P.
Context {V : Type}.
Notation heap := (heap V).
Notation tr := (@tr V).
Notation frame := (@frame V).

Record SI (s : stree V) (T : tr) : Prop := mkSI {
  si_rep : rep (st_heap s) T None NA;
  si_root : st_root s = rid T;
  si_nd : NoDup (ids T);
  si_lt : forall j, In j (ids T) -> j < st_next s;
  si_dom : forall j, ~ In j (ids T) -> st_heap s j = None
}.
Lemma ids_bound : forall (l : list nat) n, NoDup l -> (forall j, In j l -> j < n) -> length l <= n.
Proof.
  intros l n ND B. rewrite <- (seq_length n 0). apply NoDup_incl_length; auto. intros j J. apply in_seq. specialize (B j J). lia.
Qed.
Lemma si_init : SI st_init Lf.
Proof. constructor; cbn; intros; auto; try constructor; contradiction. Qed.

Lemma find_si : forall s T p, SI s T -> find s p = Some (option_map fst (tfind p T)) /\
  forall i v, tfind p T = Some (i, v) -> deref s i = Some v.
Proof.
  intros s T p [R RT ND LT DM]. split.
  - unfold find. rewrite RT. destruct T as [|n l v r] eqn:E; [reflexivity|]. cbn [rid]. rewrite <- E in *.
    apply (node_find_spec p T _ None NA); auto; [rewrite E; reflexivity|].
    pose proof (depth_ids T). pose proof (ids_bound _ _ ND LT). unfold st_fuel. lia.
  - intros i v E. destruct (rep_val p T _ _ _ _ _ R E) as (n & H & <-). unfold deref. rewrite H. reflexivity.
Qed.

Lemma insert_si : forall cmp s T v, SI s T -> exists s' T', insert cmp s v = Some s' /\ SI s' T' /\ vals T' = vals (tins cmp (st_next s) v T).
Proof.
  intros cmp s T v [R RT ND LT DM]. unfold insert. rewrite RT. destruct T as [|n l w r] eqn:E.
  - cbn [rid]. eexists _, (Nd (st_next s) Lf v Lf). split; [reflexivity|]. split; [|reflexivity].
    constructor; cbn [st_heap st_next st_root rid rep ids].
    + split; [apply hupd_eq|auto].
    + auto.
    + constructor; [intros []|constructor].
    + intros j [<-|[]]. lia.
    + intros j J. rewrite hupd_neq by (intros ->; apply J; left; auto). apply DM. intros [].
  - cbn [rid]. rewrite <- E in *. assert (RI : rid T = Some n) by (rewrite E; reflexivity).
    assert (NX : ~ In (st_next s) (ids T)) by (intro X; specialize (LT _ X); lia).
    pose proof (depth_ids T) as DI. pose proof (ids_bound _ _ ND LT) as IB.
    destruct (node_insert_spec cmp (st_next s) v T (st_heap s) [] (st_fuel s) n) as (h1 & c & t & i & E1 & A1 & RI1 & PL & OUT); auto.
    { split; [exact Logic.I|exact R]. }
    { unfold st_fuel. lia. }
    rewrite E1. cbn [bind]. cbn [fold_left] in PL.
    assert (P1 : Permutation (cids c ++ ids t) (if tfresh cmp v T then st_next s :: ids T else ids T)).
    { eapply perm_trans; [apply ids_plug|]. rewrite PL. apply tins_ids. }
    assert (N1 : NoDup (cids c ++ ids t)).
    { eapply Permutation_NoDup; [apply Permutation_sym; exact P1|]. destruct (tfresh cmp v T); auto. constructor; auto. }
    assert (LN : length (cids c ++ ids t) <= S (st_next s)).
    { rewrite (Permutation_length P1). destruct (tfresh cmp v T); cbn [length]; lia. }
    destruct (splay_spec (length c) c t h1 (st_fuel s) i) as (h2 & S2 & R2 & ND2 & OUT2 & P2); auto; try apply A1.
    { pose proof (cids_len c). rewrite app_length in LN. unfold st_fuel. lia. }
    rewrite S2. cbn [bind]. eexists _, (fold_left rot c t). split; [reflexivity|]. split.
    + constructor; cbn [st_heap st_next st_root]; auto.
      * rewrite fold_rot_rid. auto.
      * intros j J. apply (Permutation_in _ (Permutation_sym P2)) in J. apply (Permutation_in _ P1) in J.
        destruct (tfresh cmp v T); [destruct J as [<-|J]; [lia|]|]; specialize (LT _ J); lia.
      * intros j J.
        assert (J1 : ~ In j (cids c ++ ids t)) by (intro X; apply J; eapply Permutation_in; eauto).
        rewrite OUT2 by auto.
        assert (J2 : ~ In j (ids T)). { intro X. apply J1. eapply Permutation_in; [apply Permutation_sym; exact P1|]. destruct (tfresh cmp v T); [right|]; auto. }
        destruct (Nat.eq_dec j (st_next s)) as [->|NE].
        -- (* not fresh: untouched *)
           destruct (tfresh cmp v T) eqn:F.
           ++ exfalso. apply J1. eapply Permutation_in; [apply Permutation_sym; exact P1|]. left; auto.
           ++ clear - E1 F DM J2. specialize (DM _ J2). revert E1 F DM. generalize (st_fuel s). generalize n. generalize (st_heap s).
              intros h m f. revert m. induction f; intros m E1 F DM; [discriminate|]. cbn [node_insert] in E1. destruct (h m) as [nd|] eqn:HM; [|discriminate].
              cbn [bind] in E1. destruct (cmp v (sn_val nd) <? 0)%Z; [|destruct (cmp v (sn_val nd) >? 0)%Z].
              ** destruct (sn_left nd); [eauto|]. destruct (wr _ m _); [|discriminate]. cbn [bind] in E1. congruence.
              ** destruct (sn_right nd); [eauto|]. destruct (wr _ m _); [|discriminate]. cbn [bind] in E1. congruence.
              ** unfold wr in E1. rewrite HM in E1. cbn [bind] in E1. injection E1 as <- <-. rewrite hupd_neq; auto. intro Q. rewrite Q in DM. congruence.
        -- rewrite OUT; auto.
    + rewrite vals_fold_rot by (apply rid_lf; congruence). rewrite PL. reflexivity.
Qed.

(* findMax: only right children on the way *)
Definition isFR (f : frame) : Prop := match f with FR _ _ _ => True | FL _ _ _ => False end.
Lemma find_max_spec : forall (t : tr) h c fuel i, at_ h c t -> rid t = Some i -> depth t <= fuel -> Forall isFR c ->
  exists c' m ml mv, find_max fuel h i = Some m /\ at_ h c' (Nd m ml mv Lf) /\ Forall isFR c' /\
    fold_left plug1 c' (Nd m ml mv Lf) = fold_left plug1 c t.
Proof.
  induction t as [|n l IHl v r IHr]; intros h c fuel i A E L F; [discriminate|]. injection E as ->.
  cbn [depth] in L. destruct fuel; [lia|]. pose proof A as (C & R1 & _). cbn [find_max]. rewrite R1. cbn [bind sn_right].
  destruct r as [|j rl rv rr].
  - exists c, i, l, v. auto.
  - cbn [rid]. destruct (IHr h (FR i l v :: c) fuel j (at_right _ _ _ _ _ _ A) eq_refl) as (c' & m & ml & mv & E1 & A1 & F1 & P1); [lia|constructor; auto; exact Logic.I|].
    exists c', m, ml, mv. auto.
Qed.
Lemma rot_FR : forall c m (ml : tr) mv, Forall isFR c -> exists ll, fold_left rot c (Nd m ml mv Lf) = Nd m ll mv Lf.
Proof.
  induction c as [|[p pv pr|p pl pv] c IH]; intros m ml mv F; cbn [fold_left]; eauto; inversion F; subst; [contradiction|].
  cbn [rot]. apply IH; auto.
Qed.

Lemma remove_si : forall s T i, SI s T -> In i (ids T) -> exists s' T' v a b,
  remove s i = Some s' /\ SI s' T' /\ deref s i = Some v /\ vals T = a ++ v :: b /\ vals T' = a ++ b.
Proof.
  intros s T i [R RT ND LT DM] I.
  destruct (at_find T (st_heap s) [] i (conj Logic.I R) I) as (c & t & PL & RI & A). cbn [fold_left] in PL.
  assert (P0 := ids_plug c t). rewrite PL in P0.
  assert (N0 : NoDup (cids c ++ ids t)) by (eapply Permutation_NoDup; [apply Permutation_sym; exact P0|auto]).
  pose proof (ids_bound _ _ ND LT) as IB.
  assert (LC : length c < st_fuel s).
  { pose proof (cids_len c). pose proof (Permutation_length P0) as PLn. rewrite app_length in PLn. unfold st_fuel. lia. }
  destruct (splay_spec (length c) c t (st_heap s) (st_fuel s) i (le_n _) LC RI N0 (proj1 A) (proj2 A)) as (h1 & S1 & R1 & ND1 & OUT1 & P1).
  assert (VT : vals (fold_left rot c t) = vals T). { rewrite vals_fold_rot by (apply rid_lf; congruence). rewrite PL. reflexivity. }
  assert (RR : rid (fold_left rot c t) = Some i) by (rewrite fold_rot_rid; auto).
  assert (P01 : Permutation (ids T) (ids (fold_left rot c t))) by (eapply perm_trans; [apply Permutation_sym; exact P0|exact P1]).
  assert (DM1 : forall j, ~ In j (ids (fold_left rot c t)) -> h1 j = None).
  { intros j J. rewrite OUT1 by (intro X; apply J; exact (Permutation_in _ P1 X)). apply DM. intro X. apply J. exact (Permutation_in _ P01 X). }
  destruct (fold_left rot c t) as [|i' l v r] eqn:T1; [discriminate|]. injection RR as ->.
  assert (LT1 : forall j, In j (ids (Nd i l v r)) -> j < st_next s).
  { intros j J. apply LT. eapply Permutation_in; [apply Permutation_sym; exact P01|exact J]. }
  assert (DV : deref s i = Some v).
  { (* values stay in their nodes *)
    assert (X : forall cc (u : tr) w a b, rid u = Some i -> (exists l0 r0, u = Nd i l0 w r0) -> fold_left rot cc u = Nd i a v b -> w = v).
    { clear. induction cc as [|f cc IH]; intros u w a b RI (l0 & r0 & ->) E; cbn [fold_left] in E; [congruence|].
      eapply (IH (rot (Nd i l0 w r0) f)); eauto; [rewrite rot_rid; auto|]. destruct f; cbn [rot]; eauto. }
    destruct t as [|i' tl tv tr']; [discriminate|]. injection RI as ->. destruct A as (_ & A & _).
    unfold deref. rewrite A. cbn [bind sn_val]. f_equal. eapply (X c (Nd i tl tv tr')); eauto. }
  exists (match remove s i with Some s' => s' | None => s end).
  unfold remove. rewrite S1. cbn [bind]. destruct R1 as (Ri & Rl & Rr). rewrite Ri. cbn [bind sn_left sn_right].
  cbn [ids] in ND1. inversion ND1 as [|? ? Ni Nlr]; subst. destruct (nodup_app _ _ Nlr) as (Nl & Nr & Dlr).
  cbn [vals] in VT. destruct l as [|lj ll lv lr].
  - destruct r as [|rj rl rv rr]; cbn [rid].
    + exists Lf, v, [], []. split; [reflexivity|]. split; [|split; [auto|split; [rewrite <- VT; reflexivity|reflexivity]]].
      constructor; cbn [st_heap st_next st_root rid rep ids]; auto; try constructor.
      * intros j [].
      * intros j _. destruct (Nat.eq_dec j i) as [->|NE]; [apply hupd_eq|]. rewrite hupd_neq by auto. apply DM1. intros [X|[]]; congruence.
    + destruct Rr as (Rr1 & Rr2 & Rr3). unfold wr. rewrite Rr1. cbn [bind].
      exists (Nd rj rl rv rr), v, [], (vals (Nd rj rl rv rr)). split; [reflexivity|]. split; [|split; [auto|split; [rewrite <- VT; reflexivity|reflexivity]]].
      assert (IR : rj <> i) by (intros ->; apply Ni; left; auto).
      cbn [ids app] in Nr. inversion Nr as [|? ? Nrj Nrr]; subst.
      constructor; cbn [st_heap st_next st_root rid].
      * cbn [rep]. rewrite hupd_neq by auto. rewrite hupd_eq. split; [reflexivity|]. split.
        -- apply (rep_ext rl h1); auto. intros j J. rewrite !hupd_neq; auto; intros ->.
           ++ apply Nrj. apply in_or_app; auto.
           ++ apply Ni. right. apply in_or_app; auto.
        -- apply (rep_ext rr h1); auto. intros j J. rewrite !hupd_neq; auto; intros ->.
           ++ apply Nrj. apply in_or_app; auto.
           ++ apply Ni. right. apply in_or_app; auto.
      * auto.
      * auto.
      * intros j J. apply LT1. right. auto.
      * intros j J. destruct (Nat.eq_dec j i) as [->|NE]; [apply hupd_eq|]. rewrite hupd_neq by auto. rewrite hupd_neq by (intros ->; apply J; left; auto).
        apply DM1. intros [X|X]; [congruence|]. apply J. auto.
  - set (l := Nd lj ll lv lr) in *. change (rid l) with (Some lj). cbn iota.
    pose proof Rl as (Rl1 & _ & _). rewrite (wr_some _ _ _ _ Rl1). cbn [bind].
    set (h2 := hupd h1 lj _) in *.
    assert (IL : lj <> i) by (intros ->; apply Ni; left; auto).
    assert (H2i : h2 i = h1 i) by (apply hupd_neq; auto).
    assert (R2l : rep h2 l None NA).
    { apply (rep_move l h1 h2 (Some i) LEFT); auto.
      - intros a m Ea Ha. injection Ea as <-. rewrite Rl1 in Ha. injection Ha as <-. unfold h2. rewrite hupd_eq. reflexivity.
      - intros j J1 J2. unfold h2. apply hupd_neq. intros ->. apply J2. reflexivity. }
    pose proof (depth_ids l) as DIl.
    assert (LL : length (ids l) <= st_next s).
    { apply ids_bound; auto. intros j J. apply LT1. right. apply in_or_app; auto. }
    destruct (find_max_spec l h2 [] (st_fuel s) lj (conj Logic.I R2l) eq_refl) as (c2 & m & ml & mv & EM & AM & FM & PM); [unfold st_fuel; lia|constructor|].
    rewrite EM. cbn [bind]. cbn [fold_left] in PM.
    assert (P2 := ids_plug c2 (Nd m ml mv Lf)). rewrite PM in P2.
    assert (N2 : NoDup (cids c2 ++ ids (Nd m ml mv Lf))) by (eapply Permutation_NoDup; [apply Permutation_sym; exact P2|auto]).
    assert (LC2 : length c2 < st_fuel s).
    { pose proof (cids_len c2). pose proof (Permutation_length P2) as PLn. rewrite app_length in PLn. unfold st_fuel. lia. }
    destruct (splay_spec (length c2) c2 (Nd m ml mv Lf) h2 (st_fuel s) m (le_n _) LC2 eq_refl N2 (proj1 AM) (proj2 AM)) as (h3 & S3 & R3 & ND3 & OUT3 & P3).
    rewrite S3. cbn [bind]. destruct (rot_FR c2 m ml mv FM) as (l3 & EL3).
    assert (V3 : vals l = vals l3 ++ [mv]).
    { rewrite <- PM. rewrite <- vals_fold_rot by discriminate. rewrite EL3. reflexivity. }
    rewrite EL3 in *. assert (PL3 : Permutation (ids l) (ids (Nd m l3 mv Lf))) by (eapply perm_trans; [apply Permutation_sym; exact P2|exact P3]).
    assert (OUT3' : forall j, ~ In j (ids l) -> h3 j = h2 j). { intros j J. apply OUT3. intro X. apply J. exact (Permutation_in _ P2 X). }
    assert (H3i : h3 i = h1 i). { rewrite OUT3' by (intro X; apply Ni; apply in_or_app; auto). auto. }
    rewrite H3i, Ri. cbn [bind sn_right]. destruct R3 as (R3m & R3l & _).
    rewrite (wr_some _ _ _ _ R3m). cbn [bind]. rewrite hupd_eq. cbn [bind set_right sn_par sn_left sn_val sn_hand sn_right rid].
    assert (IM : In m (ids l)). { eapply Permutation_in; [apply Permutation_sym; exact PL3|]. left; auto. }
    assert (MI : m <> i) by (intros ->; apply Ni; apply in_or_app; auto).
    assert (R4r : rep h3 r (Some i) RIGHT).
    { apply (rep_ext r h1); auto. intros j J. rewrite OUT3' by (intro X; eauto). unfold h2. apply hupd_neq. intros ->. apply (Dlr lj); auto. left; auto. }
    set (h4 := hupd h3 m _) in *.
    assert (X : exists h5, opt_wr h4 (rid r) (set_par (Some m)) = Some h5 /\ rep h5 r (Some m) RIGHT /\ (forall j, ~ In j (ids r) -> h5 j = h4 j)).
    { destruct r as [|rj rl rv rr]; cbn [rid opt_wr].
      - exists h4. split; [auto|split; [exact Logic.I|auto]].
      - destruct R4r as (Q1 & Q2 & Q3). assert (RM : rj <> m) by (intros ->; apply (Dlr m IM); left; auto).
        assert (h4 rj = h3 rj) as E4 by (apply hupd_neq; auto). rewrite Q1 in E4. rewrite (wr_some _ _ _ _ E4). eexists; split; [reflexivity|].
        cbn [ids] in Nr. inversion Nr as [|? ? Nrj Nrr]; subst.
        split.
        + split; [rewrite hupd_eq; reflexivity|]. split.
          * apply (rep_ext rl h3); auto. intros j J. rewrite hupd_neq by (intros ->; apply Nrj; apply in_or_app; auto).
            apply hupd_neq. intros ->. apply (Dlr m IM). right. apply in_or_app; auto.
          * apply (rep_ext rr h3); auto. intros j J. rewrite hupd_neq by (intros ->; apply Nrj; apply in_or_app; auto).
            apply hupd_neq. intros ->. apply (Dlr m IM). right. apply in_or_app; auto.
        + intros j J. apply hupd_neq. intros ->. apply J. left; auto. }
    destruct X as (h5 & E5 & R5 & OUT5). rewrite E5. cbn [bind].
    assert (PF : Permutation (ids (Nd m l3 mv r)) (ids l ++ ids r)).
    { eapply perm_trans; [|apply Permutation_app_tail; apply Permutation_sym; exact PL3]. cbn [ids app]. rewrite app_nil_r. apply Permutation_refl. }
    exists (Nd m l3 mv r), v, (vals l), (vals r). split; [reflexivity|]. split; [|split; [auto|split; [rewrite <- VT; reflexivity|cbn [vals]; rewrite V3, <- app_assoc; reflexivity]]].
    assert (ND4 : NoDup (ids (Nd m l3 mv r))) by (eapply Permutation_NoDup; [apply Permutation_sym; exact PF|auto]).
    assert (MR : ~ In m (ids r)) by (intro X; eauto).
    constructor; cbn [st_heap st_next st_root rid]; auto.
    + cbn [rep]. rewrite hupd_neq by auto. rewrite OUT5 by auto. unfold h4 at 1. rewrite hupd_eq. split; [reflexivity|]. split.
      * apply (rep_ext l3 h3); auto. intros j J.
        assert (JL : In j (ids l)). { eapply Permutation_in; [apply Permutation_sym; exact PL3|]. right. apply in_or_app; auto. }
        rewrite hupd_neq by (intros ->; apply Ni; apply in_or_app; auto). rewrite OUT5 by (intro X; eauto). apply hupd_neq.
        intros ->. cbn [ids] in ND4. inversion ND4; subst. apply H1. apply in_or_app; auto.
      * apply (rep_ext r h5); auto. intros j J. apply hupd_neq. intros ->. apply Ni. apply in_or_app; auto.
    + intros j J. apply LT1. right. exact (Permutation_in _ PF J).
    + intros j J. destruct (Nat.eq_dec j i) as [->|NE]; [apply hupd_eq|]. rewrite hupd_neq by auto.
      assert (J1 : ~ In j (ids l)) by (intro X; apply J; eapply Permutation_in; [apply Permutation_sym; exact PF|]; apply in_or_app; auto).
      assert (J2 : ~ In j (ids r)) by (intro X; apply J; eapply Permutation_in; [apply Permutation_sym; exact PF|]; apply in_or_app; auto).
      rewrite OUT5 by auto. unfold h4. rewrite hupd_neq by (intros ->; auto). rewrite OUT3' by auto. unfold h2. rewrite hupd_neq by (intros ->; apply J1; left; auto).
      apply DM1. intros [X|X]; [congruence|]. apply in_app_or in X. tauto.
Qed.
End P.
