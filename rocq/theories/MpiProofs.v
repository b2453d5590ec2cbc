(* Choreographies: if the programs of all ranks are the projections of one global list of messages,
   then every execution ends, with the result of running the list sequentially. *)
From Verif Require Import Base MpiModel.
Open Scope nat_scope.

Section C.
Context {L M : Type} (snd_ : nat -> L -> M * L) (rcv_ : nat -> M -> L -> L).
Inductive item := Full (s d t : nat) | Half (s d t : nat) (m : M).
Definition ipr (r : nat) (i : item) : list op :=
  match i with
  | Full s d t => if Nat.eqb r s then [OSend d t] else if Nat.eqb r d then [ORecv s t] else []
  | Half s d t m => if Nat.eqb r d then [ORecv s t] else []
  end.
Definition ich (s d : nat) (i : item) : list (nat * M) :=
  match i with Half s' d' t m => if Nat.eqb s s' && Nat.eqb d d' then [(t, m)] else [] | _ => [] end.
Definition iexec (mu : nat -> L) (i : item) : nat -> L :=
  match i with
  | Full s d t => let ml := snd_ t (mu s) in nupd (nupd mu s (snd ml)) d (rcv_ t (fst ml) (mu d))
  | Half s d t m => nupd mu d (rcv_ t m (mu d))
  end.
Definition exec (G : list item) (mu : nat -> L) : nat -> L := fold_left iexec G mu.
Definition act (r : nat) (i : item) : Prop := match i with Full s d _ => r = s \/ r = d | Half _ d _ _ => r = d end.
Definition proper (i : item) : Prop := match i with Full s d _ => s <> d | Half s d _ _ => s <> d end.
Definition ordered (G : list item) : Prop := forall A s d t m B, G = A ++ Half s d t m :: B -> Forall (fun i => ~ act s i) A.
Definition eqm (f g : nat -> L) := forall r, f r = g r.
Record rel (G : list item) (fin : nat -> L) (w : world L M) : Prop := mkrel {
  r_prog : forall r, w_prog w r = flat_map (ipr r) G;
  r_chan : forall s d, w_chan w s d = flat_map (ich s d) G;
  r_proper : Forall proper G;
  r_ord : ordered G;
  r_fin : eqm fin (exec G (w_mem w)) }.
Definition weight (G : list item) : nat := fold_right (fun i n => match i with Full _ _ _ => 2 | _ => 1 end + n) 0 G.

Lemma nupd_same {A} (f : nat -> A) k x : nupd f k x k = x. Proof. unfold nupd. rewrite Nat.eqb_refl. auto. Qed.
Lemma nupd_other {A} (f : nat -> A) k x j : j <> k -> nupd f k x j = f j. Proof. unfold nupd. intro H. destruct (Nat.eqb_spec j k); auto. contradiction. Qed.
Lemma ipr_nil r i : ipr r i = [] <-> ~ act r i.
Proof.
  destruct i as [s d t|s d t m]; cbn [ipr act].
  - destruct (Nat.eqb_spec r s); [split; [discriminate|intro H; exfalso; auto]|]. destruct (Nat.eqb_spec r d); [split; [discriminate|intro H; exfalso; auto]|]. split; auto. intros _ [?|?]; auto.
  - destruct (Nat.eqb_spec r d); [split; [discriminate|intro H; exfalso; auto]|]. split; auto.
Qed.
Lemma ipr_le r i o p : ipr r i = o :: p -> p = [].
Proof. destruct i as [s d t|s d t m]; cbn [ipr]; destruct (Nat.eqb r _); try destruct (Nat.eqb r _); intro H; try discriminate; injection H; auto. Qed.
Lemma head_split r G : forall o p, flat_map (ipr r) G = o :: p -> exists A i B, G = A ++ i :: B /\ Forall (fun i => ~ act r i) A /\ ipr r i = [o] /\ flat_map (ipr r) B = p.
Proof.
  induction G as [|i G IH]; intros o p H; [discriminate|]. cbn [flat_map] in H. destruct (ipr r i) as [|o' p'] eqn:E.
  - destruct (IH _ _ H) as (A & j & B & -> & FA & E2 & E3). exists (i :: A), j, B. split; auto. split; auto. constructor; auto. apply ipr_nil. auto.
  - pose proof (ipr_le _ _ _ _ E) as ->. injection H as -> H. exists [], i, G. auto.
Qed.
Lemma noact_prog r A : Forall (fun i => ~ act r i) A -> flat_map (ipr r) A = [].
Proof. induction 1; auto. cbn [flat_map]. rewrite IHForall. apply ipr_nil in H. rewrite H. auto. Qed.
Lemma eqm_refl f : eqm f f. Proof. intro; auto. Qed.
Lemma iexec_ext i f g : eqm f g -> eqm (iexec f i) (iexec g i).
Proof. intros H r. destruct i as [s d t|s d t m]; cbn [iexec]; unfold nupd; rewrite ?(H s), ?(H d); destruct (Nat.eqb r d); auto; destruct (Nat.eqb r s); auto. Qed.
Lemma exec_ext G : forall f g, eqm f g -> eqm (exec G f) (exec G g).
Proof. induction G as [|i G IH]; intros f g H; auto. cbn [exec fold_left]. apply IH. apply iexec_ext. auto. Qed.
Lemma exec_app A B f : exec (A ++ B) f = exec B (exec A f). Proof. apply fold_left_app. Qed.
Lemma eqm_trans f g h : eqm f g -> eqm g h -> eqm f h. Proof. intros A B r. rewrite A. auto. Qed.
Lemma iexec_noact i r x f : ~ act r i -> eqm (iexec (nupd f r x) i) (nupd (iexec f i) r x).
Proof.
  intros H j. destruct i as [s d t|s d t m]; cbn [iexec act] in *.
  - assert (r <> s /\ r <> d) as (H1 & H2) by (split; intro; apply H; auto). rewrite !(nupd_other f r x) by auto. unfold nupd.
    destruct (Nat.eqb_spec j d), (Nat.eqb_spec j s), (Nat.eqb_spec j r); subst; auto; contradiction.
  - rewrite (nupd_other f r x) by auto. unfold nupd. destruct (Nat.eqb_spec j d), (Nat.eqb_spec j r); subst; auto. contradiction.
Qed.
Lemma exec_noact A r x : Forall (fun i => ~ act r i) A -> forall f, eqm (exec A (nupd f r x)) (nupd (exec A f) r x).
Proof.
  induction 1 as [|i A Hi HA IH]; intro f; [apply eqm_refl|]. cbn [exec fold_left]. eapply eqm_trans; [apply exec_ext; apply iexec_noact; auto|]. apply IH.
Qed.
Lemma iexec_keep i r f : ~ act r i -> iexec f i r = f r.
Proof. destruct i as [s d t|s d t m]; cbn [iexec act]; intro H. - rewrite !nupd_other by (intro; apply H; auto). auto. - rewrite nupd_other by (intro; apply H; auto). auto. Qed.
Lemma exec_keep A r : Forall (fun i => ~ act r i) A -> forall f, exec A f r = f r.
Proof. induction 1 as [|i A Hi HA IH]; intro f; auto. cbn [exec fold_left]. unfold exec in IH. rewrite IH. apply iexec_keep; auto. Qed.

Lemma eqm_nupd f g r x y : eqm f g -> x = y -> eqm (nupd f r x) (nupd g r y).
Proof. intros H -> j. unfold nupd. destruct (Nat.eqb j r); auto. Qed.
Lemma eqm_sym f g : eqm f g -> eqm g f. Proof. intros H r. auto. Qed.

(* replacing the first item of rank r by one of smaller effect, where r's part is executed at once *)
Lemma fin_send A s d t B f : s <> d -> Forall (fun i => ~ act s i) A ->
  eqm (exec (A ++ Full s d t :: B) f) (exec (A ++ Half s d t (fst (snd_ t (f s))) :: B) (nupd f s (snd (snd_ t (f s))))).
Proof.
  intros Hne HA. rewrite !exec_app. cbn [exec fold_left]. apply exec_ext. fold (exec A f) (exec A (nupd f s (snd (snd_ t (f s))))).
  pose proof (exec_noact A s (snd (snd_ t (f s))) HA f) as E. pose proof (exec_keep A s HA f) as K. unfold exec in *.
  intro r. cbn [iexec]. rewrite K. unfold nupd in *. rewrite !E. rewrite (proj2 (Nat.eqb_neq d s)) by auto. auto.
Qed.
Lemma fin_recv A s d t m B f : Forall (fun i => ~ act d i) A ->
  eqm (exec (A ++ Half s d t m :: B) f) (exec (A ++ B) (nupd f d (rcv_ t m (f d)))).
Proof.
  intros HA. rewrite !exec_app. cbn [exec fold_left]. apply exec_ext. intro r. pose proof (exec_noact A d (rcv_ t m (f d)) HA f r) as E. pose proof (exec_keep A d HA f) as K. unfold exec in *.
  rewrite E. cbn [iexec]. rewrite K. auto.
Qed.
Lemma weight_app A B : weight (A ++ B) = weight A + weight B.
Proof. induction A as [|i A IH]; auto. cbn [app weight fold_right]. fold (weight (A ++ B)) (weight A). rewrite IH. lia. Qed.

Lemma ordered_app_l A B : ordered (A ++ B) -> ordered A.
Proof. intros H X s d t m Y E. apply (H X s d t m (Y ++ B)). rewrite E, <- app_assoc. auto. Qed.
Lemma app_split {X} (A B C D : list X) x y : A ++ x :: B = C ++ y :: D ->
  (A = C /\ x = y /\ B = D) \/ (exists E, C = A ++ x :: E /\ B = E ++ y :: D) \/ (exists E, A = C ++ y :: E /\ D = E ++ x :: B).
Proof.
  revert C. induction A as [|a A IH]; intros [|c C] H; cbn [app] in H.
  - injection H as -> ->. auto.
  - injection H as -> H. right. left. exists C. auto.
  - injection H as -> H. right. right. exists A. auto.
  - injection H as -> H. destruct (IH C H) as [(-> & -> & ->)|[(E & -> & ->)|(E & -> & ->)]]; auto; [right; left|right; right]; exists E; auto.
Qed.

(* a buffered send *)
Lemma rel_send A s d t B fin w : rel (A ++ Full s d t :: B) fin w -> Forall (fun i => ~ act s i) A ->
  forall m l, snd_ t (w_mem w s) = (m, l) ->
  rel (A ++ Half s d t m :: B) fin (mkworld (nupd (w_prog w) s (flat_map (ipr s) B)) (nupd (w_mem w) s l) (nupd2 (w_chan w) s d (w_chan w s d ++ [(t, m)]))).
Proof.
  intros R HA m l E. assert (Hne : s <> d). { pose proof (r_proper _ _ _ R) as P. apply Forall_app in P. destruct P as (_ & P). inversion P; auto. }
  assert (NH : forall d' t' m', ~ In (Half s d' t' m') B).
  { intros d' t' m' HI. apply in_split in HI. destruct HI as (B1 & B2 & ->). pose proof (r_ord _ _ _ R (A ++ Full s d t :: B1) s d' t' m' B2) as O.
    rewrite <- app_assoc in O. specialize (O eq_refl). apply Forall_app in O. destruct O as (_ & O). inversion O as [|? ? O1]; subst. apply O1. cbn [act]. auto. }
  split; cbn [w_prog w_mem w_chan].
  - intro r. unfold nupd. destruct (Nat.eqb_spec r s) as [->|Hr].
    + rewrite flat_map_app, (noact_prog _ _ HA). cbn [flat_map ipr]. rewrite (proj2 (Nat.eqb_neq s d)) by auto. auto.
    + rewrite (r_prog _ _ _ R r), !flat_map_app. cbn [flat_map ipr]. rewrite (proj2 (Nat.eqb_neq r s)) by auto. auto.
  - intros s' d'. unfold nupd2, nupd. rewrite flat_map_app. cbn [flat_map ich].
    destruct (Nat.eqb_spec s' s) as [->|Hs]; [destruct (Nat.eqb_spec d' d) as [->|Hd]|]; cbn [andb app].
    + rewrite (r_chan _ _ _ R s d), flat_map_app. cbn [flat_map ich]. cbn [app].
      assert (Z : flat_map (ich s d) B = []). { clear -NH. induction B as [|i B IH]; auto. cbn [flat_map]. rewrite IH by (intros d' t' m' H; apply (NH d' t' m'); right; auto). destruct i as [|s' d' t' m']; auto. cbn [ich]. destruct (Nat.eqb_spec s s'); auto. subst. exfalso. apply (NH d' t' m'). left; auto. }
      rewrite Z, app_nil_r. auto.
    + rewrite (r_chan _ _ _ R s d'), flat_map_app. auto.
    + rewrite (r_chan _ _ _ R s' d'), flat_map_app. auto.
  - pose proof (r_proper _ _ _ R) as P. apply Forall_app in P. destruct P as (P1 & P2). inversion P2; subst. apply Forall_app. split; auto.
  - intros X s' d' t' m' Y EQ. destruct (app_split _ _ _ _ _ _ EQ) as [(EA & EI & EB)|[(Z & EA & EB)|(Z & EA & EB)]].
    + injection EI as <- <- <- <-. subst X. auto.
    + subst. pose proof (r_ord _ _ _ R (A ++ Full s d t :: Z) s' d' t' m' Y) as O. rewrite <- app_assoc in O. specialize (O eq_refl). apply Forall_app in O. destruct O as (O1 & O2). inversion O2 as [|? ? O3 O4]; subst.
      apply Forall_app. split; auto. constructor; auto. cbn [act] in *. intros ->. auto.
    + pose proof (r_ord _ _ _ R X s' d' t' m' (Z ++ Full s d t :: B)) as O. apply O. rewrite EA, <- app_assoc. auto.
  - eapply eqm_trans; [apply (r_fin _ _ _ R)|]. eapply eqm_trans; [apply fin_send; auto|]. rewrite E. apply eqm_refl.
Qed.
Lemma chan_noact s d A : Forall (fun i => ~ act d i) A -> flat_map (ich s d) A = [].
Proof.
  induction 1 as [|i A Hi HA IH]; auto. cbn [flat_map]. rewrite IH. destruct i as [|s' d' t m]; auto. cbn [ich act] in *. destruct (Nat.eqb_spec d d'); [subst; exfalso; auto|]. rewrite andb_false_r. auto.
Qed.
(* a receive *)
Lemma rel_recv A s d t m B fin w : rel (A ++ Half s d t m :: B) fin w -> Forall (fun i => ~ act d i) A ->
  rel (A ++ B) fin (mkworld (nupd (w_prog w) d (flat_map (ipr d) B)) (nupd (w_mem w) d (rcv_ t m (w_mem w d))) (nupd2 (w_chan w) s d (flat_map (ich s d) B))).
Proof.
  intros R HA. split; cbn [w_prog w_mem w_chan].
  - intro r. unfold nupd. destruct (Nat.eqb_spec r d) as [->|Hr].
    + rewrite flat_map_app, (noact_prog _ _ HA). auto.
    + rewrite (r_prog _ _ _ R r), !flat_map_app. cbn [flat_map ipr]. rewrite (proj2 (Nat.eqb_neq r d)) by auto. auto.
  - intros s' d'. unfold nupd2, nupd. rewrite flat_map_app.
    destruct (Nat.eqb_spec s' s) as [->|Hs]; [destruct (Nat.eqb_spec d' d) as [->|Hd]|].
    + rewrite (chan_noact _ _ _ HA). auto.
    + rewrite (r_chan _ _ _ R s d'), flat_map_app. cbn [flat_map ich]. rewrite (proj2 (Nat.eqb_neq d' d)) by auto. rewrite andb_false_r. auto.
    + rewrite (r_chan _ _ _ R s' d'), flat_map_app. cbn [flat_map ich]. rewrite (proj2 (Nat.eqb_neq s' s)) by auto. auto.
  - pose proof (r_proper _ _ _ R) as P. apply Forall_app in P. destruct P as (P1 & P2). inversion P2; subst. apply Forall_app. split; auto.
  - intros X s' d' t' m' Y EQ.
    assert (G : exists X', (A ++ Half s d t m :: B = X' ++ Half s' d' t' m' :: Y \/ exists Y', A ++ Half s d t m :: B = X' ++ Half s' d' t' m' :: Y') /\ forall i, In i X -> In i X').
    { revert X EQ. clear. induction A as [|a A IH]; intros X EQ.
      - cbn [app] in *. subst B. exists (Half s d t m :: X). split; auto. intros i HI. right; auto.
      - destruct X as [|x X]; cbn [app] in *.
        + injection EQ as -> EQ. exists []. split; auto. right. eexists. reflexivity.
        + injection EQ as <- EQ. destruct (IH X EQ) as (X' & H & HI). exists (a :: X'). cbn [app]. split.
          * destruct H as [H|(Y' & H)]; [left; congruence|right; exists Y'; congruence].
          * intros i [->|H']; [left; auto|right; auto]. }
    destruct G as (X' & H & HI). assert (F : Forall (fun i => ~ act s' i) X') by (destruct H as [H|(Y' & H)]; apply (r_ord _ _ _ R _ _ _ _ _ _ H)). rewrite Forall_forall in *. auto.
  - eapply eqm_trans; [apply (r_fin _ _ _ R)|]. apply fin_recv; auto.
Qed.
Lemma take_tag_head t (m : M) l : take_tag t ((t, m) :: l) = Some (m, l). Proof. cbn [take_tag]. rewrite Nat.eqb_refl. auto. Qed.

Lemma ipr_send r i d t : ipr r i = [OSend d t] -> i = Full r d t.
Proof. destruct i as [s' d' t'|s' d' t' m]; cbn [ipr]; destruct (Nat.eqb_spec r s'); try destruct (Nat.eqb_spec r d'); intro H; try discriminate; injection H as -> ->; subst; auto. Qed.
Lemma ipr_recv r i s t : ipr r i = [ORecv s t] -> i = Full s r t \/ exists m, i = Half s r t m.
Proof. destruct i as [s' d' t'|s' d' t' m]; cbn [ipr]; destruct (Nat.eqb_spec r s'); try destruct (Nat.eqb_spec r d'); intro H; try discriminate; injection H as -> ->; subst; eauto. Qed.
Lemma full_empty A s d t B fin w : rel (A ++ Full s d t :: B) fin w -> Forall (fun i => ~ act d i) A -> w_chan w s d = [].
Proof.
  intros R HA. rewrite (r_chan _ _ _ R), flat_map_app, (chan_noact _ _ _ HA). cbn [flat_map ich app].
  assert (NH : forall d' t' m', ~ In (Half s d' t' m') B).
  { intros d' t' m' HI. apply in_split in HI. destruct HI as (B1 & B2 & ->). pose proof (r_ord _ _ _ R (A ++ Full s d t :: B1) s d' t' m' B2) as O.
    rewrite <- app_assoc in O. specialize (O eq_refl). apply Forall_app in O. destruct O as (_ & O). inversion O as [|? ? O1]; subst. apply O1. cbn [act]. auto. }
  clear -NH. induction B as [|i B IH]; auto. cbn [flat_map]. rewrite IH by (intros d' t' m' H; apply (NH d' t' m'); right; auto). destruct i as [|s' d' t' m']; auto. cbn [ich]. destruct (Nat.eqb_spec s s'); auto. subst. exfalso. apply (NH d' t' m'). left; auto.
Qed.
Definition weq (w w' : world L M) : Prop := (forall r, w_prog w r = w_prog w' r) /\ (forall r, w_mem w r = w_mem w' r) /\ (forall s d, w_chan w s d = w_chan w' s d).
Lemma rel_weq G fin w w' : weq w w' -> rel G fin w -> rel G fin w'.
Proof.
  intros (E1 & E2 & E3) R. split; try (apply R).
  - intro r. rewrite <- E1. apply R.
  - intros s d. rewrite <- E3. apply R.
  - eapply eqm_trans; [apply R|]. apply exec_ext. auto.
Qed.
(* every step of MPI follows the list *)
Lemma rel_step G fin w k w' : rel G fin w -> mstep snd_ rcv_ k w w' -> exists G', rel G' fin w' /\ weight G' < weight G.
Proof.
  intros R H. destruct H as [w r d t p m l EP ES|w r s t p m c EP ET|w s d t p q m l Hne EP EQ ET ES].
  - rewrite (r_prog _ _ _ R) in EP. destruct (head_split _ _ _ _ EP) as (A & i & B & -> & HA & Ei & <-). apply ipr_send in Ei. subst i.
    exists (A ++ Half r d t m :: B). split; [apply rel_send; auto|]. rewrite !weight_app. cbn [weight fold_right]. lia.
  - rewrite (r_prog _ _ _ R) in EP. destruct (head_split _ _ _ _ EP) as (A & i & B & -> & HA & Ei & <-). apply ipr_recv in Ei. destruct Ei as [->|(m' & ->)].
    + rewrite (full_empty _ _ _ _ _ _ _ R HA) in ET. discriminate.
    + assert (EC : w_chan w s r = (t, m') :: flat_map (ich s r) B). { rewrite (r_chan _ _ _ R), flat_map_app, (chan_noact _ _ _ HA). cbn [flat_map ich]. rewrite !Nat.eqb_refl. auto. }
      rewrite EC, take_tag_head in ET. injection ET as -> <-. exists (A ++ B). split; [apply rel_recv; auto|]. rewrite !weight_app. cbn [weight fold_right]. fold (weight B). lia.
  - (* rendezvous: a send followed by the receive *)
    rewrite (r_prog _ _ _ R) in EP, EQ. destruct (head_split _ _ _ _ EP) as (A & i & B & EG & HA & Ei & <-). apply ipr_send in Ei. subst i G.
    destruct (head_split _ _ _ _ EQ) as (A' & i & B' & EG & HA' & Ei & <-). apply ipr_recv in Ei.
    assert (X : A = A' /\ i = Full s d t /\ B = B').
    { destruct (app_split _ _ _ _ _ _ EG) as [(-> & <- & ->)|[(E & -> & ->)|(E & -> & ->)]]; auto; exfalso.
      - apply Forall_app in HA'. destruct HA' as (_ & HA'). inversion HA' as [|? ? H1]; subst. apply H1. cbn [act]. auto.
      - apply Forall_app in HA. destruct HA as (HA1 & HA). inversion HA as [|? ? H1 H2]; subst. destruct Ei as [->|(m' & ->)]; [apply H1; cbn [act]; auto|].
        assert (C : w_chan w s d <> []). { rewrite (r_chan _ _ _ R), !flat_map_app. cbn [flat_map ich]. rewrite !Nat.eqb_refl. cbn [andb]. intro Z. apply app_eq_nil in Z. destruct Z as (Z & _). apply app_eq_nil in Z. destruct Z as (_ & Z). discriminate. }
        rewrite (r_chan _ _ _ R), <- app_assoc, flat_map_app, (chan_noact _ _ _ HA') in ET. cbn [app flat_map ich] in ET. rewrite !Nat.eqb_refl in ET. cbn [andb app take_tag] in ET. rewrite Nat.eqb_refl in ET. discriminate. }
    destruct X as (<- & -> & <-). clear EG.
    pose proof (rel_send _ _ _ _ _ _ _ R HA _ _ ES) as R1. pose proof (rel_recv _ _ _ _ _ _ _ _ R1 HA') as R2. exists (A ++ B). split.
    + eapply rel_weq; [|exact R2]. split; [|split]; cbn [w_prog w_mem w_chan]; auto.
      * intro r. unfold nupd. destruct (Nat.eqb r d); auto. rewrite (proj2 (Nat.eqb_neq d s)) by auto. auto.
      * intros s' d'. unfold nupd2, nupd. destruct (Nat.eqb_spec s' s) as [->|]; rewrite ?Nat.eqb_refl; auto. destruct (Nat.eqb_spec d' d) as [->|]; rewrite ?Nat.eqb_refl; auto.
        pose proof (full_empty _ _ _ _ _ _ _ R HA') as Z. rewrite Z. pose proof (r_chan _ _ _ R s d) as C. rewrite Z, flat_map_app in C. symmetry in C. apply app_eq_nil in C. destruct C as (_ & C). cbn [flat_map ich app] in C. auto.
    + rewrite !weight_app. cbn [weight fold_right]. fold (weight B). lia.
Qed.
(* progress without buffering *)
Lemma rel_progress i G fin w : rel (i :: G) fin w -> exists k w', k <> Buffered /\ mstep snd_ rcv_ k w w'.
Proof.
  intros R. assert (P : proper i) by (pose proof (r_proper _ _ _ R) as P; inversion P; auto). destruct i as [s d t|s d t m].
  - cbn [proper] in P. destruct (snd_ t (w_mem w s)) as (m, l) eqn:E. exists Rendezvous. eexists. split; [discriminate|]. eapply (ms_rendezvous _ _ w s d t); [exact P| | | |exact E].
    + rewrite (r_prog _ _ _ R). cbn [flat_map ipr]. rewrite Nat.eqb_refl. reflexivity.
    + rewrite (r_prog _ _ _ R). cbn [flat_map ipr]. rewrite (proj2 (Nat.eqb_neq d s)), Nat.eqb_refl by auto. reflexivity.
    + rewrite (full_empty [] s d t G fin w R) by constructor. auto.
  - exists Receive. eexists. split; [discriminate|]. eapply (ms_receive _ _ w d s t).
    + rewrite (r_prog _ _ _ R). cbn [flat_map ipr]. rewrite Nat.eqb_refl. reflexivity.
    + rewrite (r_chan _ _ _ R). cbn [flat_map ich]. rewrite !Nat.eqb_refl. cbn [andb app take_tag]. rewrite Nat.eqb_refl. reflexivity.
Qed.
Lemma rel_run G fin w n w' : rel G fin w -> mrun snd_ rcv_ n w w' -> exists G', rel G' fin w' /\ weight G' + n <= weight G.
Proof.
  intros R H. induction H as [w|n k w1 w2 w3 H IH S]; [exists G; split; auto; lia|]. destruct (IH R) as (G1 & R1 & W1). destruct (rel_step _ _ _ _ _ R1 S) as (G2 & R2 & W2). exists G2. split; auto. lia.
Qed.
(* the start *)
Lemma rel_start G prog mem : (forall r, prog r = flat_map (ipr r) G) -> Forall (fun i => match i with Full s d _ => s <> d | Half _ _ _ _ => False end) G ->
  rel G (exec G mem) (mkworld prog mem (fun _ _ => [])).
Proof.
  intros HP HF. split; cbn [w_prog w_mem w_chan]; auto.
  - intros s d. clear HP. induction HF as [|i G Hi HG IH]; auto. cbn [flat_map]. destruct i; [|contradiction]. cbn [ich]. exact IH.
  - eapply Forall_impl; [|exact HF]. intros [s d t|s d t m]; auto. contradiction.
  - intros A s d t m B ->. apply Forall_app in HF. destruct HF as (_ & HF). inversion HF; contradiction.
  - apply eqm_refl.
Qed.
Lemma rel_end G fin w : rel G fin w -> (forall r, w_prog w r = []) -> G = [] /\ eqm fin (w_mem w).
Proof.
  intros R H. destruct G as [|i G]; [split; auto; apply R|]. exfalso. destruct i as [s d t|s d t m].
  - specialize (H s). rewrite (r_prog _ _ _ R) in H. cbn [flat_map ipr] in H. rewrite Nat.eqb_refl in H. discriminate.
  - specialize (H d). rewrite (r_prog _ _ _ R) in H. cbn [flat_map ipr] in H. rewrite Nat.eqb_refl in H. discriminate.
Qed.
End C.
