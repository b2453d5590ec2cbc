(* Proofs: writer closure, metadata merging *)
From Verif Require Import Base VariantModel VariantSpec NamesModel TextModel TextProofs TextProofs2 TreeModel CaliFileModel.

(* ---------- writer ---------- *)
Definition wids (ls : list wline) : list N := flat_map (fun l => match l with WNode n => [n_id n] | _ => [] end) ls.
Definition known_id (ls : list wline) (id : N) : Prop := id < 11 \/ In id (wids ls).
(* every line refers only to bootstrap nodes or nodes in earlier lines *)
Inductive closed : list wline -> Prop :=
| closed_nil : closed []
| closed_node ls n : closed ls -> known_id ls (n_attr n) -> (forall p, n_par n = Some p -> p = INV_ID \/ known_id ls p) -> ~ In (n_id n) (wids ls) -> closed (ls ++ [WNode n])
| closed_rec ls g refs imms : closed ls -> Forall (known_id ls) refs -> Forall (fun x => known_id ls (fst x)) imms -> closed (ls ++ [WRec g refs imms]).
(* the source: references exist, recursion is well-founded *)
Definition ref_ok (src : N -> option tnode) (rank : N -> nat) (i r : N) : Prop := r < 11 \/ (exists n, src r = Some n) /\ (rank r < rank i)%nat.
Definition wf_src (src : N -> option tnode) (rank : N -> nat) : Prop :=
  forall i n, src i = Some n -> 11 <= i -> n_id n = i /\ ref_ok src rank i (n_attr n) /\ (forall p, n_par n = Some p -> p = INV_ID \/ ref_ok src rank i p).

Lemma mem_in x l : mem x l = true <-> In x l.
Proof. unfold mem. rewrite existsb_exists. split; [intros (y & Hy & E); apply N.eqb_eq in E; subst; auto|intro H; exists x; split; auto; apply N.eqb_refl]. Qed.
Lemma wids_app a b : wids (a ++ b) = wids a ++ wids b. Proof. apply flat_map_app. Qed.
Definition winv (w : writer) : Prop := closed (w_out w) /\ (forall i, In i (w_written w) <-> In i (wids (w_out w))).
Definition wext (w w' : writer) : Prop := forall i, In i (wids (w_out w)) -> In i (wids (w_out w')).

Lemma write_node_inv src rank : wf_src src rank -> forall fuel id w w', winv w -> write_node fuel src id w = Some w' ->
  winv w' /\ wext w w' /\ (src id <> None -> known_id (w_out w') id) /\ (forall i, In i (wids (w_out w')) -> In i (wids (w_out w)) \/ (11 <= id /\ (rank i <= rank id)%nat)) /\
  (forall n, In (WNode n) (w_out w') -> In (WNode n) (w_out w) \/ (11 <= n_id n /\ src (n_id n) = Some n)).
Proof.
  intros Hwf. induction fuel as [|f IH]; intros id w w' Hw H; [discriminate|]. cbn [write_node] in H.
  destruct (N.ltb_spec id 11); [injection H as <-; split; [auto|split; [intros i; auto|split; [left; auto|split; auto]]]|].
  destruct (mem id (w_written w)) eqn:Em.
  { injection H as <-. apply mem_in in Em. split; [auto|split; [intros i; auto|split; [right; apply Hw; auto|split; auto]]]. }
  destruct (src id) as [n|] eqn:Es; [|injection H as <-; split; [auto|split; [intros i; auto|split; [congruence|split; auto]]]].
  destruct (Hwf id n Es) as (Hid & Ha & Hp); [lia|].
  destruct (write_node f src (n_attr n) w) as [w1|] eqn:E1; [|discriminate].
  destruct (IH _ _ _ Hw E1) as (W1 & X1 & K1 & R1 & S1).
  assert (KA : known_id (w_out w1) (n_attr n)).
  { destruct Ha as [?|((na & Ea) & _)]; [left; auto|]. apply K1. congruence. }
  assert (NotIn : ~ In id (wids (w_out w))) by (intro Hi; apply Hw in Hi; apply mem_in in Hi; congruence).
  assert (N1 : ~ In id (wids (w_out w1))).
  { intro Hi. apply R1 in Hi. destruct Hi as [Hi|(Hi & Hi')]; auto. destruct Ha as [Hlt|(_ & Hr)]; lia. }
  assert (B : exists w2, winv w2 /\ wext w1 w2 /\ (forall p, n_par n = Some p -> p = INV_ID \/ known_id (w_out w2) p) /\ ~ In id (wids (w_out w2)) /\
     (forall i, In i (wids (w_out w2)) -> In i (wids (w_out w)) \/ (rank i <= rank id)%nat) /\ (forall n, In (WNode n) (w_out w2) -> In (WNode n) (w_out w) \/ (11 <= n_id n /\ src (n_id n) = Some n)) /\
     w' = mkw (id :: w_written w2) (w_out w2 ++ [WNode n])).
  { assert (RA : forall i, In i (wids (w_out w1)) -> In i (wids (w_out w)) \/ (rank i <= rank id)%nat).
    { intros i Hi. apply R1 in Hi. destruct Hi as [Hi|(Hi & Hi')]; auto. right. destruct Ha as [Hlt|(_ & Hr)]; lia. }
    destruct (n_par n) as [p|] eqn:Ep.
    - destruct (N.eqb_spec p INV_ID).
      + injection H as <-. exists w1. split; auto. split; [intros i; auto|]. split; [intros q Hq; injection Hq as <-; auto|]. auto.
      + destruct (write_node f src p w1) as [w2|] eqn:E2; [|discriminate]. injection H as <-.
        destruct (IH _ _ _ W1 E2) as (W2 & X2 & K2 & R2 & S2). exists w2. split; auto. split; auto. destruct (Hp p eq_refl) as [?|Hp']; [congruence|].
        split. { intros q Hq. injection Hq as <-. right. destruct Hp' as [?|((np & Enp) & _)]; [left; auto|apply K2; congruence]. }
        split. { intro Hi. apply R2 in Hi. destruct Hi as [Hi|(Hi & Hi')]; auto. destruct Hp' as [?|(_ & ?)]; lia. }
        split. { intros i Hi. apply R2 in Hi. destruct Hi as [Hi|(Hi & Hi')]; auto. right. destruct Hp' as [?|(_ & ?)]; lia. }
        split; auto. intros m Hm. apply S2 in Hm. destruct Hm; auto.
    - injection H as <-. exists w1. split; auto. split; [intros i; auto|]. split; [intros q Hq; discriminate|]. auto. }
  destruct B as (w2 & W2 & X2 & P2 & N2 & R2 & S2 & ->). cbn [w_out w_written].
  assert (I2 : forall i, In i (wids (w_out w2 ++ [WNode n])) <-> In i (wids (w_out w2)) \/ i = id).
  { intro i. rewrite wids_app, in_app_iff. cbn [wids flat_map app]. rewrite Hid. cbn. intuition. }
  split.
  { split; cbn [w_out w_written].
    - apply closed_node; auto; [apply W2| |rewrite Hid; auto]. destruct KA as [?|KA]; [left; auto|right; apply X2; auto].
    - intro i. rewrite I2. cbn. rewrite (proj2 W2 i). intuition. }
  split. { intros i Hi. rewrite I2. left. apply X2, X1, Hi. }
  split. { intros _. right. rewrite I2. auto. }
  split. { intros i Hi. rewrite I2 in Hi. destruct Hi as [Hi| ->]; [apply R2 in Hi; destruct Hi; auto; right; split; auto; lia|right; split; lia]. }
  intros m Hm. apply in_app_or in Hm. destruct Hm as [Hm|[Hm|[]]]; auto. injection Hm as <-. right. rewrite Hid. split; auto; lia.
Qed.
Lemma write_node_some src rank : wf_src src rank -> forall fuel id w, (0 < fuel)%nat -> (id < 11 \/ (S (rank id) < fuel)%nat) -> exists w', write_node fuel src id w = Some w'.
Proof.
  intro Hwf. induction fuel as [|f IH]; intros id w Hf H; [lia|]. cbn [write_node].
  destruct (N.ltb_spec id 11); [eauto|]. destruct (mem id (w_written w)); [eauto|]. destruct (src id) as [n|] eqn:Es; [|eauto].
  destruct (Hwf id n Es) as (Hid & Ha & Hp); [lia|]. destruct H as [H|H]; [lia|].
  assert (G : forall r w0, ref_ok src rank id r -> exists w', write_node f src r w0 = Some w').
  { intros r w0 Hr. apply IH; [lia|]. destruct Hr as [Hr|(_ & Hr)]; [left; auto|right; lia]. }
  destruct (G (n_attr n) w Ha) as (w1 & ->). destruct (n_par n) as [p|] eqn:Ep; [|eauto]. destruct (N.eqb_spec p INV_ID); [eauto|].
  destruct (Hp p eq_refl) as [?|Hp']; [congruence|]. destruct (G p w1 Hp') as (w2 & ->). eauto.
Qed.
Lemma write_entries_inv src rank : wf_src src rank -> forall fuel rec w w', winv w -> write_entries fuel src rec w = Some w' ->
  winv w' /\ wext w w' /\ (forall e, In e rec -> src (entry_node e) <> None -> known_id (w_out w') (entry_node e)) /\
  (forall n, In (WNode n) (w_out w') -> In (WNode n) (w_out w) \/ (11 <= n_id n /\ src (n_id n) = Some n)).
Proof.
  intros Hwf fuel. induction rec as [|e r IH]; intros w w' Hw H; cbn [write_entries] in H.
  - injection H as <-. split; auto. split; [intros i; auto|]. split; [intros e []|auto].
  - destruct (write_node fuel src (entry_node e) w) as [w1|] eqn:E1; [|discriminate]. destruct (write_node_inv src rank Hwf _ _ _ _ Hw E1) as (W1 & X1 & K1 & _ & S1).
    destruct (IH _ _ W1 H) as (W2 & X2 & K2 & S2). split; auto. split; [intros i Hi; apply X2, X1, Hi|]. split.
    + intros e' [->|He] Hs; auto. destruct (K1 Hs) as [?|?]; [left; auto|right; apply X2; auto].
    + intros n Hn. apply S2 in Hn. destruct Hn as [Hn|Hn]; auto.
Qed.
Definition rec_ok (src : N -> option tnode) (rec : list entry) : Prop := Forall (fun e => src (entry_node e) <> None) rec.
Lemma refs_in rec i : In i (refs_of rec) <-> In (ERef i) rec.
Proof.
  unfold refs_of. rewrite in_flat_map. split.
  - intros (e & He & Hi). destruct e; [destruct Hi as [<-|[]]; auto|contradiction].
  - intro H. exists (ERef i). split; auto. left; auto.
Qed.
Lemma imms_in rec a v : In (a, v) (imms_of rec) <-> In (EImm a v) rec.
Proof.
  unfold imms_of. rewrite in_flat_map. split.
  - intros (e & He & Hi). destruct e; [contradiction|destruct Hi as [E|[]]; injection E as <- <-; auto].
  - intro H. exists (EImm a v). split; auto. left; auto.
Qed.
Lemma write_rec_inv src rank : wf_src src rank -> forall fuel g rec w w', winv w -> rec_ok src rec -> write_rec fuel src g rec w = Some w' ->
  winv w' /\ wext w w' /\ (forall n, In (WNode n) (w_out w') -> In (WNode n) (w_out w) \/ (11 <= n_id n /\ src (n_id n) = Some n)).
Proof.
  intros Hwf fuel g rec w w' Hw Hr H. unfold write_rec in H. destruct (write_entries fuel src rec w) as [w1|] eqn:E; [|discriminate]. injection H as <-.
  destruct (write_entries_inv src rank Hwf _ _ _ _ Hw E) as (W1 & X1 & K1 & S1). cbn [w_out w_written].
  assert (WI : wids (w_out w1 ++ [WRec g (refs_of rec) (imms_of rec)]) = wids (w_out w1)) by (rewrite wids_app; cbn; apply app_nil_r).
  unfold rec_ok in Hr. rewrite Forall_forall in Hr.
  split.
  { split; cbn [w_out w_written]; [|rewrite WI; apply W1].
    apply closed_rec; [apply W1| |].
    - apply Forall_forall. intros i Hi. apply refs_in in Hi. apply (K1 (ERef i)); auto.
    - apply Forall_forall. intros (a, v) Hi. apply imms_in in Hi. apply (K1 (EImm a v)); auto. }
  split; [intros i Hi; cbn [w_out]; rewrite WI; auto|]. intros n Hn. apply in_app_or in Hn. destruct Hn as [Hn|[Hn|[]]]; [auto|discriminate].
Qed.
