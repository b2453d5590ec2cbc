(* The global message list of aggregate_over_mpi, its projections and its result *)
From Verif Require Import Base MpiModel MpiProofs.
Open Scope nat_scope.

Section G.
Context {M : Type}.
Definition pair (a b : nat) : list (@item M) := [Full b a 1; Full b a 2; Full b a 3; Full b a 4].
Definition roundp (n s q : nat) : list (@item M) := if Nat.eqb (q mod (2 * s)) 0 && (q + s <? n) then pair q (q + s) else [].
Definition round (n s : nat) : list (@item M) := flat_map (roundp n s) (seq 0 n).
Fixpoint glob (fuel n s : nat) : list (@item M) := match fuel with O => [] | S f => if s <? n then round n s ++ glob f n (2 * s) else [] end.

Lemma mod_half r s : 0 < s -> (r mod s = 0 /\ r mod (2 * s) <> 0 <-> r mod (2 * s) = s).
Proof.
  intro H. replace (2 * s) with (s * 2) by lia. rewrite (Nat.mod_mul_r r s 2) by lia. pose proof (Nat.mod_upper_bound r s). pose proof (Nat.mod_upper_bound (r / s) 2).
  destruct ((r / s) mod 2) as [|[|k]] eqn:E; nia.
Qed.
Lemma mod_zero r s : 0 < s -> r mod (2 * s) = 0 -> r mod s = 0.
Proof. intro H. replace (2 * s) with (s * 2) by lia. rewrite (Nat.mod_mul_r r s 2) by lia. nia. Qed.
Lemma mod_plus r s : 0 < s -> r mod (2 * s) = 0 -> (r + s) mod (2 * s) = s.
Proof. intros H E. rewrite Nat.add_mod by lia. rewrite E. cbn [Nat.add]. rewrite Nat.mod_mod by lia. apply Nat.mod_small. lia. Qed.
Lemma mod_minus r s : 0 < s -> r mod (2 * s) = s -> s <= r /\ (r - s) mod (2 * s) = 0.
Proof.
  intros H E. pose proof (Nat.div_mod_eq r (2 * s)) as D. rewrite E in D. rewrite (Nat.mul_comm (2 * s)) in D. set (k := r / (2 * s)) in *. assert (D' : exists j, j = k * (2 * s)) by eauto. destruct D' as (j & Ej). rewrite <- Ej in D. split; [lia|]. replace (r - s) with (0 + k * (2 * s)) by (rewrite <- Ej; lia). rewrite Nat.mod_add by lia. apply Nat.mod_0_l. lia.
Qed.
Lemma flat_only {X} (P : nat -> list X) x : forall n a, (forall q, q <> x -> P q = []) -> flat_map P (seq a n) = if (a <=? x) && (x <? a + n) then P x else [].
Proof.
  induction n as [|n IH]; intros a H; cbn [seq flat_map].
  - destruct (a <=? x) eqn:E1, (x <? a + 0) eqn:E2; auto. apply Nat.leb_le in E1. apply Nat.ltb_lt in E2. lia.
  - rewrite (IH (S a) H). destruct (Nat.eq_dec a x) as [->|Hne].
    + replace (S x <=? x) with false by (symmetry; apply Nat.leb_gt; lia). cbn [andb]. rewrite app_nil_r, Nat.leb_refl. replace (x <? x + S n) with true by (symmetry; apply Nat.ltb_lt; lia). auto.
    + rewrite (H a Hne). cbn [app]. destruct (S a <=? x) eqn:E1, (a <=? x) eqn:E2; try (apply Nat.leb_le in E1); try (apply Nat.leb_le in E2); try (apply Nat.leb_gt in E1); try (apply Nat.leb_gt in E2); try lia; cbn [andb]; auto. replace (S a + n) with (a + S n) by lia. auto.
Qed.
Lemma flat_none {X} (P : nat -> list X) l : (forall q, P q = []) -> flat_map P l = [].
Proof. intro H. induction l as [|x l IH]; auto. cbn [flat_map]. rewrite H, IH. auto. Qed.
Lemma fm_fm {X Y Z} (f : Y -> list Z) (g : X -> list Y) l : flat_map f (flat_map g l) = flat_map (fun x => flat_map f (g x)) l.
Proof. induction l as [|x l IH]; auto. cbn [flat_map]. rewrite flat_map_app, IH. auto. Qed.
Lemma proj_pair r n s q : 0 < s -> flat_map (ipr r) (roundp n s q) =
  if Nat.eqb (q mod (2 * s)) 0 && (q + s <? n) then (if Nat.eqb r (q + s) then pack_and_send q else if Nat.eqb r q then receive_and_merge (q + s) else []) else [].
Proof.
  intro H. unfold roundp. destruct (Nat.eqb (q mod (2 * s)) 0 && (q + s <? n)); auto. unfold pair. cbn [flat_map ipr]. destruct (Nat.eqb r (q + s)); auto. destruct (Nat.eqb r q); auto.
Qed.
Lemma proj_round n r s : 0 < s -> flat_map (ipr r) (round n s) = if r <? n then body n r s else [].
Proof.
  intros H. unfold round. rewrite fm_fm. rewrite (flat_map_ext _ _ (fun q => proj_pair r n s q H)).
  pose proof (mod_half r s H) as MH. unfold body. destruct (Nat.eqb_spec (r mod (2 * s)) 0) as [E0|E0].
  - rewrite (flat_only _ r).
    2:{ intros q Hq. destruct (Nat.eqb_spec (q mod (2 * s)) 0) as [Eq|]; auto. destruct (q + s <? n); auto. cbn [andb]. destruct (Nat.eqb_spec r (q + s)) as [->|]; [rewrite mod_plus in E0 by auto; lia|]. destruct (Nat.eqb_spec r q); auto. congruence. }
    rewrite E0. cbn [Nat.eqb andb Nat.leb negb]. rewrite Nat.add_0_l. destruct (Nat.ltb_spec r n) as [Hr|Hr]; auto.
    rewrite (proj2 (Nat.eqb_neq r (r + s))) by lia. rewrite Nat.eqb_refl. rewrite andb_false_r. rewrite app_nil_r. destruct (r + s <? n); auto.
  - rewrite (flat_only _ (r - s)).
    2:{ intros q Hq. destruct (Nat.eqb_spec (q mod (2 * s)) 0) as [Eq|]; auto. destruct (q + s <? n); auto. cbn [andb]. destruct (Nat.eqb_spec r (q + s)) as [->|]; [lia|]. destruct (Nat.eqb_spec r q); auto. subst. contradiction. }
    cbn [andb negb app Nat.leb]. rewrite Nat.add_0_l. destruct (Nat.eqb_spec (r mod s) 0) as [E1|E1]; cbn [andb].
    + destruct (mod_minus r s H (proj1 MH (conj E1 E0))) as (Hle & Em).
      rewrite Em. cbn [Nat.eqb andb]. replace (r - s + s) with r by lia. rewrite Nat.eqb_refl. destruct (Nat.ltb_spec r n) as [Hr|Hr].
      * replace (r - s <? n) with true by (symmetry; apply Nat.ltb_lt; lia). auto.
      * destruct (r - s <? n); auto.
    + assert (Z : (if r - s <? n then if Nat.eqb ((r - s) mod (2 * s)) 0 && (r - s + s <? n) then if Nat.eqb r (r - s + s) then pack_and_send (r - s) else if Nat.eqb r (r - s) then receive_and_merge (r - s + s) else [] else [] else []) = []).
      { destruct (r - s <? n); auto. destruct (Nat.eqb_spec ((r - s) mod (2 * s)) 0) as [Em|]; auto. destruct (r - s + s <? n); auto. cbn [andb]. destruct (Nat.eqb_spec r (r - s + s)) as [Er|].
        - pose proof (mod_plus _ _ H Em) as X. rewrite <- Er in X. apply MH in X. destruct X. contradiction.
        - destruct (Nat.eqb_spec r (r - s)) as [Er|]; auto. rewrite <- Er in Em. contradiction. }
      rewrite Z. destruct (r <? n); auto.
Qed.
Lemma proj_glob n r : forall fuel s, 0 < s -> flat_map (ipr r) (glob fuel n s) = if r <? n then steps fuel n r s else [].
Proof.
  induction fuel as [|f IH]; intros s H; cbn [glob steps]; [destruct (r <? n); auto|]. destruct (s <? n); [|destruct (r <? n); auto].
  rewrite flat_map_app, proj_round, IH by lia. destruct (r <? n); auto.
Qed.
Lemma glob_proper n : forall fuel s, 0 < s -> Forall (fun i => match i with Full a b _ => a <> b | Half _ _ _ _ => False end) (glob fuel n s).
Proof.
  induction fuel as [|f IH]; intros s H; cbn [glob]; [constructor|]. destruct (s <? n); [|constructor]. apply Forall_app. split; [|apply IH; lia]. apply Forall_forall. intros i Hi. unfold round in Hi. apply in_flat_map in Hi. destruct Hi as (q & _ & Hi). unfold roundp in Hi. destruct (_ && _); [|destruct Hi].
  cbn [pair In] in Hi. destruct Hi as [<-|[<-|[<-|[<-|[]]]]]; lia.
Qed.
End G.

(* fuel does not cut the loop short *)
Lemma steps_more n r : forall fuel s k, n <= s * 2 ^ fuel -> steps (fuel + k) n r s = steps fuel n r s.
Proof.
  induction fuel as [|f IH]; intros s k H; cbn [Nat.add].
  - cbn [Nat.pow] in H. destruct k; cbn [steps]; auto. replace (s <? n) with false by (symmetry; apply Nat.ltb_ge; lia). auto.
  - cbn [steps]. destruct (s <? n); auto. rewrite IH; auto. cbn [Nat.pow] in H. lia.
Qed.

Section D.
Context {A NB SB IM : Type} (pack : A -> NB * SB * A) (ncount : NB -> N) (scount : SB -> N) (merge_nodes : A -> N -> NB -> A * IM) (merge_snaps : A -> IM -> N -> SB -> A).
Notation local := (@local A NB SB IM).
Notation msg := (@msg NB SB).
Notation sd := (@do_send A NB SB IM pack ncount scount).
Notation rc := (@do_recv A NB SB IM merge_nodes merge_snaps).
Definition combine (a b : A) : A := let '(nb, sb, _) := pack b in let (a1, i) := merge_nodes a (ncount nb) nb in merge_snaps a1 i (scount sb) sb.
Notation ex := (@exec local msg sd rc).
Lemma pair_exec a b (mu : nat -> local) : a <> b -> l_a (ex (pair a b) mu a) = combine (l_a (mu a)) (l_a (mu b)) /\ forall r, r <> a -> r <> b -> ex (pair a b) mu r = mu r.
Proof.
  intro Hne. split.
  - unfold exec, pair. cbn [fold_left]. unfold combine. destruct (mu b) as [ab ob cb ib] eqn:Eb, (mu a) as [aa oa ca ia] eqn:Ea. cbn [l_a]. destruct (pack ab) as ((nb, sb), ab') eqn:Ep. destruct (merge_nodes aa (ncount nb) nb) as (a1, i) eqn:Em.
    cbn [iexec]. unfold nupd. rewrite ?Nat.eqb_refl, ?(proj2 (Nat.eqb_neq b a)), ?(proj2 (Nat.eqb_neq a b)) by auto. rewrite ?Ea, ?Eb. cbn [do_send l_a l_out]. rewrite Ep. cbn [fst snd do_send do_recv l_a l_out l_cnt l_idm]. rewrite ?Em. cbn [l_a l_out l_cnt l_idm]. auto.
  - intros r H1 H2. apply exec_keep. unfold pair. repeat constructor; cbn [act]; intros [?|?]; auto.
Qed.
Lemma noact_roundp n s r l : (forall q, In q l -> q mod (2 * s) = 0 -> r <> q /\ r <> q + s) -> Forall (fun i : @item msg => ~ act r i) (flat_map (roundp n s) l).
Proof.
  intro H. apply Forall_forall. intros i Hi. apply in_flat_map in Hi. destruct Hi as (q & Hq & Hi). unfold roundp in Hi. destruct (Nat.eqb_spec (q mod (2 * s)) 0) as [E|]; cbn [andb] in Hi; [|destruct Hi]. destruct (q + s <? n); [|destruct Hi].
  destruct (H q Hq E). cbn [pair In] in Hi. destruct Hi as [<-|[<-|[<-|[<-|[]]]]]; cbn [act]; intros [?|?]; auto.
Qed.
Lemma round_exec n s q (mu : nat -> local) : 0 < s -> q < n -> q mod (2 * s) = 0 ->
  l_a (ex (round n s) mu q) = if q + s <? n then combine (l_a (mu q)) (l_a (mu (q + s))) else l_a (mu q).
Proof.
  intros Hs Hq E. unfold round. replace n with (q + S (n - q - 1)) at 2 by lia. rewrite seq_app, flat_map_app. rewrite exec_app. cbn [seq flat_map]. rewrite Nat.add_0_l. rewrite exec_app.
  pose proof (mod_plus q s Hs E) as E2.
  assert (D : forall q', q' <> q -> q' mod (2 * s) = 0 -> (q <> q' /\ q <> q' + s) /\ (q + s <> q' /\ q + s <> q' + s)).
  { intros q' Hn E'. pose proof (mod_plus q' s Hs E') as E3. repeat split; intro; subst; try lia. }
  rewrite exec_keep. 2:{ apply noact_roundp. intros q' Hi E'. apply in_seq in Hi. apply D; auto. lia. }
  set (nu := ex (flat_map (roundp n s) (seq 0 q)) mu).
  assert (K1 : nu q = mu q). { apply exec_keep. apply noact_roundp. intros q' Hi E'. apply in_seq in Hi. apply D; auto. lia. }
  assert (K2 : nu (q + s) = mu (q + s)). { apply exec_keep. apply noact_roundp. intros q' Hi E'. apply in_seq in Hi. apply D; auto. lia. }
  unfold roundp. rewrite E. cbn [Nat.eqb andb]. destruct (q + s <? n).
  - rewrite (proj1 (pair_exec q (q + s) nu ltac:(lia))). rewrite K1, K2. auto.
  - cbn [exec fold_left]. rewrite K1. auto.
Qed.
Section R.
Context {X : Type} (Rep : A -> list X -> Prop) (rep_combine : forall a b x y, Rep a x -> Rep b y -> Rep (combine a b) (x ++ y)) (inp : nat -> list X).
Lemma glob_rep n : forall fuel s (mu : nat -> local), 0 < s -> n <= s * 2 ^ fuel -> 0 < n -> (forall r, r < n -> r mod s = 0 -> Rep (l_a (mu r)) (flat_map inp (seq r (Nat.min s (n - r))))) ->
  Rep (l_a (ex (glob fuel n s) mu 0)) (flat_map inp (seq 0 n)).
Proof.
  assert (Z : forall s (mu : nat -> local), 0 < s -> n <= s -> 0 < n -> (forall r, r < n -> r mod s = 0 -> Rep (l_a (mu r)) (flat_map inp (seq r (Nat.min s (n - r))))) -> Rep (l_a (mu 0)) (flat_map inp (seq 0 n))).
  { intros s mu H Hle Hn HI. specialize (HI 0 Hn). rewrite Nat.mod_0_l in HI by lia. specialize (HI eq_refl). rewrite Nat.sub_0_r, Nat.min_r in HI by lia. auto. }
  induction fuel as [|f IH]; intros s mu Hs HF Hn HI; cbn [glob].
  - cbn [Nat.pow] in HF. apply (Z s); auto. lia.
  - destruct (Nat.ltb_spec s n) as [Hlt|Hge]; [|apply (Z s); auto]. rewrite exec_app. apply IH; [lia|cbn [Nat.pow] in HF; lia|auto|].
    intros r Hr Hm. rewrite round_exec by auto. pose proof (mod_zero r s Hs Hm) as Hm1. destruct (Nat.ltb_spec (r + s) n) as [Hl|Hl].
    + replace (Nat.min (2 * s) (n - r)) with (s + Nat.min s (n - (r + s))) by lia. rewrite seq_app, flat_map_app. apply rep_combine.
      * pose proof (HI r Hr Hm1) as G. rewrite Nat.min_l in G by lia. auto.
      * apply HI; auto. rewrite Nat.add_mod, Hm1, Nat.mod_same by lia. cbn [Nat.add]. apply Nat.mod_0_l. lia.
    + pose proof (HI r Hr Hm1) as G. rewrite Nat.min_r in G by lia. rewrite Nat.min_r by lia. auto.
Qed.
End R.
Lemma pow_gt n : n <= 1 * 2 ^ n. Proof. rewrite Nat.mul_1_l. pose proof (Nat.pow_gt_lin_r 2 n). lia. Qed.
Lemma start_rel n a : rel sd rc (glob n n 1) (ex (glob n n 1) (fun r => mklocal (a r) None 0%N None)) (mpi_start n a).
Proof. apply rel_start; [|apply glob_proper; lia]. intro r. rewrite proj_glob by lia. auto. Qed.
End D.
