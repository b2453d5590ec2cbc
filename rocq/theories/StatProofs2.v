(* C86: the reuse table *)
From Verif Require Import Base MsgTraceModel MsgPatProofs StatModel StatSpec StatProofs.
From Coq Require Import ZArith.
Open Scope Z_scope.

Lemma teq_spec a b : reflect (a = b) (teq a b).
Proof. unfold teq. destruct (list_eq_dec N.eq_dec a b); constructor; auto. Qed.
Lemma teq_refl a : teq a a = true.
Proof. destruct (teq_spec a a); congruence. Qed.
Definition usum (u : uses) : Z := total (map snd u).
Lemma incr_keys t u t' : In t' (map fst (incr t u)) <-> t' = t \/ In t' (map fst u).
Proof.
  induction u as [|[x k] u IH]; cbn [incr map fst In]; [intuition congruence|]. destruct (teq_spec t x) as [E|E]; cbn [map fst In]; [subst x; intuition congruence|]. rewrite IH. intuition congruence.
Qed.
Lemma incr_nodup t u : NoDup (map fst u) -> NoDup (map fst (incr t u)).
Proof.
  induction u as [|[x k] u IH]; cbn [incr map fst]; intro H; [repeat constructor; auto|]. apply NoDup_cons_iff in H as (H & H1). destruct (teq_spec t x) as [E|E]; cbn [map fst]; [constructor; auto|]. constructor; auto. rewrite incr_keys. intros [X|X]; [congruence|contradiction].
Qed.
Lemma incr_in t u t' c' : NoDup (map fst u) -> In (t', c') (incr t u) -> (t' <> t /\ In (t', c') u) \/ (t' = t /\ ((~ In t (map fst u) /\ c' = 1) \/ exists c, In (t, c) u /\ c' = i32 (c + 1))).
Proof.
  induction u as [|[x k] u IH]; cbn [incr map fst]; intros N H.
  - destruct H as [H|[]]. injection H as <- <-. right. split; auto.
  - apply NoDup_cons_iff in N as (N & N1). destruct (teq_spec t x) as [E|E].
    + subst x. destruct H as [H|H].
      * injection H as <- <-. right. split; auto. right. exists k. split; [left; reflexivity|reflexivity].
      * left. split; [|right; exact H]. intros ->. apply N. change t with (fst (t, c')). apply in_map. exact H.
    + destruct H as [H|H].
      * injection H as <- <-. left. split; [congruence|left; reflexivity].
      * destruct (IH N1 H) as [(A & B)|(A & [(B & C)|(c & B & C)])].
        -- left. split; [exact A|right; exact B].
        -- right. split; [exact A|]. left. split; [|exact C]. intros [X|X]; [congruence|contradiction].
        -- right. split; [exact A|]. right. exists c. split; [right; exact B|exact C].
Qed.
Lemma incr_sum t u : (forall c, In (t, c) u -> fit (c + 1)) -> usum (incr t u) = usum u + 1.
Proof.
  unfold usum. induction u as [|[x k] u IH]; intro H; [reflexivity|]. cbn [incr]. destruct (teq_spec t x) as [E|E]; cbn [map snd total fold_right].
  - subst x. rewrite i32_id by (apply H; left; reflexivity). lia.
  - fold (total (map snd (incr t u))) (total (map snd u)). rewrite IH; [lia|]. intros c I. apply H. right. exact I.
Qed.
Lemma rfind_rupd a f r b : rfind b (rupd a f r) = if N.eqb b a then match rfind b r with Some i => Some (f i) | None => None end else rfind b r.
Proof.
  induction r as [|[x i] r IH]; cbn [rupd rfind]; [destruct (N.eqb b a); reflexivity|]. destruct (N.eqb_spec a x) as [E|E]; cbn [rfind].
  - subst x. destruct (N.eqb b a); reflexivity.
  - rewrite IH. destruct (N.eqb_spec b x) as [E1|E1]; [|reflexivity]. subst x. destruct (N.eqb_spec b a); [congruence|reflexivity].
Qed.
Lemma pair_eq_spec x y : reflect (x = y) (pair_eq x y).
Proof.
  destruct x as [a t], y as [b s]. unfold pair_eq. cbn [fst snd]. destruct (N.eqb_spec a b), (teq_spec t s); cbn [andb]; constructor; congruence.
Qed.
Lemma times_app x l l' : times x (l ++ l') = times x l + times x l'.
Proof. unfold times. rewrite filter_app. apply num_app. Qed.
Lemma times_one x y : times x [y] = if pair_eq x y then 1 else 0.
Proof. unfold times. cbn [filter]. destruct (pair_eq x y); reflexivity. Qed.
Lemma times_notin x l : ~ In x l -> times x l = 0.
Proof. unfold times. induction l as [|y l IH]; intro H; [reflexivity|]. cbn [filter]. destruct (pair_eq_spec x y) as [E|E]; [destruct H; left; congruence|]. apply IH. intro I. apply H. right. exact I. Qed.
Lemma filter_num {A} (f : A -> bool) l : 0 <= num (filter f l) <= num l.
Proof. split; [apply num_nonneg|]. induction l as [|x l IH]; [apply Z.le_refl|]. cbn [filter]. destruct (f x); rewrite ?num_cons; lia. Qed.
Lemma of_attr_app a l l' : of_attr a (l ++ l') = of_attr a l ++ of_attr a l'.
Proof. apply filter_app. Qed.

Definition info_ok (a : N) (d w : list (N * text)) (k : Z) (u : uses) : Prop :=
  k = num (of_attr a d) /\ 1 <= k /\ NoDup (map fst u) /\ (forall t, In t (map fst u) <-> In (a, t) d) /\
  (forall t c, In (t, c) u -> c = times (a, t) d + times (a, t) w) /\ usum u = num (of_attr a d) + num (of_attr a w).
Definition rinv (d w : list (N * text)) (r : reuse) : Prop :=
  incl w d /\ forall a, match rfind a r with None => of_attr a d = [] | Some (k, u) => info_ok a d w k u end.
Lemma of_attr_in a t d : In (a, t) d -> of_attr a d <> [].
Proof. intros H E. assert (I : In (a, t) (of_attr a d)) by (apply filter_In; split; [exact H|cbn [fst]; apply N.eqb_refl]). rewrite E in I. exact I. Qed.
Lemma in_of_attr a t d : of_attr a d = [] -> ~ In (a, t) d.
Proof. intros E H. exact (of_attr_in a t d H E). Qed.

(* one more occurrence, in a node record (n = true) or in a path *)
Lemma incr_info a t d w k u (n : bool) : info_ok a d w k u -> incl w d -> (n = false -> In (a, t) d) -> num d + num w < 2147483647 ->
  info_ok a (if n then d ++ [(a, t)] else d) (if n then w else w ++ [(a, t)]) (if n then i32 (k + 1) else k) (incr t u).
Proof.
  intros (A & B & C & D & E & F) W U M.
  assert (S : forall c, In (t, c) u -> fit (c + 1)).
  { intros c I. rewrite (E t c I). unfold fit, times. pose proof (filter_num (pair_eq (a, t)) d). pose proof (filter_num (pair_eq (a, t)) w). lia. }
  assert (O : of_attr a [(a, t)] = [(a, t)]) by (unfold of_attr; cbn [filter fst]; rewrite N.eqb_refl; reflexivity).
  assert (T1 : times (a, t) [(a, t)] = 1) by (rewrite times_one; destruct (pair_eq_spec (a, t) (a, t)); congruence).
  assert (T0 : forall t', t' <> t -> times (a, t') [(a, t)] = 0) by (intros t' X; rewrite times_one; destruct (pair_eq_spec (a, t') (a, t)); congruence).
  unfold info_ok. split; [|split; [|split; [|split; [|split]]]].
  - destruct n; [|exact A]. rewrite of_attr_app, O, num_app, A. rewrite i32_id; [reflexivity|]. unfold fit, of_attr. pose proof (filter_num (fun p : N * text => N.eqb a (fst p)) d). pose proof (num_nonneg w). lia.
  - destruct n; [|exact B]. rewrite i32_id; [lia|]. rewrite A in *. unfold fit, of_attr in *. pose proof (filter_num (fun p : N * text => N.eqb a (fst p)) d). pose proof (num_nonneg w). lia.
  - apply incr_nodup. exact C.
  - intro t'. rewrite incr_keys, D. destruct n.
    + rewrite in_app_iff. cbn [In]. split; [intros [->|X]; auto|intros [X|[X|[]]]; [auto|left; congruence]].
    + split; [intros [->|X]; auto|auto].
  - intros t' c' I. destruct (incr_in t u t' c' C I) as [(X & Y)|(-> & [(X & ->)|(c & Y & ->)])].
    + rewrite (E _ _ Y). destruct n; rewrite times_app, (T0 t' X); lia.
    + rewrite D in X. assert (X2 : ~ In (a, t) w) by (intro Y; apply X; apply W; exact Y). destruct n; [|destruct (X (U eq_refl))]. rewrite times_app, T1, (times_notin _ _ X), (times_notin _ _ X2). reflexivity.
    + rewrite i32_id by (apply S; exact Y). rewrite (E _ _ Y). destruct n; rewrite times_app, T1; lia.
  - rewrite incr_sum by exact S. rewrite F. destruct n; rewrite of_attr_app, O, num_app; unfold num; cbn [length]; lia.
Qed.
Lemma other_info a b t d w k u (n : bool) : info_ok b d w k u -> b <> a -> info_ok b (if n then d ++ [(a, t)] else d) (if n then w else w ++ [(a, t)]) k u.
Proof.
  intros (A & B & C & D & E & F) X.
  assert (O : of_attr b [(a, t)] = []) by (unfold of_attr; cbn [filter fst]; destruct (N.eqb_spec b a); [contradiction|reflexivity]).
  assert (T0 : forall t', times (b, t') [(a, t)] = 0) by (intro t'; rewrite times_one; destruct (pair_eq_spec (b, t') (a, t)); congruence).
  unfold info_ok. destruct n; rewrite ?of_attr_app, ?O, ?app_nil_r; (split; [exact A|]; split; [exact B|]; split; [exact C|]; split; [|split; [|exact F]]).
  - intro t'. rewrite D, in_app_iff. cbn [In]. split; [auto|intros [Y|[Y|[]]]; [exact Y|congruence]].
  - intros t' c I. rewrite times_app, T0, (E _ _ I). lia.
  - exact D.
  - intros t' c I. rewrite times_app, T0, (E _ _ I). lia.
Qed.
Lemma node_step d w r n : rinv d w r -> num d + num w < 2147483647 -> rinv (d ++ [(sn_attr n, sn_text n)]) w (reuse_node r n).
Proof.
  intros (W & H) M. split; [intros x I; apply in_or_app; left; exact (W x I)|]. intro b. unfold reuse_node. set (a := sn_attr n). set (t := sn_text n). pose proof (H a) as Ha. pose proof (H b) as Hb. destruct (rfind a r) as [[k u]|] eqn:R.
  - rewrite rfind_rupd. destruct (N.eqb_spec b a) as [E|E].
    + subst b. rewrite R. cbn [fst snd]. exact (incr_info a t d w k u true Ha W ltac:(discriminate) M).
    + destruct (rfind b r) as [[k' u']|].
      * exact (other_info a b t d w k' u' true Hb E).
      * rewrite of_attr_app, Hb. unfold of_attr. cbn [app filter fst]. destruct (N.eqb_spec b a); [contradiction|reflexivity].
  - cbn [rfind]. destruct (N.eqb_spec b a) as [E|E].
    + rewrite E. assert (Z1 : of_attr a w = []).
      { destruct (of_attr a w) as [|[a' t'] l] eqn:Q; [reflexivity|]. exfalso. assert (I : In (a', t') (of_attr a w)) by (rewrite Q; left; reflexivity). apply filter_In in I as (I & I1). cbn [fst] in I1. apply N.eqb_eq in I1. subst a'. exact (in_of_attr _ _ _ Ha (W _ I)). }
      assert (O : of_attr a [(a, t)] = [(a, t)]) by (unfold of_attr; cbn [filter fst]; rewrite N.eqb_refl; reflexivity).
      unfold info_ok. rewrite of_attr_app, Ha, O, Z1. cbn [app].
      split; [reflexivity|]. split; [lia|]. split; [repeat constructor; auto|]. split; [|split; [|reflexivity]].
      * intro t'. rewrite in_app_iff. cbn [map fst In]. split; [intros [->|[]]; auto|intros [X|[X|[]]]; [destruct (in_of_attr _ _ _ Ha X)|left; congruence]].
      * intros t' c [X|[]]. injection X as <- <-. rewrite times_app, times_one. destruct (pair_eq_spec (a, t) (a, t)); [|congruence]. rewrite (times_notin (a, t) d (in_of_attr _ _ _ Ha)). rewrite (times_notin (a, t) w); [reflexivity|]. intro I. exact (in_of_attr _ _ _ Ha (W _ I)).
    + destruct (rfind b r) as [[k' u']|].
      * exact (other_info a b t d w k' u' true Hb E).
      * rewrite of_attr_app, Hb. unfold of_attr. cbn [app filter fst]. destruct (N.eqb_spec b a); [contradiction|reflexivity].
Qed.
Lemma use_step d w r p : rinv d w r -> In p d -> num d + num w < 2147483647 -> rinv d (w ++ [p]) (reuse_use r p).
Proof.
  destruct p as [a t]. intros (W & H) I M. split; [intros x J; apply in_app_or in J as [J|[<-|[]]]; [exact (W x J)|exact I]|]. intro b. unfold reuse_use. cbn [fst snd]. pose proof (H a) as Ha. pose proof (H b) as Hb. destruct (rfind a r) as [[k u]|] eqn:R.
  - rewrite rfind_rupd. destruct (N.eqb_spec b a) as [E|E].
    + subst b. rewrite R. cbn [fst snd]. exact (incr_info a t d w k u false Ha W (fun _ => I) M).
    + destruct (rfind b r) as [[k' u']|]; [exact (other_info a b t d w k' u' false Hb E)|exact Hb].
  - destruct (in_of_attr _ t _ Ha I).
Qed.
Definition no_inv (r : reuse) : Prop := rfind inv_id r = None.
Lemma use_no_inv r p : no_inv r -> no_inv (reuse_use r p).
Proof. unfold no_inv, reuse_use. intro H. destruct (rfind (fst p) r) eqn:E; [|exact H]. rewrite rfind_rupd, H. destruct (N.eqb inv_id (fst p)); reflexivity. Qed.
Lemma path_step p : forall d w r, rinv d w r -> no_inv r -> incl p d -> num d + num w + num p <= 2147483647 ->
  rinv d (w ++ p) (fold_left reuse_use (p ++ [(inv_id, [])]) r) /\ no_inv (fold_left reuse_use (p ++ [(inv_id, [])]) r).
Proof.
  induction p as [|x p IH]; intros d w r H V I M; cbn [app fold_left].
  - rewrite app_nil_r. unfold reuse_use. cbn [fst]. rewrite V. auto.
  - rewrite num_cons in M. pose proof (num_nonneg p). assert (Ix : In x d) by (apply I; left; reflexivity). replace (w ++ x :: p) with ((w ++ [x]) ++ p) by (rewrite <- app_assoc; reflexivity). apply IH.
    + apply use_step; auto. lia.
    + apply use_no_inv. exact V.
    + intros y J. apply I. right. exact J.
    + rewrite num_app. unfold num at 3. cbn [length]. lia.
Qed.
Lemma rec_step es : forall d w r, rinv d w r -> no_inv r -> incl (used es) d -> num d + num w + num (used es) <= 2147483647 ->
  rinv d (w ++ used es) (reuse_rec r es) /\ no_inv (reuse_rec r es).
Proof.
  unfold reuse_rec, used. induction es as [|e es IH]; intros d w r H V I M; [cbn; rewrite app_nil_r; auto|]. destruct e as [p| |]; [|apply IH; assumption|apply IH; assumption].
  change (concat (refs (Ref p :: es))) with (p ++ concat (refs es)) in *. rewrite num_app in M. pose proof (num_nonneg (concat (refs es))). cbn [fold_left]. destruct (path_step p d w r H V) as (A & B); [intros x J; apply I; apply in_or_app; left; exact J|lia|].
  rewrite app_assoc. apply IH; auto; [intros x J; apply I; apply in_or_app; right; exact J|]. rewrite num_app. lia.
Qed.
Lemma used_app a b : used (a ++ b) = used a ++ used b.
Proof. unfold used. rewrite refs_app, concat_app. reflexivity. Qed.
Lemma all_steps l : forall seen d w r, rinv d w r -> no_inv r -> closed seen l -> (forall x, In x seen -> In x d) -> num d + num w + num (defined l) + num (all_used l) <= 2147483647 ->
  rinv (d ++ defined l) (w ++ all_used l) (fold_left (fun r i => snd (process (stat0, r) i)) l r).
Proof.
  induction l as [|i l IH]; intros seen d w r H V C S M; [cbn; rewrite !app_nil_r; exact H|]. pose proof (num_nonneg (defined l)). pose proof (num_nonneg (all_used l)). destruct i as [n|es]; cbn [fold_left process snd closed] in *; destruct C as (C1 & C).
  - change (defined (NodeRec n :: l)) with ((sn_attr n, sn_text n) :: defined l) in *. change (all_used (NodeRec n :: l)) with (all_used l) in *. rewrite num_cons in M. replace (d ++ (sn_attr n, sn_text n) :: defined l) with ((d ++ [(sn_attr n, sn_text n)]) ++ defined l) by (rewrite <- app_assoc; reflexivity).
    eapply IH; [apply node_step; [exact H|lia]| |exact C| |].
    + unfold no_inv, reuse_node. destruct (rfind (sn_attr n) r) eqn:R; [rewrite rfind_rupd, V; destruct (N.eqb inv_id (sn_attr n)); reflexivity|]. cbn [rfind]. destruct (N.eqb_spec inv_id (sn_attr n)); [congruence|exact V].
    + intros x [<-|X]; apply in_or_app; [right; left; reflexivity|left; auto].
    + rewrite num_app. unfold num at 2. cbn [length]. lia.
  - change (defined (SnapRec es :: l)) with (defined l) in *. assert (Q : all_used (SnapRec es :: l) = used es ++ all_used l) by (unfold all_used, entries; cbn [records_of flat_map app concat]; rewrite used_app; reflexivity). rewrite Q in *. rewrite num_app in M. rewrite app_assoc.
    destruct (rec_step es d w r H V) as (A & B); [intros x J; apply S, C1, J|lia|]. eapply IH; [exact A|exact B|exact C|exact S|]. rewrite num_app. lia.
Qed.
