From Verif Require Import Base VariantModel VariantSpec TreeModel TreeSpec.

Lemma veqb_eq a b : veqb a b = true <-> a = b.
Proof. unfold veqb. destruct (value_eq_dec a b); split; congruence. Qed.

Definition ids (ns : list tnode) := map n_id ns.

(* well-formed store: parents older than children, ids distinct, root last *)
Inductive wf : list tnode -> Prop :=
| wf_root : wf [root_node]
| wf_cons n ns p : wf ns -> n_par n = Some p -> In p (ids ns) -> ~ In (n_id n) (ids ns) ->
    n_attr n <> INV_ID -> wf (n :: ns).

Definition uniq (ns : list tnode) : Prop :=
  forall n m p, In n ns -> In m ns -> n_par n = Some p -> n_par m = Some p ->
    n_attr n = n_attr m -> n_val n = n_val m -> n = m.

Record binv (s : tree) : Prop := {
  bi_npb : 12 <= t_npb s <= 256;
  bi_nblk : t_nblk s < 4294967296;
  bi_fill : forall b f, t_fill s b = Some f -> b < t_next s /\ b < t_nblk s /\ f <= t_npb s;
  bi_cur : forall t b, t_cur s t = Some b -> exists f, t_fill s b = Some f;
  bi_inj : forall t t' b, t_cur s t = Some b -> t_cur s t' = Some b -> t = t';
  bi_node : forall n, In n (t_nodes s) -> n_id n <> ROOT ->
     exists b i f, t_fill s b = Some f /\ i < f /\ n_id n = b * t_npb s + i;
  bi_next : 1 <= t_next s;
  bi_slots : forall b f i, t_fill s b = Some f -> i < f -> In (b * t_npb s + i) (ids (t_nodes s))
}.

Definition inv (s : tree) : Prop := wf (t_nodes s) /\ binv s.

Lemma wf_nodup ns : wf ns -> NoDup (ids ns).
Proof.
  induction 1; simpl; constructor; auto using NoDup_nil.
Qed.
Lemma wf_root_in ns : wf ns -> In root_node ns.
Proof. induction 1; simpl; auto. Qed.
Lemma wf_root_id ns n : wf ns -> In n ns -> n_id n = ROOT -> n = root_node.
Proof.
  induction 1; intros Hi Hr.
  - destruct Hi as [<-|[]]; reflexivity.
  - destruct Hi as [<-|Hi]; auto. exfalso. apply H2. rewrite Hr.
    apply (in_map n_id _ root_node). apply wf_root_in; assumption.
Qed.
Lemma wf_par ns n : wf ns -> In n ns -> n_id n <> ROOT -> exists p, n_par n = Some p /\ In p (ids ns).
Proof.
  induction 1; intros Hi Hr.
  - destruct Hi as [<-|[]]; contradiction Hr; reflexivity.
  - destruct Hi as [<-|Hi].
    + exists p; split; auto. right; auto.
    + destruct (IHwf Hi Hr) as (q & ? & ?). exists q; split; auto. right; auto.
Qed.
Lemma wf_attr ns n : wf ns -> In n ns -> n_id n <> ROOT -> n_attr n <> INV_ID.
Proof.
  induction 1; intros Hi Hr.
  - destruct Hi as [<-|[]]; contradiction Hr; reflexivity.
  - destruct Hi as [<-|Hi]; auto.
Qed.
Lemma nodup_id_eq ns n m : NoDup (ids ns) -> In n ns -> In m ns -> n_id n = n_id m -> n = m.
Proof.
  induction ns as [|x r IH]; simpl; intros Hn Hi Hj E; [contradiction|].
  inversion Hn; subst.
  destruct Hi as [<-|Hi], Hj as [<-|Hj]; auto.
  - exfalso. apply H1. rewrite E. apply in_map; assumption.
  - exfalso. apply H1. rewrite <- E. apply in_map; assumption.
Qed.

Lemma node_at_in s i n : node_at s i = Some n -> In n (t_nodes s) /\ n_id n = i.
Proof. unfold node_at. intro H. apply find_some in H. destruct H as [H E]. apply N.eqb_eq in E. auto. Qed.
Lemma in_node_at s n : NoDup (ids (t_nodes s)) -> In n (t_nodes s) -> node_at s (n_id n) = Some n.
Proof.
  intros Hn Hi. unfold node_at. destruct (find _ (t_nodes s)) eqn:E.
  - apply find_some in E. destruct E as [E1 E2]. apply N.eqb_eq in E2.
    f_equal. eapply nodup_id_eq; eauto.
  - exfalso. eapply find_none in E; [|exact Hi]. simpl in E. rewrite N.eqb_refl in E. discriminate.
Qed.

(* chain follows parent links *)
Lemma chain_none ns : chain ns None = [].
Proof. destruct ns; reflexivity. Qed.
Lemma chain_cons n ns i : chain (n :: ns) (Some i) = if n_id n =? i then n :: chain ns (n_par n) else chain ns (Some i).
Proof. reflexivity. Qed.
Lemma chain_skip n ns p : (forall i, p = Some i -> i <> n_id n) -> chain (n :: ns) p = chain ns p.
Proof.
  intro H. destruct p as [i|]; [|simpl; destruct ns; reflexivity].
  simpl. destruct (N.eqb_spec (n_id n) i); [|reflexivity]. exfalso. apply (H i); auto.
Qed.
Lemma chain_step ns n : wf ns -> In n ns -> chain ns (Some (n_id n)) = n :: chain ns (n_par n).
Proof.
  induction 1 as [|m ns p Hwf IH Hp Hin Hni Ha]; intro Hi.
  - destruct Hi as [<-|[]]. reflexivity.
  - destruct Hi as [<-|Hi].
    + rewrite chain_cons, N.eqb_refl. rewrite Hp. rewrite (chain_skip m ns (Some p)); [reflexivity|].
      intros i Ei ->. apply Hni. congruence.
    + assert (n_id m <> n_id n). { intro E. apply Hni. rewrite E. apply in_map; auto. }
      rewrite chain_cons. destruct (N.eqb_spec (n_id m) (n_id n)); [contradiction|].
      rewrite (IH Hi). f_equal. rewrite chain_skip; [reflexivity|].
      intros i Ei. destruct (N.eq_dec (n_id n) ROOT) as [Er|Er].
      * rewrite (wf_root_id ns n Hwf Hi Er) in Ei. discriminate.
      * destruct (wf_par _ _ Hwf Hi Er) as (q & Eq & Hq). intro. apply Hni. congruence.
Qed.
Lemma chain_in ns p n : In n (chain ns p) -> In n ns.
Proof.
  revert p; induction ns as [|m ns IH]; intros p Hi.
  - destruct p; contradiction.
  - destruct p as [i|]; [|contradiction]. cbn [chain] in Hi.
    destruct (n_id m =? i).
    + destruct Hi as [<-|Hi]; [left; auto|right; eauto].
    + right; eauto.
Qed.

(* contents of a list of nodes (innermost first), without the root *)
Definition nonroot (n : tnode) : bool := negb (n_id n =? ROOT).
Definition content (n : tnode) : N * value := (n_attr n, n_val n).
Definition cpath (ns : list tnode) (p : N) : list (N * value) := map content (rev (filter nonroot (chain ns (Some p)))).

Lemma cpath_root ns : wf ns -> cpath ns ROOT = [].
Proof.
  intro H. unfold cpath. change ROOT with (n_id root_node).
  rewrite (chain_step ns root_node H (wf_root_in _ H)). simpl. rewrite chain_none. reflexivity.
Qed.
Lemma cpath_step ns n p : wf ns -> In n ns -> n_par n = Some p -> cpath ns (n_id n) = cpath ns p ++ [content n].
Proof.
  intros H Hi Hp. unfold cpath. rewrite (chain_step _ _ H Hi), Hp.
  assert (n_id n <> ROOT). { intro E. rewrite (wf_root_id _ _ H Hi E) in Hp. discriminate. }
  cbn [filter]. unfold nonroot at 1. destruct (N.eqb_spec (n_id n) ROOT); [contradiction|].
  simpl. rewrite map_app. reflexivity.
Qed.
Lemma has_path_cpath s i l : wf (t_nodes s) -> has_path s i l -> l = cpath (t_nodes s) i.
Proof.
  intros H. induction 1.
  - symmetry; apply cpath_root; auto.
  - rewrite (cpath_step _ _ _ H H0 H1). subst l. reflexivity.
Qed.
Lemma cpath_has_path s i : wf (t_nodes s) -> In i (ids (t_nodes s)) -> has_path s i (cpath (t_nodes s) i).
Proof.
  intros Hw Hi.
  assert (G : forall ns, wf ns -> (exists new, t_nodes s = new ++ ns) -> forall i, In i (ids ns) ->
     has_path s i (cpath (t_nodes s) i)).
  { induction 1 as [|m ns p Hwf IH Hp Hin Hni Ha]; intros (new & E) j Hj.
    - destruct Hj as [<-|[]]. change (n_id root_node) with ROOT. rewrite cpath_root; auto. constructor.
    - destruct Hj as [<-|Hj].
      + assert (In m (t_nodes s)) by (rewrite E; apply in_or_app; right; left; auto).
        rewrite (cpath_step _ m p Hw H Hp). apply (hp_node s m p); auto.
        apply IH; auto. exists (new ++ [m]). rewrite <- app_assoc. exact E.
      + apply IH; auto. exists (new ++ [m]). rewrite <- app_assoc. exact E. }
  apply (G (t_nodes s)); auto. exists []; auto.
Qed.

(* extension *)
Definition ext (s s' : tree) : Prop :=
  (exists new, t_nodes s' = new ++ t_nodes s) /\ t_next s <= t_next s' /\
  t_npb s' = t_npb s /\ t_nblk s' = t_nblk s.
Lemma ext_refl s : ext s s.
Proof. repeat split; try lia. exists []; reflexivity. Qed.
Lemma ext_trans a b c : ext a b -> ext b c -> ext a c.
Proof.
  intros ((n1 & E1) & L1 & P1 & B1) ((n2 & E2) & L2 & P2 & B2).
  repeat split; try lia; try congruence. exists (n2 ++ n1). rewrite E2, E1, app_assoc. reflexivity.
Qed.
Lemma ext_in s s' n : ext s s' -> In n (t_nodes s) -> In n (t_nodes s').
Proof. intros ((new & E) & _) Hi. rewrite E. apply in_or_app; auto. Qed.
Lemma ext_ids s s' i : ext s s' -> In i (ids (t_nodes s)) -> In i (ids (t_nodes s')).
Proof. intros ((new & E) & _) Hi. unfold ids. rewrite E, map_app. apply in_or_app; auto. Qed.
Lemma ext_path s s' i l : ext s s' -> has_path s i l -> has_path s' i l.
Proof. intros He. induction 1; [constructor|]. apply (hp_node s' n p); auto. eapply ext_in; eauto. Qed.

(* have_free *)
Lemma have_free_spec s t n : inv s -> forall ok s1, have_free s t n = (ok, s1) ->
  inv s1 /\ ext s s1 /\ t_nodes s1 = t_nodes s /\
  (ok = true -> exists b f, t_cur s1 t = Some b /\ t_fill s1 b = Some f /\ (f + n < t_npb s \/ f = 0)) /\
  (ok = false -> t_nblk s1 <= t_next s1).
Proof.
  intros (Hw & Hb) ok s1 H. unfold have_free in H.
  set (need := match t_cur s t with None => true | Some b => match t_fill s b with Some i => t_npb s <=? i + n | None => true end end) in H.
  destruct need eqn:En.
  - destruct (N.leb_spec (t_nblk s) (t_next s)).
    + injection H as <- <-. split; [split; auto|]. split; [apply ext_refl|]. split; [reflexivity|].
      split; [discriminate|]. intros _; auto.
    + injection H as <- <-. destruct Hb as [b1 b2 b3 b4 b5 b6 b7 b8]. cbn.
      assert (Hn : t_fill s (t_next s) = None).
      { destruct (t_fill s (t_next s)) eqn:E; auto. apply b3 in E. lia. }
      split; [split; [exact Hw|constructor; cbn; auto]|].
      * intros b f. unfold upd. destruct (N.eqb_spec b (t_next s)).
        -- intro E. injection E as <-. subst. lia.
        -- intro E. apply b3 in E. lia.
      * intros t' b. unfold upd. destruct (N.eqb_spec t' t).
        -- intro E. injection E as <-. rewrite N.eqb_refl. eauto.
        -- intro E. destruct (b4 _ _ E) as (f & Ef). destruct (N.eqb_spec b (t_next s)); eauto.
      * intros t1 t2 b. unfold upd. destruct (N.eqb_spec t1 t), (N.eqb_spec t2 t); intros E1 E2; try congruence.
        -- injection E1 as <-. apply b4 in E2. destruct E2 as (f & E2). congruence.
        -- injection E2 as <-. apply b4 in E1. destruct E1 as (f & E1). congruence.
        -- eauto.
      * intros m Hm Hr. destruct (b6 m Hm Hr) as (b & i & f & E1 & E2 & E3).
        exists b, i, f. repeat split; auto. unfold upd. destruct (N.eqb_spec b (t_next s)); [congruence|auto].
      * lia.
      * intros b f i. unfold upd. destruct (N.eqb_spec b (t_next s)).
        -- intro E. injection E as <-. lia.
        -- eauto.
      * split; [repeat split; cbn; try lia; exists []; auto|]. split; [reflexivity|]. split; [|discriminate].
        intros _. exists (t_next s), 0. unfold upd. rewrite !N.eqb_refl. auto.
  - injection H as <- <-. split; [split; auto|]. split; [apply ext_refl|]. split; [reflexivity|]. split; [|discriminate].
    intros _. unfold need in En. destruct (t_cur s t) as [b|]; [|discriminate].
    destruct (t_fill s b) as [f|] eqn:Ef; [|discriminate]. apply N.leb_gt in En. eauto 6.
Qed.

Lemma block_id_inj npb b i b' i' : i < npb -> i' < npb -> b * npb + i = b' * npb + i' -> b = b' /\ i = i'.
Proof.
  intros H H' E.
  assert (b = b').
  { transitivity ((b * npb + i) / npb); [apply (N.div_unique _ _ b i)|rewrite E; symmetry; apply (N.div_unique _ _ b' i')]; lia. }
  subst. split; auto. lia.
Qed.

Lemma place_spec s t a v p b f : inv s -> In p (ids (t_nodes s)) -> a <> INV_ID ->
  t_cur s t = Some b -> t_fill s b = Some f -> f < t_npb s ->
  exists s1, place s t a v p = Some (b * t_npb s + f, s1) /\ inv s1 /\ ext s s1 /\
    t_nodes s1 = mkn (b * t_npb s + f) a v (Some p) :: t_nodes s /\
    t_cur s1 t = Some b /\ t_fill s1 b = Some (f + 1).
Proof.
  intros (Hw & Hb) Hp Ha Hc Hf Hlt. unfold place. rewrite Hc, Hf.
  destruct (N.ltb_spec f (t_npb s)); [|lia].
  set (id := b * t_npb s + f).
  destruct Hb as [b1 b2 b3 b4 b5 b6 b7 b8].
  assert (Hfresh : ~ In id (ids (t_nodes s))).
  { intro Hi. apply in_map_iff in Hi. destruct Hi as (m & Em & Hm).
    destruct (N.eq_dec (n_id m) ROOT) as [Er|Er].
    - destruct (b3 _ _ Hf). unfold id, ROOT, INV_ID in *.
      assert (b * t_npb s <= 4294967296 * 256) by (apply N.mul_le_mono; lia). lia.
    - destruct (b6 m Hm Er) as (b' & i' & f' & E1 & E2 & E3). destruct (b3 _ _ E1) as (_ & _ & Hle).
      assert (E : b * t_npb s + f = b' * t_npb s + i') by (rewrite <- E3; symmetry; exact Em).
      apply block_id_inj in E; [|lia|lia]. destruct E as (-> & ->). rewrite E1 in Hf. injection Hf as ->. lia. }
  eexists. split; [reflexivity|]. cbn. split; [split; [cbn|constructor; cbn; auto]|].
  - apply (wf_cons _ _ p); auto.
  - intros b' f'. unfold upd. destruct (N.eqb_spec b' b).
    + intro E. injection E as <-. subst. destruct (b3 _ _ Hf). lia.
    + intro E. eauto.
  - intros t' b' E. destruct (b4 _ _ E) as (f' & E'). unfold upd. destruct (N.eqb_spec b' b); eauto.
  - intros m [<-|Hm] Hr.
    + exists b, f, (f + 1). cbn. unfold upd. rewrite N.eqb_refl. repeat split; lia.
    + destruct (b6 m Hm Hr) as (b' & i & f' & E1 & E2 & E3). unfold upd.
      destruct (N.eqb_spec b' b).
      * subst b'. exists b, i, (f + 1). rewrite N.eqb_refl. repeat split; auto. rewrite Hf in E1. injection E1 as ->. lia.
      * exists b', i, f'. destruct (N.eqb_spec b' b); [contradiction|]. auto.
  - intros b' f' i. unfold upd. destruct (N.eqb_spec b' b).
    + intro E. injection E as <-. intro Hi. subst b'. destruct (N.eq_dec i f) as [->|].
      * left; reflexivity.
      * right. apply (b8 b f); auto. lia.
    + intros E Hi. right. eauto.
  - split; [|split; [reflexivity|split; [assumption|unfold upd; rewrite N.eqb_refl; reflexivity]]].
    repeat split; cbn; try lia. exists [mkn id a v (Some p)]; reflexivity.
Qed.

(* outcome of an operation that returns the node for (a,v) under p *)
Definition child_of (s : tree) (i p a : N) (v : value) : Prop := In (mkn i a v (Some p)) (t_nodes s).

Lemma create_child_spec s t a v p : inv s -> In p (ids (t_nodes s)) -> a <> INV_ID ->
  exists r s1, create_child s t a v p = Some (r, s1) /\ inv s1 /\ ext s s1 /\
   match r with
   | Some i => child_of s1 i p a v /\ t_nodes s1 = mkn i a v (Some p) :: t_nodes s
   | None => t_nblk s1 <= t_next s1 /\ t_nodes s1 = t_nodes s
   end.
Proof.
  intros Hi Hp Ha. unfold create_child. destruct (have_free s t 1) as [ok s1] eqn:E.
  destruct (have_free_spec s t 1 Hi _ _ E) as (Hi1 & He1 & En & Ht & Hf).
  destruct ok.
  - destruct (Ht eq_refl) as (b & f & Hc & Hfl & Hlt).
    assert (Hnpb : t_npb s1 = t_npb s) by apply He1.
    assert (12 <= t_npb s) by apply Hi.
    destruct (place_spec s1 t a v p b f) as (s2 & Ep & Hi2 & He2 & En2 & _); auto; try lia.
    { rewrite En; auto. }
    rewrite Ep. eexists _, _. split; [reflexivity|]. split; [auto|]. split; [eapply ext_trans; eauto|].
    unfold child_of. rewrite En2, En. split; [left|]; reflexivity.
  - eexists _, _. split; [reflexivity|]. auto.
Qed.

Lemma find_child_spec s p a v n : find_child s p a v = Some n ->
  In n (t_nodes s) /\ n_par n = Some p /\ n_attr n = a /\ n_val n = v.
Proof.
  intro H. apply find_some in H. destruct H as [Hi H]. unfold is_child in H.
  destruct (n_par n) eqn:E; [|discriminate].
  apply andb_true_iff in H. destruct H as [H Ha]. apply andb_true_iff in H. destruct H as [Hp Hv].
  apply N.eqb_eq in Hp, Ha. apply veqb_eq in Hv. subst. auto.
Qed.
Lemma find_child_none s p a v n : find_child s p a v = None -> In n (t_nodes s) ->
  n_par n = Some p -> n_attr n = a -> n_val n = v -> False.
Proof.
  intros H Hi Hp Ha Hv. eapply find_none in H; [|exact Hi]. unfold is_child in H. rewrite Hp, Hv, Ha, !N.eqb_refl in H.
  assert (veqb v v = true) by (apply veqb_eq; reflexivity). rewrite H0 in H. discriminate.
Qed.

Lemma get_child_spec s t a v p : inv s -> In (or_root p) (ids (t_nodes s)) -> a <> INV_ID ->
  exists r s1, get_child s t a v p = Some (r, s1) /\ inv s1 /\ ext s s1 /\
   (uniq (t_nodes s) -> uniq (t_nodes s1)) /\
   match r with
   | Some i => child_of s1 i (or_root p) a v
   | None => t_nblk s1 <= t_next s1
   end.
Proof.
  intros Hi Hp Ha. unfold get_child. destruct (find_child s (or_root p) a v) as [n|] eqn:E.
  - apply find_child_spec in E. destruct E as (H1 & H2 & H3 & H4).
    eexists _, _. split; [reflexivity|]. split; [auto|]. split; [apply ext_refl|]. split; [auto|].
    unfold child_of. destruct n; cbn in *; subst; auto.
  - destruct (create_child_spec s t a v (or_root p) Hi Hp Ha) as (r & s1 & Ec & Hi1 & He & Hr).
    eexists _, _. split; [exact Ec|]. split; [auto|]. split; [auto|]. split.
    + intro U. destruct r as [i|].
      * destruct Hr as (_ & Hn). rewrite Hn. intros n m q [<-|Hn1] [<-|Hm1] Pn Pm A V; auto.
        -- exfalso. cbn in *. injection Pn as <-. eapply find_child_none; eauto.
        -- exfalso. cbn in *. injection Pm as <-. eapply find_child_none; eauto.
        -- eapply U; eauto.
      * destruct Hr as (_ & ->). auto.
    + destruct r; tauto.
Qed.

Lemma goc_get_child s t n p : get_or_copy_node s t n p = get_child s t (n_attr n) (n_val n) p.
Proof. reflexivity. Qed.

Lemma child_path s i p a v l : wf (t_nodes s) -> child_of s i p a v -> has_path s p l -> has_path s i (l ++ [(a, v)]).
Proof. intros Hw Hc Hp. apply (hp_node s (mkn i a v (Some p)) p l); auto. Qed.

Lemma has_path_in s i l : wf (t_nodes s) -> has_path s i l -> In i (ids (t_nodes s)).
Proof.
  intros Hw [|n p l' Hi]; [change ROOT with (n_id root_node)|]; apply in_map; auto. apply wf_root_in; auto.
Qed.
Lemma root_in s : inv s -> In ROOT (ids (t_nodes s)).
Proof. intros (Hw & _). change ROOT with (n_id root_node). apply in_map. apply wf_root_in; auto. Qed.
Lemma child_in s i p a v : child_of s i p a v -> In i (ids (t_nodes s)).
Proof. intro H. change i with (n_id (mkn i a v (Some p))). apply in_map; auto. Qed.
Lemma not_full_ext s s' : ext s s' -> not_full s' -> not_full s.
Proof. unfold not_full. intros (_ & L & _ & B) H. rewrite B in H. lia. Qed.

(* general result statement: an operation yields path l' *)
Definition yields (s s' : tree) (r : option N) (l : list (N * value)) : Prop :=
  inv s' /\ ext s s' /\ (uniq (t_nodes s) -> uniq (t_nodes s')) /\
  (forall i, r = Some i -> In i (ids (t_nodes s'))) /\
  (not_full s' -> exists i, r = Some i /\ has_path s' i l).

Lemma get_child_yields s t a v p l : inv s -> (forall i, p = Some i -> In i (ids (t_nodes s))) ->
  a <> INV_ID -> (not_full s -> has_path s (or_root p) l) ->
  exists r s1, get_child s t a v p = Some (r, s1) /\ yields s s1 r (l ++ [(a, v)]).
Proof.
  intros Hi Hp Ha Hl.
  assert (Hp' : In (or_root p) (ids (t_nodes s))) by (destruct p; cbn; [auto|apply root_in; auto]).
  destruct (get_child_spec s t a v p Hi Hp' Ha) as (r & s1 & E & Hi1 & He & U & Hr).
  exists r, s1. split; auto. split; [exact Hi1|]. split; [exact He|]. split; [exact U|]. split.
  - intros i ->. eapply child_in; eauto.
  - intro Hnf. destruct r as [i|].
    + exists i. split; auto. eapply child_path; eauto; [apply Hi1|]. eapply ext_path; eauto.
      apply Hl. eapply not_full_ext; eauto.
    + unfold not_full in Hnf. lia.
Qed.

Lemma yields_trans s s1 s2 r1 r2 l1 l2 : yields s s1 r1 l1 -> yields s1 s2 r2 l2 -> yields s s2 r2 l2.
Proof.
  intros (A1 & A2 & A3 & A4 & A5) (B1 & B2 & B3 & B4 & B5). split; [exact B1|]. split; [eapply ext_trans; eauto|]. split; auto.
Qed.

(* get_path over a node list *)
Lemma get_path_nodes_yields nl : forall s t p l, inv s -> (forall i, p = Some i -> In i (ids (t_nodes s))) ->
  (not_full s -> has_path s (or_root p) l /\ (p = None -> l = [])) ->
  Forall (fun x => forall n, x = Some n -> n_attr n <> INV_ID) nl ->
  exists r s1, get_path_nodes s t nl p = Some (r, s1) /\ inv s1 /\ ext s s1 /\ (uniq (t_nodes s) -> uniq (t_nodes s1)) /\
   (forall i, r = Some i -> In i (ids (t_nodes s1))) /\
   (not_full s1 -> has_path s1 (or_root r) (l ++ flat_map (fun x => match x with Some n => [content n] | None => [] end) nl)).
Proof.
  induction nl as [|x nl IH]; intros s t p l Hi Hp Hl Hall.
  - exists p, s. cbn. split; auto. split; auto. split; [apply ext_refl|]. split; auto. split; auto.
    rewrite app_nil_r. intro. apply Hl; auto.
  - inversion Hall; subst. destruct x as [n|].
    + cbn [get_path_nodes]. rewrite goc_get_child.
      destruct (get_child_yields s t (n_attr n) (n_val n) p l Hi Hp) as (r & s1 & E & Hi1 & He1 & U1 & P1 & Y1); auto.
      { intro; apply Hl; auto. }
      rewrite E.
      destruct (IH s1 t r (l ++ [content n])) as (r2 & s2 & E2 & Hi2 & He2 & U2 & P2 & Y2); auto.
      { intro Hnf. destruct (Y1 Hnf) as (i & -> & Hpi). split; [exact Hpi|discriminate]. }
      exists r2, s2. split; auto. split; auto. split; [eapply ext_trans; eauto|]. split; auto. split; auto.
      intro Hnf. cbn. change (content n :: ?x) with ([content n] ++ x). rewrite app_assoc. auto.
    + cbn. apply IH; auto.
Qed.

(* copying part of a chain *)
Fixpoint upto (stop : N) (ch : list tnode) : list tnode :=
  match ch with [] => [] | n :: r => if n_id n =? stop then [] else n :: upto stop r end.

Lemma copy_wo_yields ch : forall s t a stop l, inv s -> In stop (ids (t_nodes s)) -> has_path s stop l ->
  Forall (fun n => n_attr n <> INV_ID) (upto stop ch) ->
  exists r s1, copy_wo s t a ch stop = Some (r, s1) /\
    yields s s1 r (l ++ rm_all a (map content (rev (upto stop ch)))).
Proof.
  induction ch as [|n ch IH]; intros s t a stop l Hi Hst Hl Hall.
  - exists (Some stop), s. cbn. split; auto. rewrite app_nil_r. split; auto. split; [apply ext_refl|]. split; auto.
    split; [intros i Ei; injection Ei as <-; auto|]. intros _. exists stop; auto.
  - cbn [copy_wo upto]. destruct (N.eqb_spec (n_id n) stop).
    + exists (Some stop), s. cbn. split; auto. rewrite app_nil_r. split; auto. split; [apply ext_refl|]. split; auto.
      split; [intros i Ei; injection Ei as <-; auto|]. intros _. exists stop; auto.
    + cbn [upto] in Hall. destruct (N.eqb_spec (n_id n) stop); [contradiction|]. inversion Hall; subst.
      destruct (IH s t a stop l Hi Hst Hl H2) as (r & s1 & E & Y). rewrite E.
      destruct (N.eqb_spec (n_attr n) a).
      * exists r, s1. split; auto. cbn [rev]. rewrite map_app. unfold rm_all. rewrite filter_app. cbn.
        destruct (N.eqb_spec (n_attr n) a); [|contradiction]. cbn. rewrite app_nil_r. exact Y.
      * destruct Y as (Hi1 & He1 & U1 & P1 & Y1). rewrite goc_get_child.
        destruct (get_child_yields s1 t (n_attr n) (n_val n) r
                   (l ++ rm_all a (map content (rev (upto stop ch)))) Hi1 P1 H1) as (r2 & s2 & E2 & Y2).
        { intro Hnf. destruct (Y1 Hnf) as (i & -> & Hpi). exact Hpi. }
        exists r2, s2. split; auto. cbn [rev]. rewrite map_app. unfold rm_all. rewrite filter_app. cbn.
        destruct (N.eqb_spec (n_attr n) a); [contradiction|]. cbn. rewrite app_assoc.
        eapply yields_trans; [|exact Y2]. split; [exact Hi1|]. split; [exact He1|]. split; [exact U1|]. split; [exact P1|exact Y1].
Qed.

(* decomposition of a chain *)
Lemma chain_decomp ns : wf ns -> forall i pre n post, In i (ids ns) ->
  chain ns (Some i) = pre ++ n :: post ->
  (forall q, n_par n = Some q -> chain ns (Some q) = post /\ upto q (pre ++ n :: post) = pre ++ [n]) /\
  (n_par n = None -> n = root_node /\ post = [] ).
Proof.
  intros Hw.
  assert (Hsuf : forall pre i n post, In i (ids ns) -> chain ns (Some i) = pre ++ n :: post -> chain ns (Some (n_id n)) = n :: post).
  { induction pre as [|m pre IH]; intros i n post Hi E; apply in_map_iff in Hi; destruct Hi as (x & <- & Hx);
      rewrite (chain_step _ _ Hw Hx) in E; cbn in E; injection E as -> E.
    - rewrite (chain_step _ _ Hw Hx). congruence.
    - destruct (N.eq_dec (n_id m) ROOT) as [Er|Er].
      + rewrite (wf_root_id _ _ Hw Hx Er) in E. cbn in E. rewrite chain_none in E. destruct pre; discriminate.
      + destruct (wf_par _ _ Hw Hx Er) as (q & Eq & Hq). rewrite Eq in E. eapply IH; eauto. }
  assert (Hnd : forall ns, wf ns -> forall p, NoDup (ids (chain ns p))).
  { clear. induction 1 as [|m ns p Hwf IH Hp Hin Hni Ha]; intros q.
    - destruct q as [i|]; [|constructor]. cbn. destruct (ROOT =? i); repeat constructor; auto.
    - destruct q as [i|]; [|constructor]. cbn [chain]. destruct (n_id m =? i); [|apply IH].
      cbn. constructor; [|apply IH]. intro Hx. apply Hni. apply in_map_iff in Hx. destruct Hx as (y & Ey & Hy).
      rewrite <- Ey. apply in_map. eapply chain_in; eauto. }
  intros i pre n post Hi E. pose proof (Hsuf _ _ _ _ Hi E) as Hn.
  assert (Hin : In n ns). { eapply chain_in. rewrite E. apply in_or_app; right; left; reflexivity. }
  rewrite (chain_step _ _ Hw Hin) in Hn. injection Hn as Hn.
  split.
  - intros q Hq. rewrite Hq in Hn. split; auto.
    assert (Hqi : exists y, In y post /\ n_id y = q).
    { destruct (N.eq_dec (n_id n) ROOT) as [Er|Er]; [rewrite (wf_root_id _ _ Hw Hin Er) in Hq; discriminate|].
      destruct (wf_par _ _ Hw Hin Er) as (q' & Eq & Hq'). assert (q' = q) by congruence. subst q'.
      apply in_map_iff in Hq'. destruct Hq' as (y & Ey & Hy). exists y. split; auto.
      rewrite <- Hn. rewrite <- Ey, (chain_step _ _ Hw Hy). left; auto. }
    destruct Hqi as (y & Hy & Eyq).
    assert (Hup : forall z, In z (pre ++ [n]) -> n_id z <> q).
    { intros z Hz Ez. pose proof (Hnd ns Hw (Some i)) as Hnd1. rewrite E in Hnd1. unfold ids in Hnd1.
      replace (pre ++ n :: post) with ((pre ++ [n]) ++ post) in Hnd1 by (rewrite <- app_assoc; reflexivity).
      rewrite map_app in Hnd1.
      assert (In q (map n_id (pre ++ [n]))) by (rewrite <- Ez; apply in_map; auto).
      assert (In q (map n_id post)) by (rewrite <- Eyq; apply in_map; auto).
      revert Hnd1 H H0. generalize (map n_id (pre ++ [n])) (map n_id post). clear.
      induction l as [|x l IH]; intros l0 Hd Ha Hb; [contradiction|]. cbn in Hd. inversion Hd; subst.
      destruct Ha as [->|Ha]; [apply H1; apply in_or_app; auto|eauto]. }
    replace (pre ++ n :: post) with ((pre ++ [n]) ++ post) by (rewrite <- app_assoc; reflexivity).
    assert (Hpost : upto q post = []).
    { rewrite <- Hn. apply in_map with (f := n_id) in Hy. rewrite Eyq in Hy.
      assert (In q (ids ns)). { apply in_map_iff in Hy. destruct Hy as (w & Ew & Hw'). rewrite <- Ew.
        apply in_map. rewrite <- Hn in Hw'. eapply chain_in; eauto. }
      apply in_map_iff in H. destruct H as (w & Ew & Hw2). rewrite <- Ew, (chain_step _ _ Hw Hw2). cbn. rewrite N.eqb_refl. reflexivity. }
    revert Hup. generalize (pre ++ [n]). induction l as [|z l IH]; intro Hup; cbn; [auto|].
    destruct (N.eqb_spec (n_id z) q). { exfalso. apply (Hup z); [left; auto|auto]. }
    f_equal. apply IH. intros; apply Hup; right; auto.
  - intro Hq. assert (n = root_node).
    { destruct (N.eq_dec (n_id n) ROOT) as [Er|Er]; [apply (wf_root_id _ _ Hw Hin Er)|].
      destruct (wf_par _ _ Hw Hin Er) as (q' & Eq & _). congruence. }
    split; auto. rewrite Hq, chain_none in Hn. auto.
Qed.

Lemma chain_ends ns : wf ns -> forall i, In i (ids ns) -> exists pre, chain ns (Some i) = pre ++ [root_node] /\
  upto ROOT (pre ++ [root_node]) = pre /\ filter nonroot (pre ++ [root_node]) = pre.
Proof.
  induction 1 as [|m ns p Hwf IH Hp Hin Hni Ha]; intros i Hi.
  - destruct Hi as [<-|[]]. exists []. repeat split.
  - cbn [chain]. destruct (N.eqb_spec (n_id m) i).
    + rewrite Hp. destruct (IH p Hin) as (pre & E1 & E2 & E3). exists (m :: pre). rewrite E1. split; [reflexivity|].
      assert (n_id m <> ROOT). { intro Er. apply Hni. rewrite Er. change ROOT with (n_id root_node). apply in_map. apply wf_root_in; auto. }
      cbn [app upto filter]. unfold nonroot at 1. destruct (N.eqb_spec (n_id m) ROOT); [contradiction|]. cbn [negb].
      rewrite E2, E3. split; reflexivity.
    + destruct Hi as [Hi|Hi]; [contradiction|]. exact (IH i Hi).
Qed.

Lemma rm_first_app_notin a l1 x l2 : (forall y, In y l1 -> fst y <> a) -> fst x = a -> rm_first a (l1 ++ x :: l2) = l1 ++ l2.
Proof.
  induction l1 as [|y l1 IH]; intros H Hx; cbn.
  - destruct (N.eqb_spec (fst x) a); [reflexivity|contradiction].
  - destruct (N.eqb_spec (fst y) a). { exfalso. apply (H y); [left|]; auto. }
    f_equal. apply IH; auto. intros; apply H; right; auto.
Qed.
Lemma rm_first_none a l : (forall y, In y l -> fst y <> a) -> rm_first a l = l.
Proof.
  induction l as [|y l1 IH]; intros H; cbn; auto.
  destruct (N.eqb_spec (fst y) a). { exfalso. apply (H y); [left|]; auto. }
  f_equal. apply IH; auto. intros; apply H; right; auto.
Qed.
Lemma rm_all_id a l : (forall y, In y l -> fst y <> a) -> rm_all a l = l.
Proof.
  induction l as [|y l1 IH]; intros H; cbn; auto.
  destruct (N.eqb_spec (fst y) a). { exfalso. apply (H y); [left|]; auto. }
  cbn. f_equal. apply IH; auto. intros; apply H; right; auto.
Qed.

Lemma find_split {A} (f : A -> bool) l x : find f l = Some x ->
  exists l1 l2, l = l1 ++ x :: l2 /\ f x = true /\ (forall y, In y l1 -> f y = false).
Proof.
  induction l as [|y l IH]; cbn; [discriminate|]. destruct (f y) eqn:E.
  - intro H; injection H as ->. exists [], l. repeat split; auto. contradiction.
  - intro H. destruct (IH H) as (l1 & l2 & -> & Hx & Hy). exists (y :: l1), l2. repeat split; auto.
    intros z [<-|Hz]; auto.
Qed.

Lemma filter_all {A} (f : A -> bool) l : (forall x, In x l -> f x = true) -> filter f l = l.
Proof. induction l as [|x l IH]; cbn; intro H; auto. rewrite (H x (or_introl eq_refl)). f_equal; apply IH; auto. Qed.

Lemma chain_attr ns i n : wf ns -> In n (upto ROOT (chain ns (Some i))) -> n_attr n <> INV_ID.
Proof.
  intros Hw Hn. assert (G : In n ns /\ n_id n <> ROOT).
  { pose proof (chain_in ns (Some i)) as Hc. revert Hn Hc. generalize (chain ns (Some i)). clear.
    induction l as [|m l IH]; cbn; [contradiction|]. destruct (N.eqb_spec (n_id m) ROOT); [contradiction|].
    intros [<-|H] Hc; [split; auto|]. apply IH; auto. }
  destruct G. eapply wf_attr; eauto.
Qed.

Lemma remove_first_yields s t path a l : inv s -> a <> INV_ID -> (forall i, path = Some i -> In i (ids (t_nodes s))) ->
  has_path s (or_root path) l ->
  exists r s1, remove_first_in_path s t path a = Some (r, s1) /\ yields s s1 r (rm_innermost a l).
Proof.
  intros Hi Ha Hp Hl. pose proof Hi as (Hw & _). unfold remove_first_in_path, copy_path_without_attribute.
  destruct path as [i|].
  2:{ rewrite chain_none. cbn [find or_root] in *.
      pose proof (has_path_cpath _ _ _ Hw Hl) as El. rewrite cpath_root in El by auto. subst l.
      destruct (copy_wo_yields [] s t a ROOT [] Hi (root_in _ Hi) (hp_root _) (Forall_nil _)) as (r & s1 & E & Y).
      exists r, s1; auto. }
  cbn [or_root] in Hl. specialize (Hp i eq_refl).
  pose proof (has_path_cpath _ _ _ Hw Hl) as El. unfold cpath in El.
  destruct (chain_ends _ Hw i Hp) as (prer & Er & Eu & Ef).
  destruct (find (fun n => n_attr n =? a) (chain (t_nodes s) (Some i))) as [n|] eqn:Efind.
  - apply find_split in Efind. destruct Efind as (pre & post & Ec & Hna & Hpre). apply N.eqb_eq in Hna.
    destruct (chain_decomp _ Hw i pre n post Hp Ec) as (Hd & Hd0).
    destruct (n_par n) as [q|] eqn:Eq.
    + destruct (Hd q eq_refl) as (Hcq & Hup). cbn [or_root].
      assert (Hq : In q (ids (t_nodes s))).
      { assert (In n (t_nodes s)) by (eapply chain_in; rewrite Ec; apply in_or_app; right; left; auto).
        destruct (wf_par _ _ Hw H) as (q' & E' & H'); [intro Z; rewrite (wf_root_id _ _ Hw H Z) in Eq; discriminate|congruence]. }
      pose proof (cpath_has_path s q Hw Hq) as Hpq.
      destruct (copy_wo_yields (chain (t_nodes s) (Some i)) s t a q _ Hi Hq Hpq) as (r & s1 & E & Y).
      { rewrite Ec, Hup. apply Forall_forall. intros z Hz.
        assert (Hz' : In z (t_nodes s)). { eapply chain_in. rewrite Ec. apply in_app_or in Hz. apply in_or_app. destruct Hz as [?|[<-|[]]]; [left; auto|right; left; auto]. }
        eapply wf_attr; eauto. intro Z.
        (* the root cannot occur before a node that has a parent in the chain *)
        apply in_app_or in Hz. destruct Hz as [Hz|[<-|[]]].
        - rewrite (wf_root_id _ _ Hw Hz' Z) in Hz. apply in_split in Hz. destruct Hz as (x1 & x2 & ->).
          rewrite <- app_assoc in Ec. cbn in Ec.
          destruct (chain_decomp _ Hw i x1 root_node _ Hp Ec) as (_ & Hx). destruct (Hx eq_refl) as (_ & Hx'). destruct x2; discriminate.
        - rewrite (wf_root_id _ _ Hw Hz' Z) in Eq. discriminate. }
      exists r, s1. split; auto. rewrite Ec, Hup in Y.
      replace (rm_innermost a l) with (cpath (t_nodes s) q ++ rm_all a (map content (rev (pre ++ [n])))); auto.
      rewrite El, Ec. unfold rm_innermost.
      assert (Hfil : filter nonroot (pre ++ n :: post) = pre ++ n :: filter nonroot post).
      { rewrite filter_app. cbn. 
        assert (Hnr : nonroot n = true). { unfold nonroot. destruct (N.eqb_spec (n_id n) ROOT); auto.
          assert (In n (t_nodes s)) by (eapply chain_in; rewrite Ec; apply in_or_app; right; left; auto).
          rewrite (wf_root_id _ _ Hw H e) in Eq. discriminate. }
        rewrite Hnr. f_equal. apply filter_all.
        intros z Hz. unfold nonroot. destruct (N.eqb_spec (n_id z) ROOT); auto. exfalso.
        assert (Hz' : In z (t_nodes s)) by (eapply chain_in; rewrite Ec; apply in_or_app; left; auto).
        rewrite (wf_root_id _ _ Hw Hz' e) in Hz. apply in_split in Hz. destruct Hz as (x1 & x2 & ->).
        rewrite <- app_assoc in Ec. cbn in Ec.
        destruct (chain_decomp _ Hw i x1 root_node _ Hp Ec) as (_ & Hx). destruct (Hx eq_refl) as (_ & Hx'). destruct x2; discriminate. }
      rewrite Hfil. rewrite (map_rev content (pre ++ n :: filter nonroot post)), rev_involutive, (map_app content pre (n :: _)). cbn [map].
      rewrite rm_first_app_notin.
      * unfold cpath. rewrite Hcq. rewrite !map_rev. rewrite rev_app_distr. f_equal.
        rewrite map_app, rev_app_distr. cbn. destruct (N.eqb_spec (n_attr n) a); [|contradiction]. cbn.
        apply rm_all_id. intros y Hy. apply in_rev in Hy. apply in_map_iff in Hy. destruct Hy as (z & <- & Hz). cbn.
        apply N.eqb_neq. apply Hpre; auto.
      * intros y Hy. apply in_map_iff in Hy. destruct Hy as (z & <- & Hz). cbn. apply N.eqb_neq. apply Hpre; auto.
      * exact Hna.
    + destruct (Hd0 eq_refl) as (-> & _). cbn in Hna. congruence.
  - cbn [or_root]. 
    destruct (copy_wo_yields (chain (t_nodes s) (Some i)) s t a ROOT [] Hi (root_in _ Hi) (hp_root _)) as (r & s1 & E & Y).
    { apply Forall_forall. intros z Hz. eapply chain_attr; eauto. }
    exists r, s1. split; auto. rewrite Er, Eu in Y. cbn in Y. rewrite El, Er, Ef.
    assert (Hno : forall y, In y (map content prer) -> fst y <> a).
    { intros y Hy. apply in_map_iff in Hy. destruct Hy as (z & <- & Hz). cbn. apply N.eqb_neq.
      apply (find_none _ _ Efind). rewrite Er. apply in_or_app; auto. }
    unfold rm_innermost. rewrite map_rev, rev_involutive. rewrite rm_first_none by auto.
    rewrite map_rev in Y. rewrite rm_all_id in Y; auto. intros y Hy. apply in_rev in Hy. auto.
Qed.
