(* Proofs: paths, other database operations, importing from another database, histories *)
From Verif Require Import Base VariantModel VariantSpec NamesModel TextModel TextProofs TextProofs2 TreeModel TreeProofs CaliFileModel CaliFileProofs CaliFileProofs2 CaliFileProofs3.

(* the user's view of a node: the attribute names and values on the way to the root *)
Inductive path (lk : N -> option tnode) : N -> list (bytes * value) -> Prop :=
| path_root : path lk INV_ID []
| path_node i n an name l : lk i = Some n -> lk (n_attr n) = Some an -> n_val an = VStr name -> path lk (par_id n) l -> path lk i ((name, n_val n) :: l).

Lemma path_boot lk lk' : lk_ok lk -> lk_ok lk' -> forall i l, path lk i l -> i < 12 \/ i = INV_ID -> path lk' i l.
Proof.
  intros (B & R) (B' & R'). induction 1 as [|i n an name l Hn Ha Hv Hp IH]; intros Hi; [constructor|].
  destruct Hi as [Hi| ->]; [|congruence]. rewrite B in Hn by auto. destruct (boot_triples i n Hn) as (_ & T1 & T2 & T3 & _). 
  rewrite B in Ha by auto. eapply path_node; [rewrite B'; eauto|rewrite B'; eauto|eauto|]. apply IH. tauto.
Qed.
Lemma mean_val lk lk' : lk_ok lk -> lk_ok lk' -> forall i j M n m, mean lk i M -> mean lk' j M -> lk i = Some n -> lk' j = Some m -> n_val n = n_val m.
Proof.
  intros (B & R) (B' & R') i j M n m Hi Hj Hn Hm. inversion Hi; subst; inversion Hj; subst; try congruence.
  rewrite B in Hn by auto. rewrite B' in Hm by auto. congruence.
Qed.
Lemma mean_exists_node lk : lk_ok lk -> forall i M, mean lk i M -> M <> MRoot -> exists n, lk i = Some n.
Proof.
  intros (B & R) i M H Hn. inversion H; subst; [congruence| |eauto]. rewrite B by auto. unfold boot_node. destruct (nth_error boot_list (N.to_nat i)) eqn:E; eauto.
  apply nth_error_None in E. cbn in E. lia.
Qed.
Lemma path_mean lk lk' : lk_ok lk -> lk_ok lk' -> forall i M, mean lk i M -> forall j l, mean lk' j M -> path lk i l -> path lk' j l.
Proof.
  intros Hk Hk'. induction 1 as [|i Hi|i n ma mp Hi Hn Hl Hma IHa Hmp IHp]; intros j l Hj Hp.
  - apply mean_root_inv in Hj. subst j. inversion Hp; subst; [constructor|]. destruct Hk as (_ & R). congruence.
  - apply mean_boot_inv in Hj. subst j. eapply path_boot; [exact Hk|exact Hk'|exact Hp|auto].
  - inversion Hj as [| |j' n' ma' mp' A1 A2 A3 A4 A5 A6]; subst. inversion Hp as [|i' k an name l' B1 B2 B3 B4]; subst; [congruence|]. rewrite Hl in B1. injection B1 as <-.
    assert (Hma' : ma <> MRoot). { intro E. subst ma. apply mean_root_inv in Hma. rewrite Hma in B2. destruct Hk as (_ & R). congruence. }
    destruct (mean_exists_node lk' Hk' (n_attr n') ma A4 Hma') as (an' & Han').
    assert (Ev : n_val n' = n_val n) by auto. rewrite <- Ev.
    refine (path_node lk' j n' an' name l' A3 Han' _ _); [|exact (IHp _ _ A5 B4)].
    rewrite <- B3. symmetry. exact (mean_val lk lk' Hk Hk' (n_attr n) (n_attr n') ma an an' Hma A4 B2 Han').
Qed.

(* ---------- other operations ---------- *)
Lemma make_tree_entry_ok l : forall d p, db_ok d -> Forall (fun x => is_attr d (fst x) = true /\ snd x <> VInv) l -> (p = INV_ID \/ p < N.of_nat (length (d_nodes d))) ->
  dext d (snd (make_tree_entry d l p)) /\ db_ok (snd (make_tree_entry d l p)) /\ (length (d_nodes (snd (make_tree_entry d l p))) <= length (d_nodes d) + length l)%nat /\
  (fst (make_tree_entry d l p) = INV_ID \/ fst (make_tree_entry d l p) < N.of_nat (length (d_nodes (snd (make_tree_entry d l p))))).
Proof.
  induction l as [|(a, v) l IH]; intros d p Hd Hl Hp; cbn [make_tree_entry].
  - cbn [snd fst length]. split; [apply dext_refl|]. split; auto. split; [lia|auto].
  - inversion Hl as [|? ? (Ha & Hv) Hl']; subst. cbn [fst snd] in *. destruct (dfind d p a v) as [n|] eqn:Ef.
    + apply dfind_some in Ef. destruct Ef as (Hin & _). apply dnode_in in Hin. destruct Hin as (i & Hi). pose proof (ok_id d Hd i n Hi) as Ei. apply dnode_lt in Hi.
      destruct (IH d (n_id n) Hd Hl') as (A & B & C & D); [right; lia|]. split; auto. split; auto. split; [cbn [length]; lia|auto].
    + unfold dcreate. set (d1 := mkdb _ _). assert (Hd1 : db_ok d1) by (apply db_ok_push; auto). assert (He : dext d d1) by (eexists; reflexivity).
      assert (L1 : length (d_nodes d1) = S (length (d_nodes d))) by (unfold d1; cbn [d_nodes]; rewrite app_length; cbn; lia).
      destruct (IH d1 (N.of_nat (length (d_nodes d))) Hd1) as (A & B & C & D); [|right; lia|].
      { eapply Forall_impl; [|exact Hl']. intros x (X & Y). split; auto. eapply dext_attr; eauto. }
      split; [eapply dext_trans; eauto|]. split; auto. split; [cbn [length]; lia|auto].
Qed.
Lemma boot_is_attr d i : db_ok d -> i = 8 \/ i = 9 \/ i = 10 -> is_attr d i = true.
Proof. intros Hd [->|[->| ->]]; unfold is_attr; rewrite (ok_boot d Hd) by lia; reflexivity. Qed.
Lemma db_len12 d : db_ok d -> (12 <= length (d_nodes d))%nat.
Proof. intro Hd. assert (H : dnode d 11 <> None) by (rewrite (ok_boot d Hd 11) by lia; discriminate). rewrite dnode_nth in H. apply nth_error_Some in H. lia. Qed.
Lemma create_attribute_ok d name ty prop : db_ok d -> dext d (snd (create_attribute d name ty prop)) /\ db_ok (snd (create_attribute d name ty prop)) /\ (length (d_nodes (snd (create_attribute d name ty prop))) <= length (d_nodes d) + 2)%nat.
Proof.
  intros Hd. unfold create_attribute. destruct (alookup _ _); [cbn [snd]; split; [apply dext_refl|split; auto; lia]|].
  set (p := match type_node ty with Some t => t | None => ROOT end).
  destruct (make_tree_entry_ok [(10, VInt prop); (8, VStr name)] d p Hd) as (A & B & C & D).
  - repeat constructor; cbn [fst snd]; try discriminate; apply boot_is_attr; auto.
  - pose proof (db_len12 d Hd). unfold p, type_node. destruct (ty =? T_USR); [right; lia|]. repeat (match goal with |- context [if ?b then _ else _] => destruct b end; [right; lia|]). left. reflexivity.
  - destruct (make_tree_entry d _ p) as (i, d1). cbn [snd fst] in *. split; auto. split; [apply db_ok_attrs; auto|exact C].
Qed.
Lemma boot_ok : db_ok (mkdb boot_list [(lit_attr_name, 8)]).
Proof.
  set (d0 := mkdb _ _). assert (L : length (d_nodes d0) = 12%nat) by reflexivity.
  assert (G : forall i n, dnode d0 i = Some n -> i < 12 /\ boot_node i = Some n).
  { intros i n H. split; [apply dnode_lt in H; rewrite L in H; lia|]. rewrite dnode_nth in H. exact H. }
  constructor.
  - intros i Hi. apply dnode_nth.
  - intros i n H. apply G in H. destruct H as (Hi & H). unfold boot_node in H. rewrite <- (N2Nat.id i). assert (Hk : (N.to_nat i < 12)%nat) by lia. revert H Hk. generalize (N.to_nat i) as k.
    intros k H Hk. do 12 (destruct k as [|k]; [cbn in H; injection H as <-; reflexivity|]). lia.
  - intros i n H Hi. apply G in H. lia.
  - intros i n H. apply G in H. destruct H as (_ & H). destruct (boot_triples i n H) as (_ & _ & _ & -> & _). discriminate.
  - intros i j n m Hn Hm T. apply G in Hn. apply G in Hm. destruct Hn as (Hi & Hn), Hm as (Hj & Hm). unfold boot_node in *.
    assert (C : forall x y, (x < 12)%nat -> (y < 12)%nat -> match nth_error boot_list x, nth_error boot_list y with Some a, Some b => triple a = triple b -> x = y | _, _ => True end).
    { intros x y Hx Hy. do 12 (destruct x as [|x]; [do 12 (destruct y as [|y]; [cbn; unfold triple, par_id; cbn; intro Q; try reflexivity; discriminate|]); lia|]). lia. }
    specialize (C (N.to_nat i) (N.to_nat j)). rewrite Hn, Hm in C. assert (N.to_nat i = N.to_nat j) by (apply C; auto; lia). lia.
Qed.
Lemma db_init_ok : db_ok db_init.
Proof.
  unfold db_init. pose proof (create_attribute_ok _ lit_alias T_STRING 64 boot_ok) as (_ & H & _). destruct (create_attribute (mkdb boot_list [(lit_attr_name, 8)]) lit_alias T_STRING 64) as (i, d1). cbn [snd] in H.
  apply (create_attribute_ok d1 lit_unit T_STRING 64 H).
Qed.

(* ---------- histories: several streams and other operations, interleaved ---------- *)
Inductive dop :=
| OpNode (stream : N) (n : tnode)                         (* a node record of a stream is merged *)
| OpAttr (name : bytes) (ty : N) (prop : Z)               (* create_attribute *)
| OpEntry (l : list (N * value)) (p : N).                 (* make_tree_entry *)
Definition dstate := (mdb * (N -> idmap))%type.
Definition dstep (st : dstate) (o : dop) : option dstate :=
  let (d, maps) := st in
  match o with
  | OpNode s n => match merge_node d (maps s) (n_id n) (n_attr n) (par_id n) (n_val n) with
                  | Some (_, d', m') => Some (d', upd maps s m') | None => None end
  | OpAttr name ty prop => Some (snd (create_attribute d name ty prop), maps)
  | OpEntry l p => Some (snd (make_tree_entry d l p), maps)
  end.
Fixpoint drun (st : dstate) (ops : list dop) : option dstate :=
  match ops with [] => Some st | o :: r => match dstep st o with Some st1 => drun st1 r | None => None end end.
Definition cost (o : dop) : nat := match o with OpNode _ _ => 1 | OpAttr _ _ _ => 2 | OpEntry l _ => length l end.
Definition total_cost (ops : list dop) : nat := fold_right (fun o k => (cost o + k)%nat) 0%nat ops.
(* the ids stream s has defined *)
Definition defined (s : N) (ops : list dop) : list N := flat_map (fun o => match o with OpNode t n => if t =? s then [n_id n] else [] | _ => [] end) ops.
(* what a caller must guarantee for an operation, given the operations before it *)
Definition op_ok (srcs : N -> N -> option tnode) (d : mdb) (before : list dop) (o : dop) : Prop :=
  match o with
  | OpNode s n => srcs s (n_id n) = Some n /\ 11 <= n_id n /\ def_ok (defined s before) (n_attr n) /\ (par_id n = INV_ID \/ def_ok (defined s before) (par_id n))
  | OpAttr _ _ _ => True
  | OpEntry l p => Forall (fun x => is_attr d (fst x) = true /\ snd x <> VInv) l /\ (p = INV_ID \/ p < N.of_nat (length (d_nodes d)))
  end.
Inductive hist_ok (srcs : N -> N -> option tnode) : dstate -> list dop -> list dop -> Prop :=
| hist_nil st b : hist_ok srcs st b []
| hist_cons st b o r : op_ok srcs (fst st) b o -> (forall st1, dstep st o = Some st1 -> hist_ok srcs st1 (b ++ [o]) r) -> hist_ok srcs st b (o :: r).
Definition hinv (srcs : N -> N -> option tnode) (st : dstate) (b : list dop) : Prop :=
  db_ok (fst st) /\ forall s, sinv (srcs s) (fst st) (snd st s) (defined s b).
Lemma defined_snoc s b o : defined s (b ++ [o]) = defined s b ++ match o with OpNode t n => if t =? s then [n_id n] else [] | _ => [] end.
Proof. unfold defined. rewrite flat_map_app. cbn [flat_map]. rewrite app_nil_r. reflexivity. Qed.
Lemma dstep_ok srcs ranks st b o : (forall s, src_ok (srcs s) (ranks s)) -> hinv srcs st b -> op_ok srcs (fst st) b o -> N.of_nat (length (d_nodes (fst st)) + cost o) < INV_ID ->
  exists st1, dstep st o = Some st1 /\ hinv srcs st1 (b ++ [o]) /\ dext (fst st) (fst st1) /\ (length (d_nodes (fst st1)) <= length (d_nodes (fst st)) + cost o)%nat /\
    (forall s id, In id (defined s b) -> map_id (snd st1 s) id = map_id (snd st s) id).
Proof.
  intros Hs (Hd & Hi) Hop Hlen. destruct st as (d, maps). cbn [fst snd] in *. destruct o as [s n|name ty prop|l p]; cbn [dstep op_ok cost] in *.
  - destruct Hop as (Hn & H11 & Ha & Hp). destruct (merge_step_any (srcs s) (ranks s) d (maps s) (defined s b) n (Hs s) Hd ltac:(lia) (Hi s) Hn H11 Ha Hp) as (i & d' & m' & E & He & Hd' & Hi' & Hl' & Hst).
    rewrite E. eexists. split; [reflexivity|]. cbn [fst snd]. split; [|split; [auto|split; [lia|]]].
    + split; cbn [fst snd]; auto. intro t. rewrite defined_snoc. unfold upd. rewrite (N.eqb_sym s t). destruct (N.eqb_spec t s) as [->|Hne].
      * eapply sinv_perm; [|exact Hi']. intro x. rewrite in_app_iff. cbn. tauto.
      * rewrite app_nil_r. eapply sinv_ext; eauto.
    + intros t id Hid. unfold upd. destruct (N.eqb_spec t s) as [->|Hne]; auto.
  - pose proof (create_attribute_ok d name ty prop Hd) as (He & Hd' & Hl'). eexists. split; [reflexivity|]. cbn [fst snd]. split; [|auto].
    split; cbn [fst snd]; auto. intro t. rewrite defined_snoc, app_nil_r. eapply sinv_ext; eauto.
  - destruct Hop as (Ha & Hp). destruct (make_tree_entry_ok l d p Hd Ha Hp) as (He & Hd' & Hl' & _). eexists. split; [reflexivity|]. cbn [fst snd]. split; [|auto].
    split; cbn [fst snd]; auto. intro t. rewrite defined_snoc, app_nil_r. eapply sinv_ext; eauto.
Qed.
Lemma drun_ok srcs ranks ops : (forall s, src_ok (srcs s) (ranks s)) -> forall st b, hinv srcs st b -> hist_ok srcs st b ops -> N.of_nat (length (d_nodes (fst st)) + total_cost ops) < INV_ID ->
  exists st1, drun st ops = Some st1 /\ hinv srcs st1 (b ++ ops) /\ dext (fst st) (fst st1) /\ (length (d_nodes (fst st1)) <= length (d_nodes (fst st)) + total_cost ops)%nat /\
    (forall s id, In id (defined s b) -> map_id (snd st1 s) id = map_id (snd st s) id).
Proof.
  intros Hs. induction ops as [|o r IH]; intros st b Hh Hok Hlen; cbn [drun total_cost fold_right] in *.
  - exists st. rewrite app_nil_r. split; auto. split; auto. split; [apply dext_refl|]. split; [lia|auto].
  - inversion Hok as [|? ? ? ? Ho Hr]; subst. fold (total_cost r) in *. destruct (dstep_ok srcs ranks st b o Hs Hh Ho) as (st1 & E & Hh1 & He & Hl & Hm); [lia|]. rewrite E.
    destruct (IH st1 (b ++ [o]) Hh1 (Hr _ E)) as (st2 & E2 & Hh2 & He2 & Hl2 & Hm2); [lia|]. exists st2. rewrite <- app_assoc in Hh2. split; auto. split; auto. split; [eapply dext_trans; eauto|]. split; [lia|].
    intros s id Hid. rewrite Hm2, Hm; auto. rewrite defined_snoc, in_app_iff. auto.
Qed.
Lemma hinv_init srcs : hinv srcs (db_init, fun _ => []) [].
Proof. split; cbn [fst snd]; [apply db_init_ok|]. intro s. constructor; cbn; try discriminate; try tauto; intros; contradiction. Qed.

(* ---------- importing from another database ---------- *)
Lemma pigeon (dom : list N) (R : N -> N -> Prop) : (forall k k' j, R k j -> R k' j -> k = k') -> forall n lo, (forall k, lo <= k < lo + N.of_nat n -> exists j, In j dom /\ R k j) -> (n <= length dom)%nat.
Proof.
  intros Hinj n lo H. assert (G : exists js, length js = n /\ NoDup js /\ incl js dom /\ forall j, In j js -> exists k, lo <= k < lo + N.of_nat n /\ R k j).
  { induction n as [|n IH]; [exists []; split; [reflexivity|split; [constructor|split; [intros x []|intros j []]]]|].
    destruct IH as (js & L & ND & Inc & Hk); [intros k Hk; apply H; lia|]. destruct (H (lo + N.of_nat n)) as (j & Hj & Rj); [lia|].
    exists (j :: js). split; [cbn; lia|]. split. { constructor; auto. intro Hin. destruct (Hk j Hin) as (k & Hk1 & Hk2). pose proof (Hinj _ _ _ Rj Hk2). lia. }
    split. { intros x [->|Hx]; auto. }
    intros x [<-|Hx]; [exists (lo + N.of_nat n); split; [lia|auto]|]. destruct (Hk x Hx) as (k & Hk1 & Hk2). exists k. split; [lia|auto]. }
  destruct G as (js & <- & ND & Inc & _). apply NoDup_incl_length; auto.
Qed.
Definition imported (src : N -> option tnode) (dom : list N) (d0 d : mdb) : Prop :=
  db_ok d /\ dext d0 d /\ forall k, N.of_nat (length (d_nodes d0)) <= k < N.of_nat (length (d_nodes d)) -> exists j, In j dom /\ exists M, mean src j M /\ mean (dnode d) k M.
Lemma imported_len src dom d0 d : imported src dom d0 d -> (length (d_nodes d) <= length (d_nodes d0) + length dom)%nat.
Proof.
  intros (Hd & He & H). pose proof (dext_len _ _ He).
  assert (P : (length (d_nodes d) - length (d_nodes d0) <= length dom)%nat).
  { apply (pigeon dom (fun k j => exists M, mean src j M /\ mean (dnode d) k M) ) with (lo := N.of_nat (length (d_nodes d0))).
    - intros k k' j (M & H1 & H2) (M' & H1' & H2'). rewrite (mean_fun _ _ _ H1 _ H1') in H2. eapply mean_inj; eauto.
    - intros k Hk. apply H. lia. }
  lia.
Qed.
Lemma import_ok src rank dom d0 : src_ok src rank -> (forall i n, src i = Some n -> In i dom) -> N.of_nat (length (d_nodes d0) + length dom) < INV_ID ->
  forall fuel id n d, (S (rank id) < fuel)%nat \/ (id < 11 /\ (0 < fuel)%nat) -> src id = Some n -> imported src dom d0 d ->
  exists i d' M, import_node fuel src d id = Some (Some i, d') /\ imported src dom d0 d' /\ dext d d' /\ mean src id M /\ mean (dnode d') i M /\ i < N.of_nat (length (d_nodes d')).
Proof.
  intros Hs Hdom Hroom. induction fuel as [|f IH]; intros id n d Hf Hn Himp; [lia|]. cbn [import_node].
  assert (Hni : id <> INV_ID) by (intro; subst; rewrite (so_inv _ _ Hs) in Hn; discriminate). replace (id =? INV_ID) with false by lia. rewrite Hn.
  pose proof Himp as (Hd & _ & _).
  destruct (N.ltb_spec id 12) as [H12|H12].
  { exists id, d, (MBoot id). split; auto. split; auto. split; [apply dext_refl|]. split; [apply mean_boot; auto|]. split; [apply mean_boot; auto|]. pose proof (db_len12 d Hd). lia. }
  destruct Hf as [Hf|Hf]; [|lia].
  destruct (so_wf _ _ Hs id n Hn) as (Hid & Ra & Rp); [lia|]. destruct (so_attr _ _ Hs id n Hn H12) as (na & Hna & Hna8).
  assert (FA : (S (rank (n_attr n)) < f)%nat \/ n_attr n < 11 /\ (0 < f)%nat) by (destruct Ra as [?|(_ & ?)]; [right; lia|left; lia]).
  destruct (IH (n_attr n) na d FA Hna Himp) as (a & d1 & Ma & E1 & I1 & X1 & A1 & A2 & A3). rewrite E1.
  assert (P : exists p d2 Mp, import_node f src d1 (match n_par n with Some p => p | None => INV_ID end) = Some (p, d2) /\ imported src dom d0 d2 /\ dext d1 d2 /\ mean src (par_id n) Mp /\
     mean (dnode d2) (match p with Some q => q | None => INV_ID end) Mp /\ (match p with Some q => q < N.of_nat (length (d_nodes d2)) | None => True end)).
  { fold (par_id n). destruct (so_par _ _ Hs id n Hn H12) as [Ep|(np & Hnp)].
    - rewrite Ep. destruct f; [lia|]. exists None, d1, MRoot. cbn [import_node]. change (INV_ID =? INV_ID) with true. split; auto. split; auto. split; [apply dext_refl|]. split; [constructor|]. split; [constructor|auto].
    - assert (FP : (S (rank (par_id n)) < f)%nat \/ par_id n < 11 /\ (0 < f)%nat).
      { unfold par_id in *. destruct (n_par n) as [p|]; [|rewrite (so_inv _ _ Hs) in Hnp; discriminate]. destruct (Rp p eq_refl) as [->|[?|(_ & ?)]]; [rewrite (so_inv _ _ Hs) in Hnp; discriminate|right; lia|left; lia]. }
      destruct (IH (par_id n) np d1 FP Hnp I1) as (p & d2 & Mp & E2 & I2 & X2 & B1 & B2 & B3). exists (Some p), d2, Mp. cbn. tauto. }
  destruct P as (p & d2 & Mp & E2 & I2 & X2 & P1 & P2 & P3). rewrite E2. clear E1 E2.
  pose proof I2 as (Hd2 & He2 & Hnew2). pose proof (imported_len _ _ _ _ I2) as L2. pose proof (dext_len _ _ X2).
  set (q := match p with Some q => q | None => INV_ID end) in *.
  assert (A2' : mean (dnode d2) a Ma) by exact (mean_dext _ _ _ _ X2 A2).
  assert (Aattr : is_attr d2 a = true).
  { destruct (dnode_some d2 a) as (ka & Hka); [lia|]. unfold is_attr. rewrite Hka. apply N.eqb_eq.
    inversion A1 as [E0|j Hj|j k ma mp J1 J2 J3 J4 J5]; subst.
    - pose proof (so_inv _ _ Hs). congruence.
    - apply mean_boot_inv in A2'. subst a. rewrite (ok_boot d2 Hd2) in Hka by auto. rewrite (so_boot _ _ Hs) in Hna by auto. unfold boot_node in Hna. congruence.
    - rewrite Hna in J3. injection J3 as <-. inversion A2' as [| |a' k' ma' mp' K1 K2 K3 K4 K5]; subst. rewrite Hka in K3. injection K3 as <-.
      rewrite Hna8 in J4. apply mean_small in J4; [|lia]. subst ma. apply mean_boot_inv in K4. auto. }
  assert (Q : q = INV_ID \/ q < N.of_nat (length (d_nodes d2)) /\ q <> INV_ID) by (unfold q; destruct p; [right; lia|left; auto]).
  destruct (merge_core_ok d2 id a q (n_val n) Hd2 Hni ltac:(lia) Aattr (so_val _ _ Hs id n Hn) Q) as (i & d3 & E3 & X3 & Hd3 & (k & Hk & K1 & K2 & K3) & L3).
  rewrite E3. pose proof (dnode_lt _ _ _ Hk) as Hik.
  assert (Hi12 : 12 <= i).
  { destruct (N.lt_ge_cases i 12) as [Hlt|]; auto. exfalso. rewrite (ok_boot d3 Hd3 i Hlt) in Hk. destruct (boot_triples i k Hk) as (_ & T1 & T2 & T3 & _).
    apply (so_new _ _ Hs id n i k Hn H12 Hlt Hk). unfold triple. rewrite K1 in T1. rewrite K3 in T3. injection T3 as T3. rewrite <- T3 in T2.
    assert (Q1 : n_attr n = a) by (apply mean_small in A2'; auto; subst Ma; apply mean_boot_inv in A1; auto).
    assert (Q2 : par_id n = q). { destruct T2 as [T2|T2]. - rewrite T2 in P2. assert (Mp = MRoot) as -> by (eapply mean_fun; [exact P2|constructor]). apply mean_root_inv in P1. congruence.
      - apply mean_small in P2; auto. subst Mp. apply mean_boot_inv in P1. auto. }
    rewrite K1, K2, <- T3, Q1, Q2. reflexivity. }
  assert (M3 : mean (dnode d3) i (MNode Ma (n_val n) Mp)).
  { rewrite <- K2. apply mean_node; [lia|lia|exact Hk|rewrite K1; exact (mean_dext _ _ _ _ X3 A2')|unfold par_id; rewrite K3; exact (mean_dext _ _ _ _ X3 P2)]. }
  assert (MS : mean src id (MNode Ma (n_val n) Mp)) by (eapply mean_node; eauto).
  exists i, d3, (MNode Ma (n_val n) Mp). split; auto. split; [|split; [eapply dext_trans; [|exact X3]; eapply dext_trans; eauto|auto]].
  split; auto. split; [eapply dext_trans; eauto|]. intros j Hj. destruct (N.lt_ge_cases j (N.of_nat (length (d_nodes d2)))) as [Hlt|Hge].
  - destruct (Hnew2 j) as (s & Hs1 & M & Hs2 & Hs3); [lia|]. exists s. split; auto. exists M. split; auto. eapply mean_dext; eauto.
  - assert (j = i). { assert (i < N.of_nat (length (d_nodes d2)) \/ i = N.of_nat (length (d_nodes d2))) as [Q1|Q1] by lia; [|lia]. exfalso.
      (* a node was created, but the result is an old one: impossible *)
      unfold merge_core in E3. rewrite Aattr in E3. destruct (_ || _); [discriminate|]. destruct (if q =? INV_ID then _ else _) as [q'|]; [|discriminate]. destruct (dfind d2 q' a (n_val n)) eqn:Ef.
      - injection E3 as _ E3. subst d3. lia.
      - unfold dcreate in E3. destruct (a =? 8); injection E3 as E3 _; lia. }
    subst j. exists id. split; [eapply Hdom; eauto|]. eauto.
Qed.
