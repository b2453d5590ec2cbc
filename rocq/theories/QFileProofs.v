(* Proofs: reading files line by line while a query processes the records *)
From Verif Require Import Base VariantModel VariantSpec NamesModel NamesProps TextModel TextProofs TextProofs2 TreeModel TreeProofs CaliFileModel CaliFileProofs CaliFileProofs2 CaliFileProofs3 CaliFileProofs4 CaliFileProofs5 CaliFileProps ArithSpec AggModel AggSpec AggProofs AggProofs2 AggProofs3 AggProofs4 AggProofs5 FilterModel QFileModel QFileSpec.
Open Scope N_scope.

(* ---------------- databases ---------------- *)
Definition jinv (D : dict) (d : mdb) : Prop := forall s M a, dc_mean D s = Some M -> get_attr d s = Some a -> mean (dnode d) a M.
Lemma merge_node_grow d m nid a p v i d' m' : wf d -> size_ok d' -> merge_node d m nid a p v = Some (i, d', m') -> grow d d' /\ wf d'.
Proof.
  intros Hw Hs H. unfold merge_node in H. destruct (merge_core d nid (map_id m a) (map_id m p) v) as [(j, d1)|] eqn:E; [|discriminate H].
  assert (d1 = d') by congruence. subst d1. exact (merge_core_grow _ _ _ _ _ _ _ Hw Hs E).
Qed.
Lemma alookup_reg l s t i : alookup (match alookup l s with Some _ => l | None => (s, i) :: l end) t = match alookup l t with Some a => Some a | None => if beqb s t then Some i else None end.
Proof.
  destruct (alookup l s) eqn:E.
  - destruct (alookup l t) eqn:E2; [reflexivity|]. destruct (beqb s t) eqn:Eb; [|reflexivity]. apply beqb_eq in Eb. subst t. congruence.
  - cbn [alookup]. destruct (beqb s t) eqn:Eb; [|destruct (alookup l t); reflexivity]. apply beqb_eq in Eb. subst t. rewrite E. reflexivity.
Qed.
Lemma merge_jinv dfmt dparse D src rank d m defs n i d' m' : src_ok src rank -> src_typed dfmt dparse src -> agrees D src -> wf d -> N.of_nat (length (d_nodes d)) < INV_ID -> sinv src d m defs ->
  src (n_id n) = Some n -> 11 <= n_id n -> def_ok defs (n_attr n) -> (par_id n = INV_ID \/ def_ok defs (par_id n)) ->
  merge_node d m (n_id n) (n_attr n) (par_id n) (n_val n) = Some (i, d', m') -> jinv D d -> dext d d' -> jinv D d'.
Proof.
  intros Hs Ht Hag (Hd & Hnm) Hl Hi Hn H11 Hda Hdp E HJ He s M a HM Ha.
  unfold merge_node in E. destruct (merge_core d (n_id n) (map_id m (n_attr n)) (map_id m (par_id n)) (n_val n)) as [(j, d1)|] eqn:Ec; [|discriminate E].
  assert (j = i /\ d1 = d') as (-> & ->) by (split; congruence). clear E.
  assert (Att : exists na, src (n_attr n) = Some na /\ n_attr na = 8).
  { destruct (N.eq_dec (n_id n) 11) as [E11|E11]; [|apply (so_attr _ _ Hs (n_id n) n Hn); lia].
    rewrite E11, (so_boot _ _ Hs 11) in Hn by lia. injection Hn as <-. cbn [n_attr]. rewrite (so_boot _ _ Hs 9) by lia. eexists. split; reflexivity. }
  destruct Att as (na & Hna & Hna8). destruct (def_facts _ _ _ _ _ _ _ Hs Hd Hi Hda Hna) as (Ma & B1 & B2 & (k & B3) & B4).
  unfold merge_core in Ec. rewrite (B4 Hna8) in Ec.
  destruct ((n_id n =? INV_ID) || (map_id m (n_attr n) =? INV_ID) || _) eqn:Eb; [discriminate Ec|].
  destruct (if map_id m (par_id n) =? INV_ID then Some ROOT else _) as [p|] eqn:Ep; [|discriminate Ec].
  destruct (dfind d p (map_id m (n_attr n)) (n_val n)) as [f|] eqn:Ef.
  - assert (d = d') by congruence. subst d'. exact (HJ s M a HM Ha).
  - cbn [dcreate] in Ec. destruct (N.eqb_spec (map_id m (n_attr n)) 8) as [E8|E8].
    + set (nn := mkn (N.of_nat (length (d_nodes d))) (map_id m (n_attr n)) (n_val n) (Some p)) in *.
      assert (Ei : i = N.of_nat (length (d_nodes d))) by congruence.
      assert (Ed : d' = mkdb (d_nodes d ++ [nn]) (match alookup (d_attrs d) (v_text (n_val n)) with Some _ => d_attrs d | None => (v_text (n_val n), N.of_nat (length (d_nodes d))) :: d_attrs d end)) by (cbn [d_nodes d_attrs] in Ec; congruence).
      unfold get_attr in Ha. rewrite Ed in Ha. cbn [d_attrs] in Ha. rewrite alookup_reg in Ha. destruct (alookup (d_attrs d) s) as [a'|] eqn:Es.
      * assert (a' = a) by congruence. subst a'. eapply mean_dext; [exact He|]. exact (HJ s M a HM Es).
      * destruct (beqb (v_text (n_val n)) s) eqn:Eq; [|discriminate Ha]. apply beqb_eq in Eq. assert (a = N.of_nat (length (d_nodes d))) by congruence. subst a.
        assert (A8 : n_attr n = 8) by (rewrite <- E8; exact (src_small_back src rank d m defs (n_attr n) na Hs Hd Hi Hda Hna ltac:(rewrite E8; lia))).
        assert (H12 : 12 <= n_id n). { destruct (N.eq_dec (n_id n) 11) as [E11|E11]; [|lia]. rewrite E11, (so_boot _ _ Hs 11) in Hn by lia. injection Hn as <-. discriminate A8. }
        destruct (attr_named dfmt dparse src rank (n_id n) n Hs Ht Hn A8) as (name & Hname). rewrite Hname in Eq. cbn [v_text] in Eq. subst name.
        assert (Hcal : called src (n_id n) s) by (exists n; auto). destruct (Hag (n_id n) s H12 Hcal) as ((M' & HM' & Hmean) & _).
        assert (M' = M) by congruence. subst M'. inversion Hmean as [Q|i' Hlt|i' n' ma mp C1 C2 C3 C4 C5]; subst.
        -- rewrite <- Q in Hn. rewrite (so_inv _ _ Hs) in Hn. discriminate Hn.
        -- lia.
        -- assert (n' = n) by congruence. subst n'. rewrite A8 in C4. assert (ma = MBoot 8) by (eapply mean_fun; [exact C4|apply mean_boot; lia]). subst ma.
           assert (Hlen : (12 <= length (d_nodes d))%nat). { assert (dnode d 11 <> None) by (rewrite (ok_boot d Hd 11) by lia; discriminate). rewrite dnode_nth in H. apply nth_error_Some in H. lia. }
           change (n_val n) with (n_val nn). apply mean_node; [lia|lia| |cbn [n_attr nn]; rewrite E8; apply mean_boot; lia|].
           ++ rewrite dnode_nth. cbn [d_nodes]. rewrite Nat2N.id, nth_error_app2, Nat.sub_diag by lia. reflexivity.
           ++ unfold par_id at 1. cbn [n_par nn]. eapply mean_dext; [exact He|].
              destruct Hdp as [Hr|Hdp].
              ** rewrite Hr, (map_inv _ _ _ _ Hi) in Ep. rewrite N.eqb_refl in Ep. assert (p = ROOT) by congruence. subst p. rewrite Hr in C5. rewrite (mean_fun _ _ _ C5 _ (mean_root _)). apply mean_root.
              ** destruct (so_par _ _ Hs (n_id n) n Hn H12) as [Hr|(np & Hnp)].
                 { rewrite Hr, (map_inv _ _ _ _ Hi) in Ep. rewrite N.eqb_refl in Ep. assert (p = ROOT) by congruence. subst p. rewrite Hr in C5. rewrite (mean_fun _ _ _ C5 _ (mean_root _)). apply mean_root. }
                 destruct (def_facts _ _ _ _ _ _ _ Hs Hd Hi Hdp Hnp) as (Mp & D1 & D2 & (kp & D3) & _).
                 rewrite (mean_fun _ _ _ C5 _ D1). pose proof (dnode_lt _ _ _ D3) as Hlt.
                 assert (map_id m (par_id n) <> INV_ID) by lia. destruct (N.eqb_spec (map_id m (par_id n)) INV_ID); [contradiction|].
                 destruct (N.leb_spec (N.of_nat (length (d_nodes d))) (map_id m (par_id n))); [lia|]. assert (p = map_id m (par_id n)) by congruence. subst p. exact D2.
    + assert (Ed : d_attrs d' = d_attrs d). { assert (Q : d' = mkdb (d_nodes d ++ [mkn (N.of_nat (length (d_nodes d))) (map_id m (n_attr n)) (n_val n) (Some p)]) (d_attrs d)) by congruence. rewrite Q. reflexivity. }
      rewrite (get_attr_same d d' Ed) in Ha. eapply mean_dext; [exact He|]. exact (HJ s M a HM Ha).
Qed.

(* a node line; like CaliFileProofs3.read_node_line, with the call it makes *)
Lemma node_line_ok dfmt dparse src rank d m defs n recs err : src_ok src rank -> in_range64 src -> src_typed dfmt dparse src -> db_ok d -> N.of_nat (length (d_nodes d)) < INV_ID -> sinv src d m defs ->
  src (n_id n) = Some n -> 11 <= n_id n -> def_ok defs (n_attr n) -> (par_id n = INV_ID \/ def_ok defs (par_id n)) ->
  exists i d' m', merge_node d m (n_id n) (n_attr n) (par_id n) (n_val n) = Some (i, d', m') /\
    read_line dparse (mkrs d m recs err) (render dfmt (WNode n)) = Some (mkrs d' m' recs err) /\ dext d d' /\ db_ok d' /\ sinv src d' m' (n_id n :: defs) /\ (length (d_nodes d') <= S (length (d_nodes d)))%nat.
Proof.
  intros Hs Hr Ht Hd Hl Hi Hn H11 Hda Hdp.
  destruct (merge_step_any src rank d m defs n Hs Hd Hl Hi Hn H11 Hda Hdp) as (i & d' & m' & E & He & Hd' & Hi' & Hlen & _).
  exists i, d', m'. split; [exact E|]. split; [|auto].
  assert (Hv : value_ok dfmt dparse (n_val n)) by (eapply node_text_ok; eauto; apply (so_boot _ _ Hs)).
  assert (Att : exists na, src (n_attr n) = Some na /\ n_attr na = 8 /\ typed dfmt dparse src (n_attr n) (n_val n) /\ visible src (n_attr n)).
  { destruct (N.eq_dec (n_id n) 11) as [E11|E11].
    - rewrite E11 in Hn. rewrite (so_boot _ _ Hs 11) in Hn by lia. injection Hn as <-. cbn [n_attr n_val]. rewrite (so_boot _ _ Hs 9) by lia. eexists; split; [reflexivity|]. split; [reflexivity|].
      assert (M9 : mean src 9 (MBoot 9)) by (apply mean_boot; lia).
      split; [split; [exact Hv|]|].
      + apply (climb_mclimb src 9 9 (MBoot 9)); auto; [apply (src_lk _ _ Hs)|lia].
      + intros f z Hc. assert (Q : mclimb 10 (MBoot 9) = Some (VInt z)) by (apply (climb_mclimb src 10 9 (MBoot 9)); eauto; [apply (src_lk _ _ Hs)|lia]).
        unfold mclimb, bclimb, boot_node in Q. cbn in Q. discriminate.
    - destruct (so_attr _ _ Hs (n_id n) n Hn ltac:(lia)) as (na & H1 & H2). exists na. split; auto. split; auto. apply (Ht (n_id n) n Hn). lia. }
  destruct Att as (na & Hna & Hna8 & Htyp & Hvis).
  destruct (read_typed dfmt dparse src rank d m defs (n_attr n) na (n_val n) Hs Hd ltac:(lia) Hi Hda Hna Hna8 Htyp) as (A1 & A2).
  destruct (def_facts _ _ _ _ _ _ _ Hs Hd Hi Hda Hna) as (M & B1 & B2 & (k & B3) & _).
  pose proof (db_visible dfmt dparse src rank d (n_attr n) (map_id m (n_attr n)) M Hs Hd ltac:(lia) B1 B2 (dnode_lt _ _ _ B3) Hvis) as A3.
  assert (U1 : n_id n < INV_ID) by (eapply Hr; eauto). assert (U2 : n_attr n < INV_ID) by (eapply Hr; eauto).
  assert (U3 : forall p, n_par n = Some p -> p <= INV_ID).
  { intros p Hp. destruct (so_wf _ _ Hs (n_id n) n Hn H11) as (_ & _ & W). destruct (W p Hp) as [->|[Hlt|((np & Hnp) & _)]]; [lia|unfold INV_ID; lia|apply Hr in Hnp; lia]. }
  unfold read_line, render. rewrite write_plain by (apply (value_ok_range dfmt dparse); auto).
  rewrite parse_node_line; [|unfold u64_ok, INV_ID, W64 in *; lia|unfold u64_ok, INV_ID, W64 in *; lia|intros p Hp; specialize (U3 p Hp); unfold u64_ok, INV_ID, W64 in *; lia|apply (value_bytes dfmt dparse); auto].
  cbn [f_id f_attr f_par f_data r_db r_map r_recs r_err]. replace (n_id n =? INV_ID) with false by lia. replace (n_attr n =? INV_ID) with false by lia. cbn [orb].
  unfold merge_node_str. rewrite A1, A3, A2. cbn [andb]. fold (par_id n). rewrite E. reflexivity.
Qed.

(* ---------------- attributes of records ---------------- *)
Record attr_ok (D : dict) (keys : list bytes) (d : mdb) (s : bytes) (a : N) : Prop := mkattrok {
  ao_get : get_attr d s = Some a;
  ao_call : called (dnode d) a s;
  ao_type : attr_type d a = dc_type D s;
  ao_nest : is_nested d a = dc_nested D s;
  ao_dict : exists M, dc_mean D s = Some M;
  ao_min : 12 <= a;
  ao_keys : forall l k b v, npath d a l -> In k keys -> get_attr d k = Some b -> ~ In (b, v) l }.
Lemma ao_lt D keys d s a : attr_ok D keys d s a -> a < N.of_nat (length (d_nodes d)).
Proof. intros H. destruct (ao_call _ _ _ _ _ H) as (n & Hn & _). eapply dnode_lt; eauto. Qed.
Lemma npath_back d d' i l : wf d -> size_ok d' -> grow d d' -> i < N.of_nat (length (d_nodes d)) -> npath d' i l -> npath d i l.
Proof.
  intros (Hd & _) Hs Hg Hi Hl. destruct (npath_ex d i Hd (size_dext _ _ (gr_ext _ _ Hg) Hs) Hi) as (l' & Hl').
  rewrite (npath_fun _ _ _ Hl _ (npath_dext _ _ _ _ (gr_ext _ _ Hg) Hl')). exact Hl'.
Qed.
Lemma npath_bound d i l x : db_ok d -> npath d i l -> In x l -> fst x < N.of_nat (length (d_nodes d)).
Proof. intros Hd Hl Hx. apply is_attr_lt. eapply npath_attr; eauto. Qed.
Lemma ao_grow D keys d d' s a : wf d -> wf d' -> size_ok d' -> grow d d' -> attr_ok D keys d s a -> attr_ok D keys d' s a.
Proof.
  intros Hw Hw' Hs Hg H. pose proof (ao_lt _ _ _ _ _ H) as Hlt. destruct H as [A B C E F G K]. constructor; auto.
  - apply (gr_keep _ _ Hg); auto.
  - destruct B as (n & B1 & B2). exists n. split; auto. eapply dext_node; [apply (gr_ext _ _ Hg)|auto].
  - rewrite (attr_type_stable d d' a); auto.
  - rewrite (is_nested_stable d d' a); auto.
  - intros l k b v Hl Hk Hb Hin. pose proof (npath_back d d' a l Hw Hs Hg Hlt Hl) as Hl0. destruct (get_attr d k) as [b'|] eqn:Eb.
    + assert (b' = b) by (pose proof (gr_keep _ _ Hg _ _ Eb); congruence). subst b'. exact (K l k b v Hl0 Hk Eb Hin).
    + pose proof (gr_new _ _ Hg k b Eb Hb) as Hnew. pose proof (npath_bound d a l (b, v) (proj1 Hw) Hl0 Hin) as Hold. cbn [fst] in Hold. lia.
Qed.
Definition aok (D : dict) (keys : list bytes) (d : mdb) (x : N * value) (y : bytes * value) : Prop := attr_ok D keys d (fst y) (fst x) /\ snd x = snd y.
Inductive good (D : dict) (keys : list bytes) (d : mdb) : entry -> nentry -> Prop :=
| gd_imm a s v : attr_ok D keys d s a -> good D keys d (EImm a v) (NImm s v)
| gd_ref i p l : i < N.of_nat (length (d_nodes d)) -> npath d i l -> Forall2 (aok D keys d) (rev l) p -> good D keys d (ERef i) (NRef p).
Lemma aok_grow D keys d d' x y : wf d -> wf d' -> size_ok d' -> grow d d' -> aok D keys d x y -> aok D keys d' x y.
Proof. intros H1 H2 H3 H4 (A & B). split; [exact (ao_grow D keys d d' _ _ H1 H2 H3 H4 A)|exact B]. Qed.
Lemma good_grow D keys d d' e w : wf d -> wf d' -> size_ok d' -> grow d d' -> good D keys d e w -> good D keys d' e w.
Proof.
  intros Hw Hw' Hs Hg [a s v H|i p l Hi Hl HF].
  - constructor. exact (ao_grow D keys d d' _ _ Hw Hw' Hs Hg H).
  - apply (gd_ref D keys d' i p l); [|eapply npath_dext; [apply (gr_ext _ _ Hg)|auto]|eapply Forall2_imp; [|exact HF]; intros x y; apply aok_grow; auto].
    pose proof (dext_len _ _ (gr_ext _ _ Hg)). lia.
Qed.

Section Good.
Variables (dfmt : N -> bytes) (dparse : bytes -> option N) (D : dict) (keys : list bytes) (src : N -> option tnode) (rank : N -> nat).
Hypothesis Hs : src_ok src rank.
Hypothesis Ht : src_typed dfmt dparse src.
Hypothesis Hag : agrees D src.
Hypothesis Hpk : plain_keys keys src.
Variable d : mdb.
Hypothesis Hw : wf d.
Hypothesis Hl : size_ok d.
Hypothesis HJ : jinv D d.

Lemma good_attr a na b M v : 12 <= a -> src a = Some na -> n_attr na = 8 -> mean src a M -> mean (dnode d) b M -> typed dfmt dparse src a v ->
  exists s, n_val na = VStr s /\ attr_ok D keys d s b.
Proof.
  intros H12 Hna H8 HM Hb Htyp. destruct Hw as (Hd & Hnm).
  destruct (attr_named dfmt dparse src rank a na Hs Ht Hna H8) as (s & Hval). exists s. split; [exact Hval|].
  assert (Hcal : called src a s) by (exists na; auto). destruct (Hag a s H12 Hcal) as ((M' & HD & HM') & Hnst & Hty).
  pose proof (mean_fun _ _ _ HM' _ HM) as E. subst M'.
  assert (HMr : M <> MRoot). { intro E. subst M. apply mean_root_inv in HM. subst a. rewrite (so_inv _ _ Hs) in Hna. discriminate Hna. }
  destruct (mean_exists_node (dnode d) (db_lk d Hd Hl) b M Hb HMr) as (nb & Hnb).
  assert (Vb : n_val nb = VStr s). { rewrite <- Hval. symmetry. exact (mean_val src (dnode d) (src_lk _ _ Hs) (db_lk d Hd Hl) a b M na nb HM Hb Hna Hnb). }
  assert (Hb12 : 12 <= b /\ n_attr nb = 8).
  { inversion HM as [Q|i' Hlt|i' n' ma mp C1 C2 C3 C4 C5]; subst; [congruence|lia|]. assert (n' = na) by congruence. subst n'.
    inversion Hb as [| |b' nb' ma' mp' E1 E2 E3 E4 E5]; subst. assert (nb' = nb) by congruence. subst nb'. split; [lia|].
    rewrite H8 in C4. rewrite (mean_fun _ _ _ C4 _ (mean_boot _ 8 ltac:(lia))) in E4. apply mean_boot_inv in E4. auto. }
  destruct Hb12 as (Hb12 & Hb8).
  assert (Hget : get_attr d s = Some b).
  { destruct (get_attr d s) as [b'|] eqn:Eg.
    - f_equal. eapply (mean_inj d Hd M); [exact (HJ s M b' HD Eg)|exact Hb].
    - exfalso. apply (nm_reg d Hnm b nb Hnb Hb12 Hb8). rewrite Vb. exact Eg. }
  pose proof (dnode_lt _ _ _ Hnb) as Hlt.
  constructor; [exact Hget|exists nb; auto| | |eauto|exact Hb12|].
  - rewrite (db_type dfmt dparse src rank d a b M v Hs Hd Hl HM Hb Hlt (proj2 Htyp)). destruct (proj2 Htyp) as (fuel & Hc). symmetry. exact (Hty fuel _ Hc).
  - unfold is_nested, attr_props. rewrite (db_climb d b M 10 Hd Hl Hb Hlt ltac:(lia)).
    assert (CM : forall v, (exists fuel, climb fuel src a 10 = Some v) <-> mclimb 10 M = Some v) by (intro; apply climb_mclimb; auto; [apply (src_lk _ _ Hs)|lia]).
    destruct (dc_nested D s) eqn:En.
    + destruct (proj1 Hnst eq_refl) as (fuel & z & Hc & Hz). rewrite (proj1 (CM (VInt z)) (ex_intro _ _ Hc)). apply negb_true_iff, Z.eqb_neq, Hz.
    + apply negb_false_iff, Z.eqb_eq. destruct (mclimb 10 M) as [w|] eqn:Em; [|reflexivity]. destruct w; try reflexivity.
      destruct (proj2 (CM (VInt z)) eq_refl) as (fuel & Hc). destruct (Z.eq_dec (Z.land z NESTED) 0) as [Hz|Hz]; [exact Hz|]. exfalso.
      assert (false = true) by (apply Hnst; exists fuel, z; auto). discriminate.
  - intros l k c w Hp Hk Hc Hin. destruct (path_exists dfmt dparse src rank Hs Ht a M HM) as (p & Hpath); [right; eauto|].
    pose proof (path_mean src (dnode d) (src_lk _ _ Hs) (db_lk d Hd Hl) a M HM b p Hb Hpath) as Hpd.
    apply (Hpk a s p H12 Hcal Hpath k Hk).
    assert (G : forall i l, npath d i l -> forall p, path (dnode d) i p -> In (c, w) l -> In k (map fst p)).
    { clear - Hnm Hc Hl Hd. induction 1 as [|i n l Hne Hn Hl' IH]; intros p Hp Hin; [destruct Hin|].
      inversion Hp as [|i' n' an name p' P1 P2 P3 P4]; subst; [congruence|]. assert (n' = n) by congruence. subst n'. cbn [map fst].
      apply in_app_or in Hin as [Hin|[Hin|[]]]; [right; apply (IH p' P4 Hin)|left]. injection Hin as Q1 Q2.
      destruct (nm_some d Hnm k c Hc) as (n2 & R1 & R2 & R3). rewrite <- Q1 in R1. assert (n2 = an) by congruence. subst n2. rewrite P3 in R3. exact R3. }
    exact (G b l Hp p Hpd Hin).
Qed.
Lemma plain_12 i n : plain_node src i -> src i = Some n -> 12 <= i.
Proof.
  intros Hp Hn. inversion Hp as [Q|i' n' H1 H2 H3]; subst; [rewrite (so_inv _ _ Hs) in Hn; discriminate Hn|]. assert (n' = n) by congruence. subst n'.
  destruct (N.lt_ge_cases i 12) as [H|H]; [|exact H]. rewrite (so_boot _ _ Hs i H) in Hn. destruct (boot_triples i n Hn) as (_ & B & _). lia.
Qed.
Lemma good_ref i : plain_node src i -> forall j M p, mean src i M -> mean (dnode d) j M -> path src i p -> exists l, npath d j l /\ Forall2 (aok D keys d) (rev l) p.
Proof.
  induction 1 as [|i n Hn Ha Hp IH]; intros j M p HM Hj Hpath.
  - assert (M = MRoot) by (eapply mean_fun; [exact HM|apply mean_root]). subst M. apply mean_root_inv in Hj. subst j. exists []. split; [constructor|].
    inversion Hpath as [|i' n' an name p' P1 P2 P3 P4]; subst; [constructor|]. rewrite (so_inv _ _ Hs) in P1. discriminate P1.
  - assert (H12 : 12 <= i) by (eapply plain_12; eauto; econstructor; eauto).
    inversion HM as [Q|i' Hlt|i' n' ma mp C1 C2 C3 C4 C5]; subst; [rewrite (so_inv _ _ Hs) in Hn; discriminate Hn|lia|].
    assert (n' = n) by congruence. subst n'. inversion Hj as [| |j' k ma' mp' E1 E2 E3 E4 E5 E6]; subst.
    inversion Hpath as [|i' n' an name p' P1 P2 P3 P4]; subst; [rewrite (so_inv _ _ Hs) in Hn; discriminate Hn|]. assert (n' = n) by congruence. subst n'.
    destruct (IH (par_id k) mp p' C5 E5 P4) as (l & L1 & L2). exists (l ++ [(n_attr k, n_val k)]).
    split; [apply np_node; auto|]. rewrite rev_app_distr. cbn [rev app]. constructor; [|exact L2].
    destruct (so_attr _ _ Hs i n Hn H12) as (na & Hna & Hna8). assert (na = an) by congruence. subst na.
    destruct (good_attr (n_attr n) an (n_attr k) ma (n_val n) Ha P2 Hna8 C4 E4 (proj1 (Ht i n Hn H12))) as (s & S1 & S2).
    assert (s = name) by congruence. subst s. split; [exact S2|]. cbn [snd]. congruence.
Qed.
(* an entry read from the file *)
Lemma good_entry e e' w : (forall a v, e = EImm a v -> typed dfmt dparse src a v /\ exists na, src a = Some na /\ n_attr na = 8) -> (forall i, e = ERef i -> exists n, src i = Some n) ->
  plain_entry src e -> same_entry src (dnode d) e (Some e') -> says src e w -> good D keys d e' w.
Proof.
  intros HI HR Hp Hsm Hsay. destruct Hsay as [a s v Hc|i p Hpath].
  - destruct e' as [j|b v']; cbn [same_entry] in Hsm; [contradiction|]. destruct Hsm as (-> & M & M1 & M2). destruct (HI a v' eq_refl) as (Hty & na & Hna & Hna8).
    destruct (good_attr a na b M v' Hp Hna Hna8 M1 M2 Hty) as (s' & S1 & S2). destruct Hc as (n & N1 & N2 & N3). assert (s' = s) by congruence. subst s'. constructor. exact S2.
  - destruct e' as [j|b v']; cbn [same_entry] in Hsm; [|contradiction]. destruct Hsm as (M & M1 & M2). destruct (good_ref i Hp j M p M1 M2 Hpath) as (l & L1 & L2).
    destruct (HR i eq_refl) as (n & Hn). econstructor; [|exact L1|exact L2].
    assert (HMr : M <> MRoot). { intro E. subst M. apply mean_root_inv in M1. subst i. rewrite (so_inv _ _ Hs) in Hn. discriminate Hn. }
    destruct (mean_exists_node (dnode d) (db_lk d (proj1 Hw) Hl) j M M2 HMr) as (nb & Hnb). eapply dnode_lt; eauto.
Qed.
End Good.
