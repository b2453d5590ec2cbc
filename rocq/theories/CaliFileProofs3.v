(* Proofs: attribute types under merging; reading a written stream *)
From Verif Require Import Base VariantModel VariantSpec NamesModel TextModel TextProofs TextProofs2 TreeModel TreeProofs CaliFileModel CaliFileProofs CaliFileProofs2.

Definition bclimb (a i : N) : option value :=
  match boot_node i with
  | None => None
  | Some n => if n_attr n =? a then Some (n_val n)
              else if par_id n <? 12 then match boot_node (par_id n) with Some k => if n_attr k =? a then Some (n_val k) else None | None => None end
              else None
  end.
Fixpoint mclimb (a : N) (M : meaning) : option value :=
  match M with
  | MRoot => None
  | MBoot i => bclimb a i
  | MNode ma v mp => match ma with MBoot b => if b =? a then Some v else mclimb a mp | _ => mclimb a mp end
  end.
Fixpoint mdepth (M : meaning) : nat := match M with MRoot => 0 | MBoot _ => 2 | MNode _ _ p => S (mdepth p) end.
Definition lk_ok (lk : N -> option tnode) : Prop := (forall i, i < 12 -> lk i = boot_node i) /\ lk INV_ID = None.

Lemma boot_par2 i n : boot_node i = Some n -> par_id n < 12 -> forall m, boot_node (par_id n) = Some m -> n_par m = Some INV_ID.
Proof.
  intros H Hp m Hm. unfold boot_node in H. assert (Hj : (N.to_nat i < 12)%nat) by (change 12%nat with (length boot_list); apply nth_error_Some; congruence).
  revert Hp m Hm. revert Hj H. generalize (N.to_nat i) as k. intros k Hk H.
  do 12 (destruct k as [|k]; [cbn in H; injection H as <-; unfold par_id, boot_node; cbn [n_par]; unfold ROOT, INV_ID; intros Hp m Hm; try lia; cbn in Hm; injection Hm as <-; reflexivity|]). lia.
Qed.
Lemma mean_attr_small lk i a b ma : mean lk i ma -> a < 12 -> (i =? a) = (match ma with MBoot b => b =? a | _ => false end) \/ b = a.
Proof.
  intros H Ha. left. inversion H; subst; auto.
  - apply N.eqb_neq. unfold INV_ID. lia.
  - apply N.eqb_neq. lia.
Qed.
Lemma climb_mean lk a : lk_ok lk -> a < 12 -> forall i M, mean lk i M -> forall fuel, (mdepth M <= fuel)%nat -> climb fuel lk i a = mclimb a M.
Proof.
  intros (Hb & Hr) Ha. induction 1 as [|i Hi|i n ma mp Hi Hn Hl Hma IHa Hmp IHp]; intros fuel Hf.
  - destruct fuel; cbn; [reflexivity|rewrite Hr; reflexivity].
  - cbn [mdepth] in Hf. destruct fuel as [|[|f]]; try lia. cbn [climb mclimb]. unfold bclimb. rewrite Hb by auto.
    destruct (boot_node i) as [n|] eqn:E; [|reflexivity]. destruct (n_attr n =? a); auto.
    destruct (boot_triples i n E) as (_ & _ & T & T3 & _). rewrite T3. destruct (N.ltb_spec (par_id n) 12) as [Hp|Hp].
    + rewrite Hb by auto. destruct (boot_node (par_id n)) as [m|] eqn:Em; [|reflexivity]. destruct (n_attr m =? a); auto.
      rewrite (boot_par2 i n E Hp m Em). destruct f; cbn [climb]; [reflexivity|rewrite Hr; reflexivity].
    + destruct T as [T|T]; [|lia]. rewrite T, Hr. reflexivity.
  - cbn [mdepth] in Hf. destruct fuel as [|f]; [lia|]. cbn [climb mclimb]. rewrite Hl.
    assert (E : (n_attr n =? a) = match ma with MBoot b => b =? a | _ => false end).
    { inversion Hma; subst; auto; apply N.eqb_neq; [unfold INV_ID; lia|lia]. }
    rewrite E. assert (P : match n_par n with Some p => climb f lk p a | None => None end = mclimb a mp).
    { unfold par_id in *. destruct (n_par n) as [p|].
      - apply IHp. lia.
      - assert (mp = MRoot) as -> by (eapply mean_fun; [exact Hmp|apply mean_root]). reflexivity. }
    rewrite P. destruct ma; auto.
Qed.
Lemma climb_mono lk a v : forall fuel i, climb fuel lk i a = Some v -> forall k, (fuel <= k)%nat -> climb k lk i a = Some v.
Proof.
  induction fuel as [|f IH]; intros i H k Hk; [discriminate|]. destruct k as [|k]; [lia|]. cbn [climb] in *. destruct (lk i) as [n|]; [|discriminate].
  destruct (n_attr n =? a); auto. destruct (n_par n); [|discriminate]. apply IH; auto. lia.
Qed.
Lemma climb_mclimb lk a i M v : lk_ok lk -> a < 12 -> mean lk i M -> (exists fuel, climb fuel lk i a = Some v) <-> mclimb a M = Some v.
Proof.
  intros Hk Ha Hm. split.
  - intros (f & H). rewrite <- (climb_mean lk a Hk Ha i M Hm (Nat.max f (mdepth M))) by lia. apply (climb_mono _ _ _ f); auto. lia.
  - intro H. exists (mdepth M). rewrite (climb_mean lk a Hk Ha i M Hm) by lia. exact H.
Qed.
Lemma db_lk d : db_ok d -> N.of_nat (length (d_nodes d)) <= INV_ID -> lk_ok (dnode d).
Proof.
  intros Hd Hl. split; [intros i Hi; apply (ok_boot d Hd); auto|]. destruct (dnode d INV_ID) eqn:E; auto. apply dnode_lt in E. lia.
Qed.
Lemma db_depth d : db_ok d -> forall i M, mean (dnode d) i M -> i <> INV_ID -> (mdepth M <= N.to_nat (N.max 2 i))%nat.
Proof.
  intros Hd. induction 1 as [|i Hi|i n ma mp Hi Hn Hl Hma IHa Hmp IHp]; intros Hne; [congruence|cbn [mdepth]; lia|]. cbn [mdepth].
  destruct (ok_node d Hd i n Hl Hi) as (_ & _ & Hp & _). destruct Hp as [Hp|Hp].
  - rewrite Hp in Hmp. assert (mp = MRoot) by (eapply mean_fun; [exact Hmp|apply mean_root]). subst mp. cbn [mdepth]. lia.
  - assert (par_id n <> INV_ID \/ par_id n = INV_ID) as [Q|Q] by (destruct (N.eq_dec (par_id n) INV_ID); auto).
    + specialize (IHp Q). lia.
    + rewrite Q in Hmp. assert (mp = MRoot) by (eapply mean_fun; [exact Hmp|apply mean_root]). subst mp. cbn [mdepth]. lia.
Qed.
Lemma db_climb d i M a : db_ok d -> N.of_nat (length (d_nodes d)) <= INV_ID -> mean (dnode d) i M -> i < N.of_nat (length (d_nodes d)) -> a < 12 ->
  climb (length (d_nodes d)) (dnode d) i a = mclimb a M.
Proof.
  intros Hd Hl Hm Hi Ha. apply climb_mean; auto; [apply db_lk; auto|].
  assert (12 <= length (d_nodes d))%nat. { assert (dnode d 11 <> None) by (rewrite (ok_boot d Hd 11) by lia; discriminate). rewrite dnode_nth in H. apply nth_error_Some in H. lia. }
  pose proof (db_depth d Hd i M Hm). lia.
Qed.
Lemma src_lk src rank : src_ok src rank -> lk_ok src.
Proof. intro H. split; [apply (so_boot _ _ H)|apply (so_inv _ _ H)]. Qed.

Lemma Forall2_imp {A B} (P Q : A -> B -> Prop) l l' : (forall a b, P a b -> Q a b) -> Forall2 P l l' -> Forall2 Q l l'.
Proof. intros H. induction 1; constructor; auto. Qed.
Section Stream.
Variables (dfmt : N -> bytes) (dparse : bytes -> option N).
(* values have the type of their attribute, are representable, and the attribute is not hidden *)
Definition typed (src : N -> option tnode) (a : N) (v : value) : Prop :=
  value_ok dfmt dparse v /\ exists fuel, climb fuel src a 9 = Some (VType (val_type v)).
Definition visible (src : N -> option tnode) (a : N) : Prop := forall fuel z, climb fuel src a 10 = Some (VInt z) -> Z.land z HIDDEN = 0%Z.
Definition src_typed (src : N -> option tnode) : Prop := forall i n, src i = Some n -> 12 <= i -> typed src (n_attr n) (n_val n) /\ visible src (n_attr n).

Lemma db_type src rank d a j M v : src_ok src rank -> db_ok d -> N.of_nat (length (d_nodes d)) <= INV_ID -> mean src a M -> mean (dnode d) j M -> j < N.of_nat (length (d_nodes d)) ->
  (exists fuel, climb fuel src a 9 = Some (VType (val_type v))) -> attr_type d j = val_type v.
Proof.
  intros Hs Hd Hl Hm Hj Hlt H. apply (climb_mclimb src 9 a M) in H; auto; [|apply (src_lk _ _ Hs)|lia]. unfold attr_type. rewrite (db_climb d j M 9); auto; [|lia]. rewrite H. reflexivity.
Qed.
Lemma db_visible src rank d a j M : src_ok src rank -> db_ok d -> N.of_nat (length (d_nodes d)) <= INV_ID -> mean src a M -> mean (dnode d) j M -> j < N.of_nat (length (d_nodes d)) ->
  visible src a -> is_hidden d j = false.
Proof.
  intros Hs Hd Hl Hm Hj Hlt H. unfold is_hidden, attr_props. rewrite (db_climb d j M 10); auto; [|lia].
  destruct (mclimb 10 M) as [[]|] eqn:E; try reflexivity. apply (climb_mclimb src 10 a M) in E; auto; [|apply (src_lk _ _ Hs)|lia]. destruct E as (f & E). rewrite (H f z E). reflexivity.
Qed.
(* the value read for an attribute is the value written *)
Lemma read_typed src rank d m defs a na v : src_ok src rank -> db_ok d -> N.of_nat (length (d_nodes d)) <= INV_ID -> sinv src d m defs -> def_ok defs a -> src a = Some na -> n_attr na = 8 -> typed src a v ->
  is_attr d (map_id m a) = true /\ make_variant dparse (attr_type d (map_id m a)) (filter storable (plain dfmt v)) = v.
Proof.
  intros Hs Hd Hl Hi Hdef Ha Ha8 (Hv & Ht). destruct (def_facts _ _ _ _ _ _ _ Hs Hd Hi Hdef Ha) as (M & H1 & H2 & (k & H3) & H4). split; auto.
  rewrite (db_type src rank d a (map_id m a) M v Hs Hd Hl H1 H2) by (auto; eapply dnode_lt; eauto). apply read_value; auto.
Qed.

Definition line_ok (src : N -> option tnode) (l : wline) : Prop :=
  match l with
  | WNode n => 11 <= n_id n /\ src (n_id n) = Some n
  | WRec g refs imms => (forall i, In i refs -> exists n, src i = Some n /\ n_attr n <> 8) /\
      (forall a v, In (a, v) imms -> typed src a v /\ exists na, src a = Some na /\ n_attr na = 8) /\
      (refs <> [] \/ imms <> []) /\ (forall a, imms <> [(a, VStr [])])
  end.
Definition same_entry (src lk : N -> option tnode) (e : entry) (oe : option entry) : Prop :=
  match e, oe with
  | ERef i, Some (ERef j) => exists M, mean src i M /\ mean lk j M
  | EImm a v, Some (EImm b w) => v = w /\ exists M, mean src a M /\ mean lk b M
  | _, _ => False
  end.
Definition rec_entries (refs : list N) (imms : list (N * value)) : list entry := map ERef refs ++ map (fun x => EImm (fst x) (snd x)) imms.
Definition ctx_recs (ls : list wline) : list (list entry) := flat_map (fun l => match l with WRec false refs imms => [rec_entries refs imms] | _ => [] end) ls.
Definition in_range64 (src : N -> option tnode) : Prop := forall i n, src i = Some n -> i < INV_ID.

Lemma known_def ls i : known_id ls i -> def_ok (wids ls) i.
Proof. intros [H|H]; [left; lia|right; auto]. Qed.
Lemma same_ext src lk lk' e oe : (forall i n, lk i = Some n -> lk' i = Some n) -> same_entry src lk e oe -> same_entry src lk' e oe.
Proof.
  intros He. destruct e, oe as [[]|]; cbn; auto.
  - intros (M & A & B). exists M. split; auto. eapply mean_ext; eauto.
  - intros (A & M & B & C). split; auto. exists M. split; auto. eapply mean_ext; eauto.
Qed.
Lemma node_text_ok src n : src_typed src -> (forall i, i < 12 -> src i = boot_node i) -> 11 <= n_id n -> src (n_id n) = Some n -> value_ok dfmt dparse (n_val n).
Proof.
  intros Ht Hb H11 Hn. destruct (N.eq_dec (n_id n) 11) as [E|E].
  - rewrite E, Hb in Hn by lia. injection Hn as <-. cbn. unfold MAXTYPE, T_PTR, T_INV. lia.
  - apply (Ht (n_id n) n Hn). lia.
Qed.
Lemma read_node_line src rank d m defs n recs err : src_ok src rank -> in_range64 src -> src_typed src -> db_ok d -> N.of_nat (length (d_nodes d)) < INV_ID -> sinv src d m defs ->
  src (n_id n) = Some n -> 11 <= n_id n -> def_ok defs (n_attr n) -> (par_id n = INV_ID \/ def_ok defs (par_id n)) ->
  exists d' m', read_line dparse (mkrs d m recs err) (render dfmt (WNode n)) = Some (mkrs d' m' recs err) /\ dext d d' /\ db_ok d' /\ sinv src d' m' (n_id n :: defs) /\ (length (d_nodes d') <= S (length (d_nodes d)))%nat.
Proof.
  intros Hs Hr Ht Hd Hl Hi Hn H11 Hda Hdp.
  destruct (merge_step_any src rank d m defs n Hs Hd Hl Hi Hn H11 Hda Hdp) as (i & d' & m' & E & He & Hd' & Hi' & Hlen & _).
  exists d', m'. split; [|auto].
  assert (Hv : value_ok dfmt dparse (n_val n)) by (eapply node_text_ok; eauto; apply (so_boot _ _ Hs)).
  assert (Att : exists na, src (n_attr n) = Some na /\ n_attr na = 8 /\ typed src (n_attr n) (n_val n) /\ visible src (n_attr n)).
  { destruct (N.eq_dec (n_id n) 11) as [E11|E11].
    - rewrite E11 in Hn. rewrite (so_boot _ _ Hs 11) in Hn by lia. injection Hn as <-. cbn [n_attr n_val]. rewrite (so_boot _ _ Hs 9) by lia. eexists; split; [reflexivity|]. split; [reflexivity|].
      assert (M9 : mean src 9 (MBoot 9)) by (apply mean_boot; lia).
      split; [split; [exact Hv|]|].
      + apply (climb_mclimb src 9 9 (MBoot 9)); auto; [apply (src_lk _ _ Hs)|lia].
      + intros f z Hc. assert (Q : mclimb 10 (MBoot 9) = Some (VInt z)) by (apply (climb_mclimb src 10 9 (MBoot 9)); eauto; [apply (src_lk _ _ Hs)|lia]).
        unfold mclimb, bclimb, boot_node in Q. cbn in Q. discriminate.
    - destruct (so_attr _ _ Hs (n_id n) n Hn ltac:(lia)) as (na & H1 & H2). exists na. split; auto. split; auto. apply (Ht (n_id n) n Hn). lia. }
  destruct Att as (na & Hna & Hna8 & Htyp & Hvis).
  destruct (read_typed src rank d m defs (n_attr n) na (n_val n) Hs Hd ltac:(lia) Hi Hda Hna Hna8 Htyp) as (A1 & A2).
  destruct (def_facts _ _ _ _ _ _ _ Hs Hd Hi Hda Hna) as (M & B1 & B2 & (k & B3) & _).
  pose proof (db_visible src rank d (n_attr n) (map_id m (n_attr n)) M Hs Hd ltac:(lia) B1 B2 (dnode_lt _ _ _ B3) Hvis) as A3.
  assert (U1 : n_id n < INV_ID) by (eapply Hr; eauto). assert (U2 : n_attr n < INV_ID) by (eapply Hr; eauto).
  assert (U3 : forall p, n_par n = Some p -> p <= INV_ID).
  { intros p Hp. destruct (so_wf _ _ Hs (n_id n) n Hn H11) as (_ & _ & W). destruct (W p Hp) as [->|[Hlt|((np & Hnp) & _)]]; [lia|unfold INV_ID; lia|apply Hr in Hnp; lia]. }
  unfold read_line, render. rewrite write_plain by (apply (value_ok_range dfmt dparse); auto). 
  rewrite parse_node_line; [|unfold u64_ok, INV_ID, W64 in *; lia|unfold u64_ok, INV_ID, W64 in *; lia|intros p Hp; specialize (U3 p Hp); unfold u64_ok, INV_ID, W64 in *; lia|apply (value_bytes dfmt dparse); auto].
  cbn [f_id f_attr f_par f_data r_db r_map r_recs r_err]. replace (n_id n =? INV_ID) with false by lia. replace (n_attr n =? INV_ID) with false by lia. cbn [orb].
  unfold merge_node_str. rewrite A1, A3, A2. cbn [andb]. fold (par_id n). rewrite E. reflexivity.
Qed.
Lemma ref_attr8 src rank d i j M n k : src_ok src rank -> db_ok d -> mean src i M -> mean (dnode d) j M -> src i = Some n -> dnode d j = Some k -> n_attr n <> 8 -> n_attr k <> 8.
Proof.
  intros Hs Hd Hi Hj Hn Hk H. inversion Hi as [|? Hlt|i' n' ma mp A1 A2 A3 A4 A5]; subst.
  - rewrite (so_inv _ _ Hs) in Hn. discriminate.
  - apply mean_boot_inv in Hj. subst j. rewrite (so_boot _ _ Hs i Hlt) in Hn. rewrite (ok_boot d Hd i Hlt) in Hk. unfold boot_node in Hn. congruence.
  - rewrite A3 in Hn. injection Hn as ->. inversion Hj as [| |j' k' ma' mp' B1 B2 B3 B4 B5]; subst. rewrite Hk in B3. injection B3 as <-. intro E. rewrite E in B4. apply mean_small in B4; [|lia]. subst ma. apply mean_boot_inv in A4. contradiction.
Qed.
Lemma combine_map_fst {A B} (f : A * B -> bytes) (l : list (A * B)) : combine (map fst l) (map f l) = map (fun x => (fst x, f x)) l.
Proof. induction l as [|(a, b) l IH]; cbn; [reflexivity|]. rewrite IH. reflexivity. Qed.
Lemma read_rec_line src rank d m defs g refs imms recs : src_ok src rank -> in_range64 src -> db_ok d -> N.of_nat (length (d_nodes d)) <= INV_ID -> sinv src d m defs ->
  line_ok src (WRec g refs imms) -> Forall (def_ok defs) refs -> Forall (fun x => def_ok defs (fst x)) imms ->
  exists new, read_line dparse (mkrs d m recs false) (render dfmt (WRec g refs imms)) = Some (mkrs d m (recs ++ new) false) /\
    Forall2 (Forall2 (same_entry src (dnode d))) (if g then [] else [rec_entries refs imms]) new.
Proof.
  intros Hs Hr Hd Hl Hi (L1 & L2 & L3 & L4) Fr Fi. rewrite Forall_forall in Fr, Fi.
  set (ts := map (fun x : N * value => plain dfmt (snd x)) imms).
  assert (VO : forall a v, In (a, v) imms -> value_ok dfmt dparse v) by (intros a v H; apply L2 in H; apply H).
  assert (E : render dfmt (WRec g refs imms) = record_line g refs (map fst imms) (map esc ts)).
  { unfold render. f_equal. unfold ts. rewrite map_map. apply map_ext_in. intros (a, v) H. apply write_plain. apply (value_ok_range dfmt dparse). eapply VO; eauto. }
  unfold read_line. rewrite E.
  assert (U : forall i n, src i = Some n -> u64_ok i) by (intros i n H; apply Hr in H; unfold u64_ok, INV_ID, W64 in *; lia).
  rewrite parse_record_line.
  2: { apply Forall_forall. intros i H. destruct (L1 i H) as (n & H1 & _). eapply U; eauto. }
  2: { apply Forall_forall. intros a H. apply in_map_iff in H. destruct H as ((a', v) & <- & H). destruct (L2 _ _ H) as (_ & na & H1 & _). eapply U; eauto. }
  2: { apply Forall_forall. intros t H. unfold ts in H. apply in_map_iff in H. destruct H as ((a', v) & <- & H). apply (value_bytes dfmt dparse). eapply VO; eauto. }
  2: { unfold ts. rewrite !map_length. reflexivity. }
  2: { destruct L3 as [?|?]; [auto|right]. destruct imms; [congruence|discriminate]. }
  2: { intros t Ht. unfold ts in Ht. destruct imms as [|(a, v) [|]]; try discriminate. cbn in Ht. injection Ht as <-. intro Hnil.
       assert (Hv : value_ok dfmt dparse v) by (apply (VO a); left; auto). pose proof (esc_nil_filter _ Hnil) as Q. pose proof (read_value dfmt dparse v Hv) as Rv. rewrite Q in Rv.
       destruct v; cbn [value_ok] in Hv; try contradiction; cbn in Rv; try discriminate; try (injection Rv as <-; apply (L4 a); reflexivity).
       destruct Hv as (Hv1 & Hv2 & Hv3). rewrite filter_id in Q by (apply noesc_storable; exact Hv1). contradiction. }
  assert (NEW : Forall2 (same_entry src (dnode d)) (rec_entries refs imms)
     (map (merge_entry_ref d m) refs ++ map (fun x => merge_entry_imm dparse d m (fst x) (snd x)) (combine (map fst imms) (map (filter storable) ts)))).
  { unfold rec_entries. apply Forall2_app.
    - clear E. clear L3 L4. induction refs as [|i refs IH]; cbn [map]; constructor; [|apply IH; [intros; apply L1; right; auto|intros; apply Fr; right; auto]].
      destruct (L1 i (or_introl eq_refl)) as (n & Hn & H8). destruct (def_facts _ _ _ _ _ _ _ Hs Hd Hi (Fr i (or_introl eq_refl)) Hn) as (M & B1 & B2 & (k & B3) & _).
      unfold merge_entry_ref, node_entry. rewrite B3. pose proof (ref_attr8 _ _ _ _ _ _ _ _ Hs Hd B1 B2 Hn B3 H8) as K8. apply N.eqb_neq in K8. rewrite K8. cbn. eauto.
    - unfold ts. rewrite map_map, combine_map_fst, map_map. clear E L3 L4 ts. induction imms as [|(a, v) imms IH]; cbn [map]; constructor; [|apply IH; [intros; apply L2; right; auto|intros; apply Fi; right; auto|intros; apply (VO a0); right; auto]].
      cbn [fst snd]. destruct (L2 a v (or_introl eq_refl)) as (Ht & na & Hna & Hna8). specialize (Fi (a, v) (or_introl eq_refl)). cbn [fst] in Fi.
      destruct (read_typed src rank d m defs a na v Hs Hd Hl Hi Fi Hna Hna8 Ht) as (A1 & A2). destruct (def_facts _ _ _ _ _ _ _ Hs Hd Hi Fi Hna) as (M & B1 & B2 & _).
      unfold merge_entry_imm. rewrite A1, A2. cbn. split; auto. eauto. }
  assert (LEN : (length (map fst imms) =? length (map (filter storable) ts))%nat = true) by (unfold ts; rewrite !map_length; apply Nat.eqb_refl).
  destruct g; cbn [r_db r_map r_recs r_err f_refs f_attrs f_datas].
  - exists []. split; [|constructor].
    rewrite app_nil_r. f_equal. f_equal. exact (f_equal negb LEN).
  - eexists [_]. split; [f_equal; f_equal; exact (f_equal negb LEN)|]. constructor; [exact NEW|constructor].
Qed.
Lemma read_lines_app a : forall s b, read_lines dparse s (a ++ b) = match read_lines dparse s a with Some s1 => read_lines dparse s1 b | None => None end.
Proof. induction a as [|l a IH]; intros s b; cbn; auto. destruct (read_line dparse s l); auto. Qed.

(* every line refers only to bootstrap nodes or nodes in earlier lines; nodes may be repeated *)
Inductive rclosed : list wline -> Prop :=
| rclosed_nil : rclosed []
| rclosed_node ls n : rclosed ls -> known_id ls (n_attr n) -> (forall p, n_par n = Some p -> p = INV_ID \/ known_id ls p) -> rclosed (ls ++ [WNode n])
| rclosed_rec ls g refs imms : rclosed ls -> Forall (known_id ls) refs -> Forall (fun x => known_id ls (fst x)) imms -> rclosed (ls ++ [WRec g refs imms]).
Lemma closed_rclosed ls : closed ls -> rclosed ls.
Proof. induction 1; constructor; auto. Qed.
(* reading a closed stream into any well-formed database *)
Lemma read_rclosed src rank d ls : src_ok src rank -> in_range64 src -> src_typed src -> db_ok d ->
  rclosed ls -> Forall (line_ok src) ls -> N.of_nat (length (d_nodes d) + length ls) < INV_ID ->
  exists s, read_lines dparse (mkrs d [] [] false) (map (render dfmt) ls) = Some s /\ dext d (r_db s) /\ db_ok (r_db s) /\ sinv src (r_db s) (r_map s) (wids ls) /\ r_err s = false /\
    (length (d_nodes (r_db s)) <= length (d_nodes d) + length ls)%nat /\ Forall2 (Forall2 (same_entry src (dnode (r_db s)))) (ctx_recs ls) (r_recs s).
Proof.
  intros Hs Hr Ht Hd Hc. induction Hc as [|ls n Hc IH Ka Kp|ls g refs imms Hc IH Kr Ki]; intros Hok Hlen.
  - exists (mkrs d [] [] false). cbn. split; auto. split; [apply dext_refl|]. split; auto. split; [|split; auto; split; [lia|constructor]].
    constructor; cbn; try discriminate; try tauto; intros; contradiction.
  - apply Forall_app in Hok. destruct Hok as (Hok & Hl). inversion Hl as [|? ? Hl1 _]; subst. destruct Hl1 as (H11 & Hn). rewrite app_length in Hlen. cbn [length] in Hlen.
    destruct IH as ([d1 m1 recs err] & E & He & Hd1 & Hi1 & Herr & Hlen1 & Hrec); auto; [lia|]. cbn [r_db r_map r_recs r_err] in *. subst err.
    destruct (read_node_line src rank d1 m1 (wids ls) n recs false Hs Hr Ht Hd1 ltac:(lia) Hi1 Hn H11) as (d' & m' & E' & He' & Hd' & Hi' & Hlen').
    { apply known_def; auto. }
    { unfold par_id. destruct (n_par n) as [p|]; auto. destruct (Kp p eq_refl); auto. right. apply known_def; auto. }
    exists (mkrs d' m' recs false). rewrite map_app, read_lines_app, E. cbn [map read_lines]. rewrite E'. split; auto. cbn [r_db r_map r_recs r_err].
    split; [eapply dext_trans; eauto|]. split; auto. split.
    { rewrite wids_app. cbn [wids flat_map app]. destruct Hi' as [A B C D F]. constructor.
      - intros k v Hk. specialize (A k v Hk). rewrite in_app_iff. cbn in *. intuition.
      - rewrite in_app_iff. cbn in *. intuition.
      - intros id Hid. apply C. rewrite in_app_iff in Hid. cbn in *. intuition.
      - intros id Hid. apply D. rewrite in_app_iff in Hid. cbn in *. intuition.
      - intros id k Hid. apply F. rewrite in_app_iff in Hid. cbn in *. intuition. }
    split; auto. split; [rewrite app_length; cbn [length]; lia|].
    unfold ctx_recs. rewrite flat_map_app. cbn [flat_map app]. rewrite app_nil_r. fold (ctx_recs ls).
    eapply Forall2_imp; [|exact Hrec]. intros a b Hab. eapply Forall2_imp; [|exact Hab]. intros e oe. apply same_ext. intros. eapply dext_node; eauto.
  - apply Forall_app in Hok. destruct Hok as (Hok & Hl). inversion Hl as [|? ? Hl1 _]; subst. rewrite app_length in Hlen. cbn [length] in Hlen.
    destruct IH as ([d1 m1 recs err] & E & He & Hd1 & Hi1 & Herr & Hlen1 & Hrec); auto; [lia|]. cbn [r_db r_map r_recs r_err] in *. subst err.
    destruct (read_rec_line src rank d1 m1 (wids ls) g refs imms recs Hs Hr Hd1 ltac:(lia) Hi1 Hl1) as (new & E' & Hnew).
    { eapply Forall_impl; [|exact Kr]. intros; apply known_def; auto. }
    { eapply Forall_impl; [|exact Ki]. intros; apply known_def; auto. }
    exists (mkrs d1 m1 (recs ++ new) false). rewrite map_app, read_lines_app, E. cbn [map read_lines]. rewrite E'. split; auto. cbn [r_db r_map r_recs r_err].
    split; auto. split; auto. split; [rewrite wids_app; cbn [wids flat_map app]; rewrite app_nil_r; auto|]. split; auto. split; [rewrite app_length; cbn [length]; lia|].
    unfold ctx_recs. rewrite flat_map_app. cbn [flat_map]. fold (ctx_recs ls). rewrite app_nil_r. apply Forall2_app; auto.
Qed.

Lemma read_closed src rank d ls : src_ok src rank -> in_range64 src -> src_typed src -> db_ok d ->
  closed ls -> Forall (line_ok src) ls -> N.of_nat (length (d_nodes d) + length ls) < INV_ID ->
  exists s, read_lines dparse (mkrs d [] [] false) (map (render dfmt) ls) = Some s /\ dext d (r_db s) /\ db_ok (r_db s) /\ sinv src (r_db s) (r_map s) (wids ls) /\ r_err s = false /\
    (length (d_nodes (r_db s)) <= length (d_nodes d) + length ls)%nat /\ Forall2 (Forall2 (same_entry src (dnode (r_db s)))) (ctx_recs ls) (r_recs s).
Proof. intros Hs Hr Ht Hd Hc. apply (read_rclosed src rank d ls Hs Hr Ht Hd (closed_rclosed ls Hc)). Qed.

(* lines *)
Lemma split_one l : forall cur rest, ~ In c_nl l -> (cur <> [] \/ l <> []) -> split_lines (l ++ c_nl :: rest) cur = (rev cur ++ l) :: split_lines rest [].
Proof.
  induction l as [|c l IH]; intros cur rest Hn Hc.
  - cbn [app split_lines]. change (c_nl =? c_nl) with true. cbn iota. rewrite app_nil_r. destruct cur; [destruct Hc; congruence|reflexivity].
  - cbn [app split_lines]. destruct (N.eqb_spec c c_nl); [exfalso; apply Hn; left; auto|]. rewrite IH; [|intro; apply Hn; right; auto|left; discriminate].
    cbn [rev]. rewrite <- app_assoc. reflexivity.
Qed.
Lemma dec_no_nl n : u64_ok n -> ~ In c_nl (dec n).
Proof. intros H Hi. destruct (dec_spec n H) as (_ & _ & Hf & _). rewrite Forall_forall in Hf. apply Hf in Hi. apply dchar10 in Hi. unfold c_nl in Hi. lia. Qed.
Lemma esc_no_nl s : ~ In c_nl (esc s).
Proof. intro H. apply esc_chars in H. unfold c_nl in H. lia. Qed.
Lemma eq_list_no_nl l : (forall x, In x l -> ~ In c_nl x) -> ~ In c_nl (eq_list l).
Proof. intros H Hi. unfold eq_list in Hi. apply in_flat_map in Hi. destruct Hi as (x & Hx & [E|Hi]); [discriminate|]. apply (H x Hx Hi). Qed.
Lemma not_in_app (c : N) a b : ~ In c a -> ~ In c b -> ~ In c (a ++ b).
Proof. intros H1 H2 H. apply in_app_or in H. tauto. Qed.
Ltac nolit := solve [let H := fresh in intro H; cbn in H; repeat destruct H as [H|H]; first [discriminate|contradiction]].
Lemma render_no_nl src rank l : src_ok src rank -> in_range64 src -> src_typed src -> line_ok src l -> ~ In c_nl (render dfmt l).
Proof.
  intros Hs Hr Ht Hl. assert (U : forall i n, src i = Some n -> u64_ok i) by (intros i n H; apply Hr in H; unfold u64_ok, INV_ID, W64 in *; lia).
  destruct l as [n|g refs imms]; cbn [render line_ok] in *.
  - destruct Hl as (H11 & Hn). assert (Hv : value_ok dfmt dparse (n_val n)) by (eapply node_text_ok; eauto; apply (so_boot _ _ Hs)).
    rewrite write_plain by (apply (value_ok_range dfmt dparse); auto). destruct (so_wf _ _ Hs (n_id n) n Hn H11) as (_ & Wa & Wp).
    assert (u64_ok (n_attr n)) by (destruct Wa as [?|((na & ?) & _)]; [unfold u64_ok, W64; lia|eapply U; eauto]).
    unfold node_line. repeat apply not_in_app; try apply esc_no_nl; try (apply dec_no_nl; eauto); try nolit.
    destruct (n_par n) as [p|] eqn:Ep; [|nolit]. destruct (N.eqb_spec p INV_ID); [nolit|]. apply not_in_app; [nolit|]. apply dec_no_nl.
    destruct (Wp p eq_refl) as [?|[?|((np & ?) & _)]]; [congruence|unfold u64_ok, W64; lia|eapply U; eauto].
  - destruct Hl as (L1 & L2 & _ & _). unfold record_line. repeat apply not_in_app.
    + destruct g; nolit.
    + assert (Q : ~ In c_nl (eq_list (map dec refs))).
      { apply eq_list_no_nl. intros x Hx. apply in_map_iff in Hx. destruct Hx as (i & <- & Hi). destruct (L1 i Hi) as (n & Hn & _). apply dec_no_nl. eapply U; eauto. }
      destruct refs; [nolit|]. apply not_in_app; [nolit|exact Q].
    + assert (Q1 : ~ In c_nl (eq_list (map dec (map fst imms)))).
      { apply eq_list_no_nl. intros x Hx. apply in_map_iff in Hx. destruct Hx as (i & <- & Hi). apply in_map_iff in Hi. destruct Hi as ((a, v) & <- & Hi). destruct (L2 a v Hi) as (_ & na & Hna & _). apply dec_no_nl. eapply U; eauto. }
      assert (Q2 : ~ In c_nl (eq_list (map (fun x : N * value => write_value dfmt (snd x)) imms))).
      { apply eq_list_no_nl. intros x Hx. apply in_map_iff in Hx. destruct Hx as ((a, v) & <- & Hi). destruct (L2 a v Hi) as ((Hv & _) & _). cbn [snd]. rewrite write_plain by (apply (value_ok_range dfmt dparse); auto). apply esc_no_nl. }
      destruct (map fst imms); [nolit|]. apply not_in_app; [nolit|apply not_in_app; [exact Q1|apply not_in_app; [nolit|exact Q2]]].
Qed.
Lemma render_nonempty l : render dfmt l <> [].
Proof. destruct l as [n|[] refs imms]; discriminate. Qed.
Lemma split_render src rank ls : src_ok src rank -> in_range64 src -> src_typed src -> Forall (line_ok src) ls -> split_lines (render_stream dfmt ls) [] = map (render dfmt) ls.
Proof.
  intros Hs Hr Ht. induction 1 as [|l ls Hl Hls IH]; [reflexivity|]. unfold render_stream. cbn [flat_map map]. fold (render_stream dfmt ls). rewrite <- app_assoc. cbn [app].
  rewrite split_one; [|eapply render_no_nl; eauto|right; apply render_nonempty]. cbn [rev app]. rewrite IH. reflexivity.
Qed.
End Stream.
