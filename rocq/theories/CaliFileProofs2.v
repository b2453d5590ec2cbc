(* Proofs: metadata merging preserves meaning *)
From Verif Require Import Base VariantModel VariantSpec NamesModel TextModel TextProofs TextProofs2 TreeModel TreeProofs CaliFileModel CaliFileProofs.

Definition par_id (n : tnode) : N := match n_par n with Some p => p | None => INV_ID end.
(* what a node stands for: its value, and what its attribute and its parent stand for *)
Inductive meaning := MRoot | MBoot (i : N) | MNode (attr : meaning) (v : value) (parent : meaning).
Inductive mean (lk : N -> option tnode) : N -> meaning -> Prop :=
| mean_root : mean lk INV_ID MRoot
| mean_boot i : i < 12 -> mean lk i (MBoot i)
| mean_node i n ma mp : 12 <= i -> i <> INV_ID -> lk i = Some n -> mean lk (n_attr n) ma -> mean lk (par_id n) mp -> mean lk i (MNode ma (n_val n) mp).

Lemma mean_fun lk i a : mean lk i a -> forall b, mean lk i b -> a = b.
Proof.
  induction 1 as [|i Hi|i n ma mp Hi Hn Hl Ha IHa Hp IHp]; intros b Hb; inversion Hb; subst; auto; try lia; try (unfold INV_ID in *; lia); try congruence.
  - rewrite Hl in H1. injection H1 as <-. f_equal; auto.
Qed.
Lemma mean_boot_inv lk i j : mean lk i (MBoot j) -> i = j.
Proof. inversion 1; auto. Qed.
Lemma mean_root_inv lk i : mean lk i MRoot -> i = INV_ID.
Proof. inversion 1; auto. Qed.

Definition triple (n : tnode) : N * value * N := (n_attr n, n_val n, par_id n).
Record db_ok (d : mdb) : Prop := mkdbok {
  ok_boot : forall i, i < 12 -> dnode d i = nth_error boot_list (N.to_nat i);
  ok_id : forall i n, dnode d i = Some n -> n_id n = i;
  ok_node : forall i n, dnode d i = Some n -> 12 <= i -> n_attr n < i /\ is_attr d (n_attr n) = true /\ (par_id n = INV_ID \/ par_id n < i) /\ n_val n <> VInv;
  ok_par : forall i n, dnode d i = Some n -> n_par n <> None;
  ok_uniq : forall i j n m, dnode d i = Some n -> dnode d j = Some m -> triple n = triple m -> i = j }.
Definition dext (d d' : mdb) : Prop := exists l, d_nodes d' = d_nodes d ++ l.

Lemma dext_refl d : dext d d. Proof. exists []. rewrite app_nil_r. reflexivity. Qed.
Lemma dext_trans a b c : dext a b -> dext b c -> dext a c.
Proof. intros (l & H) (l' & H'). exists (l ++ l'). rewrite H', H, app_assoc. reflexivity. Qed.
Lemma dnode_nth d i : dnode d i = nth_error (d_nodes d) (N.to_nat i).
Proof. unfold dnode. destruct (N.ltb_spec i (N.of_nat (length (d_nodes d)))); auto. symmetry. apply nth_error_None. lia. Qed.
Lemma dext_node d d' i n : dext d d' -> dnode d i = Some n -> dnode d' i = Some n.
Proof. intros (l & H). rewrite !dnode_nth, H. intro E. rewrite nth_error_app1; auto. apply nth_error_Some. congruence. Qed.
Lemma dext_attr d d' i : dext d d' -> is_attr d i = true -> is_attr d' i = true.
Proof. unfold is_attr. intros He H. destruct (dnode d i) as [n|] eqn:E; [|discriminate]. rewrite (dext_node _ _ _ _ He E). exact H. Qed.
Lemma dext_len d d' : dext d d' -> (length (d_nodes d) <= length (d_nodes d'))%nat.
Proof. intros (l & ->). rewrite app_length. lia. Qed.
Lemma mean_ext lk lk' : (forall i n, lk i = Some n -> lk' i = Some n) -> forall i m, mean lk i m -> mean lk' i m.
Proof. intros He. induction 1; econstructor; eauto. Qed.
Lemma mean_dext d d' i m : dext d d' -> mean (dnode d) i m -> mean (dnode d') i m.
Proof. intros He. apply mean_ext. intros. eapply dext_node; eauto. Qed.
Lemma dnode_lt d i n : dnode d i = Some n -> i < N.of_nat (length (d_nodes d)).
Proof. rewrite dnode_nth. intro H. assert (nth_error (d_nodes d) (N.to_nat i) <> None) by congruence. apply nth_error_Some in H0. lia. Qed.
Lemma dnode_some d i : i < N.of_nat (length (d_nodes d)) -> exists n, dnode d i = Some n.
Proof. intro H. rewrite dnode_nth. destruct (nth_error _ _) eqn:E; eauto. apply nth_error_None in E. lia. Qed.
Lemma dnode_in d n : In n (d_nodes d) -> exists i, dnode d i = Some n.
Proof. intro H. apply In_nth_error in H. destruct H as (k & H). exists (N.of_nat k). rewrite dnode_nth, Nat2N.id. exact H. Qed.

Lemma is_child_spec p a v n : is_child p a v n = true <-> n_par n = Some p /\ n_attr n = a /\ n_val n = v.
Proof.
  unfold is_child. destruct (n_par n) as [q|]; [|split; [discriminate|intros (? & _); discriminate]].
  rewrite !andb_true_iff, !N.eqb_eq. unfold veqb. destruct (value_eq_dec (n_val n) v); split; intros; intuition; try discriminate; try congruence.
Qed.
Lemma dfind_some d p a v n : dfind d p a v = Some n -> In n (d_nodes d) /\ n_par n = Some p /\ n_attr n = a /\ n_val n = v.
Proof. unfold dfind. intro H. apply find_some in H. destruct H as (H1 & H2). apply is_child_spec in H2. split; [apply in_rev; auto|auto]. Qed.
Lemma dfind_none d p a v : dfind d p a v = None -> forall n, In n (d_nodes d) -> ~ (n_par n = Some p /\ n_attr n = a /\ n_val n = v).
Proof. unfold dfind. intros H n Hn Hc. apply is_child_spec in Hc. assert (R : In n (rev (d_nodes d))) by (apply -> in_rev; auto). pose proof (find_none _ _ H n R). congruence. Qed.

(* adding a node that is not there keeps the database well-formed *)
Lemma db_ok_push d p a v attrs : db_ok d -> is_attr d a = true -> v <> VInv -> (p = INV_ID \/ p < N.of_nat (length (d_nodes d))) ->
  dfind d p a v = None -> db_ok (mkdb (d_nodes d ++ [mkn (N.of_nat (length (d_nodes d))) a v (Some p)]) attrs).
Proof.
  intros Hd Ha Hv Hp Hf. set (d' := mkdb _ attrs).
  assert (He : dext d d') by (eexists; reflexivity).
  assert (G : forall i n, dnode d' i = Some n -> dnode d i = Some n \/ (i = N.of_nat (length (d_nodes d)) /\ n = mkn (N.of_nat (length (d_nodes d))) a v (Some p))).
  { intros i n. rewrite !dnode_nth. unfold d'. cbn [d_nodes]. destruct (Nat.lt_ge_cases (N.to_nat i) (length (d_nodes d))).
    - rewrite nth_error_app1 by auto. auto.
    - rewrite nth_error_app2 by auto. destruct (N.to_nat i - length (d_nodes d))%nat eqn:E; cbn; [|destruct n0; discriminate]. intro Q. injection Q as <-. right. split; auto. lia. }
  assert (L12 : 12 <= N.of_nat (length (d_nodes d))).
  { assert (dnode d 11 <> None) by (rewrite (ok_boot d Hd 11) by lia; discriminate). rewrite dnode_nth in H. apply nth_error_Some in H. lia. }
  assert (AL : a < N.of_nat (length (d_nodes d))). { unfold is_attr in Ha. destruct (dnode d a) eqn:E; [|discriminate]. eapply dnode_lt; eauto. }
  constructor.
  - intros i Hi. pose proof (ok_boot d Hd i Hi) as B. rewrite <- B. destruct (dnode d i) eqn:E; [apply (dext_node d d'); auto|].
    exfalso. destruct (dnode_some d i) as (m & Em); [lia|congruence].
  - intros i n Hn. apply G in Hn. destruct Hn as [Hn|(-> & ->)]; [apply (ok_id d Hd); auto|reflexivity].
  - intros i n Hn Hi. apply G in Hn. destruct Hn as [Hn|(-> & ->)].
    + destruct (ok_node d Hd i n Hn Hi) as (A & B & C & D). split; auto. split; [apply (dext_attr d); auto|]. auto.
    + cbn [n_attr n_val]. unfold par_id; cbn [n_par]. split; auto. split; [apply (dext_attr d); auto|]. auto.
  - intros i n Hn. apply G in Hn. destruct Hn as [Hn|(-> & ->)]; [apply (ok_par d Hd i); auto|discriminate].
  - assert (K : forall m, In m (d_nodes d) -> triple m = (a, v, p) -> n_par m <> None -> False).
    { intros m Hm T Hpar. unfold triple, par_id in T. destruct (n_par m) as [q|] eqn:Eq; [|congruence]. injection T as T1 T2 T3. subst q. apply (dfind_none d p a v Hf m Hm). auto. }
    intros i j n m Hn Hm T. apply G in Hn. apply G in Hm. destruct Hn as [Hn|(-> & ->)], Hm as [Hm|(-> & ->)]; auto.
    + apply (ok_uniq d Hd i j n m); auto.
    + exfalso. apply (K n); [rewrite dnode_nth in Hn; eapply nth_error_In; exact Hn|exact T|apply (ok_par d Hd i); auto].
    + exfalso. apply (K m); [rewrite dnode_nth in Hm; eapply nth_error_In; exact Hm|symmetry; exact T|apply (ok_par d Hd j); auto].
Qed.
Lemma db_ok_attrs d attrs : db_ok d -> db_ok (mkdb (d_nodes d) attrs).
Proof. intros []. constructor; auto. Qed.
Lemma dnode_push d p a v attrs : dnode (mkdb (d_nodes d ++ [mkn (N.of_nat (length (d_nodes d))) a v (Some p)]) attrs) (N.of_nat (length (d_nodes d))) = Some (mkn (N.of_nat (length (d_nodes d))) a v (Some p)).
Proof. rewrite dnode_nth. cbn [d_nodes]. rewrite Nat2N.id, nth_error_app2, Nat.sub_diag by lia. reflexivity. Qed.

Definition is_node (d : mdb) (i a : N) (v : value) (p : N) : Prop := exists n, dnode d i = Some n /\ n_attr n = a /\ n_val n = v /\ n_par n = Some p.
Lemma merge_core_ok d nid a p v : db_ok d -> nid <> INV_ID -> a <> INV_ID -> is_attr d a = true -> v <> VInv -> (p = INV_ID \/ p < N.of_nat (length (d_nodes d)) /\ p <> INV_ID) ->
  exists i d', merge_core d nid a p v = Some (i, d') /\ dext d d' /\ db_ok d' /\ is_node d' i a v p /\ (length (d_nodes d') <= S (length (d_nodes d)))%nat.
Proof.
  intros Hd Hn Hai Ha Hv Hp. unfold merge_core. rewrite Ha.
  assert (C1 : (nid =? INV_ID) = false) by (apply N.eqb_neq; auto). assert (C2 : (a =? INV_ID) = false) by (apply N.eqb_neq; auto).
  rewrite C1, C2. cbn [orb]. assert (match v with VInv => true | _ => false end = false) as -> by (destruct v; auto; congruence).
  assert (E : (if p =? INV_ID then Some ROOT else if N.of_nat (length (d_nodes d)) <=? p then None else Some p) = Some p).
  { destruct (N.eqb_spec p INV_ID); [subst; reflexivity|]. destruct Hp as [?|(Hp & _)]; [congruence|]. destruct (N.leb_spec (N.of_nat (length (d_nodes d))) p); [lia|reflexivity]. }
  rewrite E. destruct (dfind d p a v) as [n|] eqn:Ef.
  - apply dfind_some in Ef. destruct Ef as (Hin & H1 & H2 & H3). apply dnode_in in Hin. destruct Hin as (i & Hi). exists (n_id n), d. split; auto. split; [apply dext_refl|]. split; auto.
    rewrite (ok_id d Hd i n Hi). split; [exists n; auto|lia].
  - unfold dcreate. destruct (a =? 8).
    + eexists _, _. split; [reflexivity|]. split; [eexists; reflexivity|]. split; [apply db_ok_push; auto; tauto|]. split; [eexists; split; [apply dnode_push|cbn; auto]|cbn [d_nodes]; rewrite app_length; cbn; lia].
    + eexists _, _. split; [reflexivity|]. split; [eexists; reflexivity|]. split; [apply db_ok_push; auto; tauto|]. split; [eexists; split; [apply dnode_push|cbn; auto]|cbn [d_nodes]; rewrite app_length; cbn; lia].
Qed.
(* in a well-formed database different nodes have different meanings *)
Lemma mean_inj d : db_ok d -> forall m i j, mean (dnode d) i m -> mean (dnode d) j m -> i = j.
Proof.
  intros Hd. induction m as [|k|ma IHa v mp IHp]; intros i j Hi Hj.
  - apply mean_root_inv in Hi, Hj. congruence.
  - apply mean_boot_inv in Hi, Hj. congruence.
  - inversion Hi as [| |i' n ma' mp' A1 A2 A3 A4 A5]; subst. inversion Hj as [| |j' n' ma' mp' B1 B2 B3 B4 B5]; subst.
    apply (ok_uniq d Hd i j n n'); auto. unfold triple. rewrite (IHa _ _ A4 B4), (IHp _ _ A5 B5). congruence.
Qed.

(* ---------- sources ---------- *)
Definition boot_node (i : N) : option tnode := nth_error boot_list (N.to_nat i).
Record src_ok (src : N -> option tnode) (rank : N -> nat) : Prop := mksrc {
  so_boot : forall i, i < 12 -> src i = boot_node i;
  so_wf : wf_src src rank;
  so_inv : src INV_ID = None;
  so_attr : forall i n, src i = Some n -> 12 <= i -> exists na, src (n_attr n) = Some na /\ n_attr na = 8;
  so_par : forall i n, src i = Some n -> 12 <= i -> par_id n = INV_ID \/ exists np, src (par_id n) = Some np;
  so_val : forall i n, src i = Some n -> n_val n <> VInv;
  so_new : forall i n j m, src i = Some n -> 12 <= i -> j < 12 -> boot_node j = Some m -> triple n <> triple m }.

Lemma src_mean src rank : src_ok src rank -> forall i n, src i = Some n -> exists m, mean src i m.
Proof.
  intros Hs. assert (G : forall k i n, (rank i < k)%nat -> src i = Some n -> exists m, mean src i m).
  { induction k as [|k IH]; intros i n Hk Hi; [lia|].
    destruct (N.lt_ge_cases i 12) as [H12|H12]; [eexists; apply mean_boot; auto|].
    assert (Hni : i <> INV_ID) by (intro; subst; rewrite (so_inv _ _ Hs) in Hi; discriminate).
    assert (R : forall r, ref_ok src rank i r -> exists m, mean src r m).
    { intros r [Hr|((nr & Hr) & Hlt)]; [exists (MBoot r); apply mean_boot; lia|]. apply (IH r nr); auto; lia. }
    destruct (so_wf _ _ Hs i n Hi) as (_ & Ha & Hp); [lia|].
    destruct (R _ Ha) as (ma & Hma).
    assert (exists mp, mean src (par_id n) mp) as (mp & Hmp).
    { unfold par_id. destruct (n_par n) as [p|] eqn:Ep; [|exists MRoot; apply mean_root]. destruct (Hp p eq_refl) as [->|Hr]; [exists MRoot; apply mean_root|auto]. }
    eexists. eapply mean_node; eauto. }
  intros i n Hi. apply (G (S (rank i)) i n); auto.
Qed.

(* ---------- streams ---------- *)
Definition def_ok (defs : list N) (id : N) : Prop := id < 12 \/ In id defs.
Record sinv (src : N -> option tnode) (d : mdb) (m : idmap) (defs : list N) : Prop := mksinv {
  si_keys : forall k v, lookup_id m k = Some v -> In k defs /\ 12 <= k;
  si_inv : ~ In INV_ID defs;
  si_mean : forall id, In id defs -> exists M, mean src id M /\ mean (dnode d) (map_id m id) M;
  si_node : forall id, In id defs -> exists n, dnode d (map_id m id) = Some n;
  si_attr : forall id n, In id defs -> src id = Some n -> n_attr n = 8 -> is_attr d (map_id m id) = true }.
Lemma sinv_ext src d d' m defs : dext d d' -> sinv src d m defs -> sinv src d' m defs.
Proof.
  intros He [A B C D E]. constructor; auto.
  - intros id Hi. destruct (C id Hi) as (M & H1 & H2). exists M. split; auto. eapply mean_dext; eauto.
  - intros id Hi. destruct (D id Hi) as (n & Hn). exists n. eapply dext_node; eauto.
  - intros id n Hi Hs Ha. eapply dext_attr; eauto.
Qed.
Lemma map_small src d m defs id : sinv src d m defs -> id < 12 -> map_id m id = id.
Proof. intros H Hi. unfold map_id. destruct (lookup_id m id) eqn:E; auto. apply (si_keys _ _ _ _ H) in E. lia. Qed.
Lemma map_inv src d m defs : sinv src d m defs -> map_id m INV_ID = INV_ID.
Proof. intros H. unfold map_id. destruct (lookup_id m INV_ID) eqn:E; auto. apply (si_keys _ _ _ _ H) in E. destruct E as (E & _). apply (si_inv _ _ _ _ H) in E. contradiction. Qed.
Lemma lookup_insert m k v j : lookup_id (insert_id m k v) j = match lookup_id m j with Some x => Some x | None => if k =? j then Some v else None end.
Proof.
  unfold insert_id. destruct (lookup_id m k) eqn:E.
  - destruct (lookup_id m j) eqn:Ej; auto. destruct (N.eqb_spec k j); [congruence|auto].
  - cbn [lookup_id]. destruct (N.eqb_spec k j); [subst; rewrite E; auto|destruct (lookup_id m j); auto].
Qed.
Lemma def_facts src rank d m defs id n : src_ok src rank -> db_ok d -> sinv src d m defs -> def_ok defs id -> src id = Some n ->
  exists M, mean src id M /\ mean (dnode d) (map_id m id) M /\ (exists k, dnode d (map_id m id) = Some k) /\ (n_attr n = 8 -> is_attr d (map_id m id) = true).
Proof.
  intros Hs Hd Hi [H12|Hin] Hn.
  - rewrite (map_small _ _ _ _ _ Hi H12). exists (MBoot id). split; [apply mean_boot; auto|]. split; [apply mean_boot; auto|].
    rewrite (so_boot _ _ Hs id H12) in Hn. unfold boot_node in Hn. rewrite <- (ok_boot d Hd id H12) in Hn. split; [eauto|]. intro Ha. unfold is_attr. rewrite Hn. apply N.eqb_eq; auto.
  - destruct (si_mean _ _ _ _ Hi id Hin) as (M & H1 & H2). exists M. split; auto. split; auto. split; [apply (si_node _ _ _ _ Hi); auto|]. intro Ha. eapply (si_attr _ _ _ _ Hi); eauto.
Qed.
Lemma boot_triples : forall j n, boot_node j = Some n -> j < 12 /\ n_attr n < 12 /\ (par_id n = INV_ID \/ par_id n < 12) /\ n_par n = Some (par_id n) /\ (n_attr n = 8 \/ n_attr n = 9).
Proof.
  intros j n H. unfold boot_node in H. assert (Hj : (N.to_nat j < 12)%nat) by (change 12%nat with (length boot_list); apply nth_error_Some; congruence).
  assert (C : forall k, (k < 12)%nat -> match nth_error boot_list k with Some n => n_attr n < 12 /\ (par_id n = INV_ID \/ par_id n < 12) /\ n_par n = Some (par_id n) /\ (n_attr n = 8 \/ n_attr n = 9) | None => True end).
  { intros k Hk. do 12 (destruct k as [|k]; [cbn; unfold par_id; cbn; unfold ROOT; intuition; try lia|]). lia. }
  specialize (C _ Hj). rewrite H in C. split; [lia|exact C].
Qed.
Lemma mean_small lk i M : i < 12 -> mean lk i M -> M = MBoot i.
Proof. intros H Hm. inversion Hm; subst; auto; [unfold INV_ID in H; lia|lia]. Qed.
Lemma src_small_back src rank d m defs id n : src_ok src rank -> db_ok d -> sinv src d m defs -> def_ok defs id -> src id = Some n -> map_id m id < 12 -> id = map_id m id.
Proof.
  intros Hs Hd Hi Hdef Hn Hlt. destruct (def_facts _ _ _ _ _ _ _ Hs Hd Hi Hdef Hn) as (M & H1 & H2 & _). apply mean_small in H2; auto. subst M. apply mean_boot_inv in H1. auto.
Qed.

(* one node definition of a stream *)
Lemma merge_step src rank d m defs n : src_ok src rank -> db_ok d -> N.of_nat (length (d_nodes d)) < INV_ID -> sinv src d m defs ->
  src (n_id n) = Some n -> 11 <= n_id n -> def_ok defs (n_attr n) -> (par_id n = INV_ID \/ def_ok defs (par_id n)) -> ~ In (n_id n) defs ->
  exists i d' m', merge_node d m (n_id n) (n_attr n) (par_id n) (n_val n) = Some (i, d', m') /\ dext d d' /\ db_ok d' /\ sinv src d' m' (n_id n :: defs) /\ (length (d_nodes d') <= S (length (d_nodes d)))%nat.
Proof.
  intros Hs Hd Hlen Hi Hn H11 Hda Hdp Hnew. set (id := n_id n) in *.
  assert (Hid : id <> INV_ID) by (intro E; rewrite E in Hn; rewrite (so_inv _ _ Hs) in Hn; discriminate).
  assert (Att : exists na, src (n_attr n) = Some na /\ n_attr na = 8).
  { destruct (N.eq_dec id 11) as [E|E]; [|apply (so_attr _ _ Hs id n Hn); lia].
    rewrite E in Hn. rewrite (so_boot _ _ Hs 11) in Hn by lia. injection Hn as <-. cbn [n_attr]. rewrite (so_boot _ _ Hs 9) by lia. eexists; split; reflexivity. }
  destruct Att as (na & Hna & Hna8).
  destruct (def_facts _ _ _ _ _ _ _ Hs Hd Hi Hda Hna) as (Ma & A1 & A2 & (ka & A3) & A4). specialize (A4 Hna8).
  assert (Ale : map_id m (n_attr n) < N.of_nat (length (d_nodes d))) by (eapply dnode_lt; eauto).
  assert (P : exists Mp, mean src (par_id n) Mp /\ mean (dnode d) (map_id m (par_id n)) Mp /\ (map_id m (par_id n) = INV_ID \/ map_id m (par_id n) < N.of_nat (length (d_nodes d)) /\ map_id m (par_id n) <> INV_ID) /\ (map_id m (par_id n) < 12 \/ map_id m (par_id n) = INV_ID -> par_id n = map_id m (par_id n))).
  { assert (Pr : par_id n = INV_ID \/ exists np, src (par_id n) = Some np).
    { destruct (N.eq_dec id 11) as [E|E]; [|apply (so_par _ _ Hs id n Hn); lia].
      rewrite E in Hn. rewrite (so_boot _ _ Hs 11) in Hn by lia. injection Hn as <-. left; reflexivity. }
    destruct (N.eq_dec (par_id n) INV_ID) as [E|E].
    - rewrite E, (map_inv _ _ _ _ Hi). exists MRoot. split; [apply mean_root|]. split; [apply mean_root|]. auto.
    - destruct Pr as [?|(np & Hnp)]; [congruence|]. destruct Hdp as [?|Hdp]; [congruence|].
      destruct (def_facts _ _ _ _ _ _ _ Hs Hd Hi Hdp Hnp) as (Mp & B1 & B2 & (kp & B3) & _). exists Mp. split; auto. split; auto.
      pose proof (dnode_lt _ _ _ B3). split; [right; lia|]. intros [Hlt|Heq]; [eapply src_small_back; eauto|lia]. }
  destruct P as (Mp & P1 & P2 & P3 & P4).
  destruct (merge_core_ok d id (map_id m (n_attr n)) (map_id m (par_id n)) (n_val n) Hd Hid) as (i & d' & E & He & Hd' & (k & Hk & K1 & K2 & K3) & Hlen'); auto.
  { lia. } { apply (so_val _ _ Hs id n Hn). }
  assert (Iid : i = 11 /\ id = 11 \/ 12 <= i /\ 12 <= id).
  { destruct (N.eq_dec id 11) as [E11|E11].
    - left. split; auto. rewrite E11 in Hn. rewrite (so_boot _ _ Hs 11) in Hn by lia. injection Hn as Hn.
      assert (Em : map_id m (n_attr n) = 9) by (rewrite <- Hn; apply (map_small _ _ _ _ _ Hi); cbn; lia).
      assert (Ep : map_id m (par_id n) = INV_ID) by (rewrite <- Hn; apply (map_inv _ _ _ _ Hi)).
      apply (ok_uniq d' Hd' i 11 k (mkn 11 9 (VType T_PTR) (Some ROOT))); auto.
      + rewrite (ok_boot d' Hd' 11) by lia. reflexivity.
      + unfold triple, par_id at 1. rewrite K1, K2, K3, Em, Ep, <- Hn. reflexivity.
    - right. split; [|lia]. destruct (N.lt_ge_cases i 12) as [Hlt|]; auto. exfalso.
      rewrite (ok_boot d' Hd' i Hlt) in Hk. destruct (boot_triples i k Hk) as (_ & T1 & T2 & T3 & _).
      apply (so_new _ _ Hs id n i k Hn); auto; [lia|]. unfold triple. rewrite K1 in T1. rewrite K3 in T3. injection T3 as T3.
      rewrite <- T3 in T2. assert (Q : par_id n = map_id m (par_id n)) by (apply P4; tauto).
      assert (Q' : n_attr n = map_id m (n_attr n)) by (apply (src_small_back src rank d m defs (n_attr n) na); auto).
      rewrite K1, K2, <- T3, <- Q', <- Q. reflexivity. }
  assert (Ilt : i < N.of_nat (length (d_nodes d')) /\ i <> INV_ID).
  { split; [eapply dnode_lt; eauto|]. destruct He as (l & Hl). intro Ei. unfold merge_core in E. pose proof (dnode_lt _ _ _ Hk). 
    lia. }
  unfold merge_node. rewrite E. exists i, d', (if id =? i then m else insert_id m id i). split; auto. split; auto. split; auto. split; [|exact Hlen'].
  assert (NK : lookup_id m id = None). { destruct (lookup_id m id) eqn:El; auto. apply (si_keys _ _ _ _ Hi) in El. tauto. }
  assert (Mid : forall j, map_id (if id =? i then m else insert_id m id i) j = if j =? id then i else map_id m j).
  { intro j. unfold map_id. destruct (N.eqb_spec id i) as [Ei|Ei].
    - destruct (N.eqb_spec j id); [subst j; rewrite NK; auto|auto].
    - rewrite lookup_insert. rewrite (N.eqb_sym id j). destruct (N.eqb_spec j id); [subst j; rewrite NK; auto|]. destruct (lookup_id m j); auto. }
  pose proof (sinv_ext _ _ _ _ _ He Hi) as Hi'.
  constructor.
  - intros q v Hq. destruct (N.eqb_spec id i).
    + apply (si_keys _ _ _ _ Hi) in Hq. cbn. tauto.
    + rewrite lookup_insert in Hq. destruct (lookup_id m q) eqn:El.
      * apply (si_keys _ _ _ _ Hi) in El. cbn. tauto.
      * destruct (N.eqb_spec id q); [|discriminate]. split; [left; auto|]. lia.
  - intros [H|H]; [congruence|]. apply (si_inv _ _ _ _ Hi) in H. auto.
  - intros j Hj. rewrite Mid. destruct (N.eqb_spec j id) as [->|Hne].
    + destruct Iid as [(-> & ->)|(Ii & Ii')]; [exists (MBoot 11); split; apply mean_boot; lia|].
      exists (MNode Ma (n_val n) Mp). split; [eapply mean_node; eauto|]. rewrite <- K2. eapply mean_node; eauto; [tauto|rewrite K1; eapply mean_dext; eauto|unfold par_id; rewrite K3; eapply mean_dext; eauto].
    + destruct Hj as [Hj|Hj]; [congruence|]. apply (si_mean _ _ _ _ Hi' j Hj).
  - intros j Hj. rewrite Mid. destruct (N.eqb_spec j id) as [->|Hne]; [eauto|]. destruct Hj as [Hj|Hj]; [congruence|]. apply (si_node _ _ _ _ Hi' j Hj).
  - intros j nj Hj Hsj Haj. rewrite Mid. destruct (N.eqb_spec j id) as [->|Hne].
    + rewrite Hn in Hsj. injection Hsj as <-. unfold is_attr. rewrite Hk, K1. apply N.eqb_eq. rewrite Haj. apply (map_small _ _ _ _ _ Hi). lia.
    + destruct Hj as [Hj|Hj]; [congruence|]. apply (si_attr _ _ _ _ Hi' j nj Hj); auto.
Qed.

Lemma sinv_perm src d m a b : (forall x, In x a <-> In x b) -> sinv src d m a -> sinv src d m b.
Proof.
  intros H [A B C D F]. constructor.
  - intros k v Hk. rewrite <- H. exact (A k v Hk).
  - rewrite <- H. auto.
  - intros id Hi. apply C. apply H; auto.
  - intros id Hi. apply D. apply H; auto.
  - intros id n Hi. apply F. apply H; auto.
Qed.
(* a node definition that repeats an earlier one changes nothing: the node found is the one the id
   already stands for *)
Lemma merge_step_again src rank d m defs n : src_ok src rank -> db_ok d -> N.of_nat (length (d_nodes d)) < INV_ID -> sinv src d m defs ->
  src (n_id n) = Some n -> 11 <= n_id n -> def_ok defs (n_attr n) -> (par_id n = INV_ID \/ def_ok defs (par_id n)) -> In (n_id n) defs ->
  exists d', merge_node d m (n_id n) (n_attr n) (par_id n) (n_val n) = Some (map_id m (n_id n), d', m) /\ dext d d' /\ db_ok d' /\ (length (d_nodes d') <= S (length (d_nodes d)))%nat.
Proof.
  intros Hs Hd Hlen Hi Hn H11 Hda Hdp Hold. set (id := n_id n) in *.
  assert (Hid : id <> INV_ID) by (intro E; rewrite E in Hn; rewrite (so_inv _ _ Hs) in Hn; discriminate).
  assert (Att : exists na, src (n_attr n) = Some na /\ n_attr na = 8).
  { destruct (N.eq_dec id 11) as [E|E]; [|apply (so_attr _ _ Hs id n Hn); lia].
    rewrite E in Hn. rewrite (so_boot _ _ Hs 11) in Hn by lia. injection Hn as <-. cbn [n_attr]. rewrite (so_boot _ _ Hs 9) by lia. eexists; split; reflexivity. }
  destruct Att as (na & Hna & Hna8).
  destruct (def_facts _ _ _ _ _ _ _ Hs Hd Hi Hda Hna) as (Ma & A1 & A2 & (ka & A3) & A4). specialize (A4 Hna8).
  assert (Ale : map_id m (n_attr n) < N.of_nat (length (d_nodes d))) by (eapply dnode_lt; eauto).
  assert (P : exists Mp, mean src (par_id n) Mp /\ mean (dnode d) (map_id m (par_id n)) Mp /\ (map_id m (par_id n) = INV_ID \/ map_id m (par_id n) < N.of_nat (length (d_nodes d)) /\ map_id m (par_id n) <> INV_ID)).
  { assert (Pr : par_id n = INV_ID \/ exists np, src (par_id n) = Some np).
    { destruct (N.eq_dec id 11) as [E|E]; [|apply (so_par _ _ Hs id n Hn); lia].
      rewrite E in Hn. rewrite (so_boot _ _ Hs 11) in Hn by lia. injection Hn as <-. left; reflexivity. }
    destruct (N.eq_dec (par_id n) INV_ID) as [E|E].
    - rewrite E, (map_inv _ _ _ _ Hi). exists MRoot. split; [apply mean_root|]. split; [apply mean_root|]. auto.
    - destruct Pr as [?|(np & Hnp)]; [congruence|]. destruct Hdp as [?|Hdp]; [congruence|].
      destruct (def_facts _ _ _ _ _ _ _ Hs Hd Hi Hdp Hnp) as (Mp & B1 & B2 & (kp & B3) & _). exists Mp. split; auto. split; auto.
      pose proof (dnode_lt _ _ _ B3). right; lia. }
  destruct P as (Mp & P1 & P2 & P3).
  destruct (merge_core_ok d id (map_id m (n_attr n)) (map_id m (par_id n)) (n_val n) Hd Hid) as (i & d' & E & He & Hd' & (k & Hk & K1 & K2 & K3) & Hlen'); auto.
  { lia. } { apply (so_val _ _ Hs id n Hn). }
  assert (Ei : i = map_id m id).
  { destruct (si_node _ _ _ _ Hi id Hold) as (k0 & Hk0). destruct (si_mean _ _ _ _ Hi id Hold) as (M & M1 & M2).
    pose proof (dext_node _ _ _ _ He Hk0) as Hk0'.
    destruct (N.eq_dec id 11) as [E11|E11].
    - rewrite E11 in Hn, M1, M2. rewrite (so_boot _ _ Hs 11) in Hn by lia. injection Hn as Hn. apply mean_small in M1; [|lia]. subst M. apply mean_boot_inv in M2.
      assert (Em : map_id m (n_attr n) = 9) by (rewrite <- Hn; apply (map_small _ _ _ _ _ Hi); cbn; lia).
      assert (Ep : map_id m (par_id n) = INV_ID) by (rewrite <- Hn; apply (map_inv _ _ _ _ Hi)).
      rewrite E11, M2.
      apply (ok_uniq d' Hd' i 11 k (mkn 11 9 (VType T_PTR) (Some ROOT))); auto.
      + rewrite (ok_boot d' Hd' 11) by lia. reflexivity.
      + unfold triple, par_id at 1. rewrite K1, K2, K3, Em, Ep, <- Hn. reflexivity.
    - inversion M1 as [X|? X|j nj ma mp J1 J2 J3 J4 J5]; subst; [congruence|lia|]. rewrite Hn in J3. injection J3 as <-.
      rewrite (mean_fun _ _ _ J4 _ A1), (mean_fun _ _ _ J5 _ P1) in M2.
      inversion M2 as [|? X|j' nj' ma' mp' L1 L2 L3 L4 L5]; subst. rewrite L3 in Hk0. injection Hk0 as ->.
      apply (ok_uniq d' Hd' i (map_id m id) k k0); auto. unfold triple. rewrite K1, K2. unfold par_id at 1. rewrite K3.
      rewrite (mean_inj d Hd Ma (n_attr k0) (map_id m (n_attr n))), (mean_inj d Hd Mp (par_id k0) (map_id m (par_id n))); auto. congruence. }
  unfold merge_node. rewrite E. exists d'. split; [|auto]. subst i. f_equal. f_equal.
  destruct (N.eqb_spec id (map_id m id)) as [Q|Q]; auto. unfold insert_id. unfold map_id in Q. destruct (lookup_id m id); [reflexivity|congruence].
Qed.
(* one node definition of a stream, new or repeated *)
Lemma merge_step_any src rank d m defs n : src_ok src rank -> db_ok d -> N.of_nat (length (d_nodes d)) < INV_ID -> sinv src d m defs ->
  src (n_id n) = Some n -> 11 <= n_id n -> def_ok defs (n_attr n) -> (par_id n = INV_ID \/ def_ok defs (par_id n)) ->
  exists i d' m', merge_node d m (n_id n) (n_attr n) (par_id n) (n_val n) = Some (i, d', m') /\ dext d d' /\ db_ok d' /\ sinv src d' m' (n_id n :: defs) /\ (length (d_nodes d') <= S (length (d_nodes d)))%nat /\
    (forall id, In id defs -> map_id m' id = map_id m id).
Proof.
  intros Hs Hd Hl Hi Hn H11 Ha Hp. destruct (in_dec N.eq_dec (n_id n) defs) as [Hold|Hnew].
  - destruct (merge_step_again src rank d m defs n Hs Hd Hl Hi Hn H11 Ha Hp Hold) as (d' & E & He & Hd' & Hl').
    exists (map_id m (n_id n)), d', m. split; auto. split; auto. split; auto. split; [|split; auto].
    eapply sinv_perm; [|eapply sinv_ext; [exact He|exact Hi]]. intro x. cbn. split; [auto|intros [<-|?]; auto].
  - destruct (merge_step src rank d m defs n Hs Hd Hl Hi Hn H11 Ha Hp Hnew) as (i & d' & m' & E & He & Hd' & Hi' & Hl').
    exists i, d', m'. split; auto. split; auto. split; auto. split; auto. split; auto.
    intros id Hid. unfold merge_node in E. destruct (merge_core _ _ _ _ _) as [(i0, d0)|]; [|discriminate]. injection E as <- <- <-. unfold map_id. destruct (n_id n =? i0); auto. rewrite lookup_insert.
    destruct (lookup_id m id); auto. destruct (N.eqb_spec (n_id n) id); auto. subst id. contradiction.
Qed.
