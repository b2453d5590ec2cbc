From Verif Require Import Base VlencModel VlencProofs VariantModel CodecModel CodecProofs TraceModel.
Local Open Scope nat_scope.

(* Specification: the snapshots thread t has recorded since the last clear *)
Definition kept_step (t : nat) (acc : list (list entry)) (e : trace_op * outcome) : list (list entry) :=
  match e with
  | (TSnap t' _ rec, OStored) => if (t' =? t) then (match rec with [] => acc | _ => acc ++ [rec] end) else acc
  | (TClear, _) => []
  | _ => acc
  end.
Definition kept (t : nat) (tr : list (trace_op * outcome)) : list (list entry) := fold_left (kept_step t) tr [].

Definition is_dropped (e : trace_op * outcome) : bool := match snd e with ODropped => true | _ => false end.
Definition is_snap (o : trace_op) : bool := match o with TSnap _ _ _ => true | _ => false end.
Definition count {A} (f : A -> bool) (l : list A) : nat := length (filter f l).

(* every snapshot of the history is well-formed against db *)
Definition ops_ok (db : metadb) (ops : list trace_op) : Prop :=
  forall t a rec, In (TSnap t a rec) ops -> rec_ok db rec.
(* ... and fits an empty chunk *)
Definition ops_fit (size : N) (ops : list trace_op) : Prop :=
  forall t a rec, In (TSnap t a rec) ops -> (10 + N.of_nat (length rec) * 30 < size)%N.

(* representation of one buffer: segs are the chunks' records, oldest chunk first *)
Definition tb_rep (db : metadb) (size : N) (b : tbuf) (l : list (list entry)) (segs : list (list (list entry))) : Prop :=
  concat segs = l /\ tb_chunks b <> [] /\ Forall2 (chunk_rep db) (tb_chunks b) (rev segs) /\
  Forall (fun c => ck_size c = size) (tb_chunks b).

Definition inv (db : metadb) (p : policy) (size : N) (s : trace) (K : nat -> list (list entry)) : Prop :=
  forall t, match tr_buf s t with
            | None => K t = []
            | Some b => exists segs, tb_rep db size b (K t) segs /\ (p <> PGrow -> length segs = 1)
            end.

Lemma upd_same f t b : upd f t b t = Some b.
Proof. unfold upd. rewrite Nat.eqb_refl. reflexivity. Qed.
Lemma upd_other f t b x : x <> t -> upd f t b x = f x.
Proof. unfold upd. intro H. destruct (Nat.eqb_spec x t); [contradiction|reflexivity]. Qed.

Definition kadd (K : nat -> list (list entry)) (t : nat) (rec : list entry) : nat -> list (list entry) :=
  fun x => if (t =? x) then (match rec with [] => K x | _ => K x ++ [rec] end) else K x.

Lemma save_head_ok db p size s t b l segs rec c r :
  tb_rep db size b l segs -> tb_chunks b = c :: r -> chunk_fits c rec = true -> rec_ok db rec ->
  (p <> PGrow -> length segs = 1) ->
  exists b', save_head s t b rec = Some (mktr (upd (tr_buf s) t b') (tr_dropped s)) /\
    exists segs', tb_rep db size b' (match rec with [] => l | _ => l ++ [rec] end) segs' /\ (p <> PGrow -> length segs' = 1).
Proof.
  intros (HL & Hne & F & Fs) Hc Hf Hr Hp. unfold save_head. rewrite Hc.
  destruct rec as [|e rec0].
  - cbn [chunk_save]. exists (mktb (tb_stopped b) (tb_retired b) (c :: r)). split; [reflexivity|]. exists segs. split; [|exact Hp].
    split; [exact HL|]. cbn [tb_chunks]. rewrite <- Hc. auto.
  - set (rec := e :: rec0) in *. rewrite Hc in F, Fs.
    inversion F as [|c0 y r0 rsegs Hcy Frest E1 E2]; subst. inversion Fs as [|? ? Hcs Fsr]; subst.
    destruct (chunk_save_rep db c y rec Hcy Hr Hf) as (c' & -> & Hc' & Hsz); [discriminate|].
    exists (mktb (tb_stopped b) (tb_retired b) (c' :: r)). split; [reflexivity|].
    assert (Es : segs = rev rsegs ++ [y]) by (rewrite <- (rev_involutive segs), <- E2; reflexivity).
    exists (rev rsegs ++ [y ++ [rec]]). split.
    + split; [|split; [discriminate|split]].
      * rewrite Es, !concat_app. simpl. rewrite !app_nil_r, app_assoc. reflexivity.
      * rewrite rev_app_distr, rev_involutive. constructor; assumption.
      * constructor; [exact Hsz|exact Fsr].
    + intro Hg. specialize (Hp Hg). rewrite Es, app_length in Hp. rewrite app_length. simpl in *. lia.
Qed.

Lemma fits_new size rec : (10 + N.of_nat (length rec) * 30 < size)%N -> chunk_fits (chunk_new size) rec = true.
Proof. intro H. unfold chunk_fits, chunk_new. cbn [ck_data ck_size length]. apply N.ltb_lt. unfold MAX_PACKED. lia. Qed.

Lemma inv_upd db p size s K t b' rec : inv db p size s K ->
  (exists segs', tb_rep db size b' (match rec with [] => K t | _ => K t ++ [rec] end) segs' /\ (p <> PGrow -> length segs' = 1)) ->
  inv db p size (mktr (upd (tr_buf s) t b') (tr_dropped s)) (kadd K t rec).
Proof.
  intros I H x. cbn [tr_buf]. unfold kadd. destruct (Nat.eqb_spec t x) as [->|N].
  - rewrite upd_same. exact H.
  - rewrite upd_other by congruence. apply I.
Qed.

Lemma inv_upd_same db p size s K t b b' : inv db p size s K -> tr_buf s t = Some b -> tb_chunks b' = tb_chunks b ->
  inv db p size (mktr (upd (tr_buf s) t b') (tr_dropped s)) K.
Proof.
  intros I E C x. cbn [tr_buf]. destruct (Nat.eq_dec x t) as [->|N].
  - rewrite upd_same. specialize (I t). rewrite E in I. destruct I as (segs & (A1 & A2 & A3 & A4) & B).
    exists segs. split; [|exact B]. unfold tb_rep. rewrite C. auto.
  - rewrite upd_other by congruence. apply I.
Qed.

Lemma snap_in_ok db p size s K t b rec : p <> PFlush -> inv db p size s K -> tr_buf s t = Some b ->
  rec_ok db rec -> (p = PGrow -> (10 + N.of_nat (length rec) * 30 < size)%N) ->
  exists s' o, snap_in p size s t b rec = Some (s', o) /\
    tr_dropped s' = tr_dropped s + (match o with ODropped => 1 | _ => 0 end) /\
    (p = PGrow -> o <> OLost) /\ o <> ONone /\
    inv db p size s' (match o with OStored => kadd K t rec | _ => K end).
Proof.
  intros Hp I E Hr Hfit. unfold snap_in.
  destruct (tb_stopped b) eqn:St.
  - do 2 eexists. split; [reflexivity|]. cbn [tr_dropped tr_buf]. split; [lia|]. split; [intros; discriminate|]. split; [discriminate|exact I].
  - assert (Ib := I t). rewrite E in Ib. destruct Ib as (segs & R & Hone).
    assert (R' := R). destruct R' as (HL & Hne & F & Fs).
    destruct (tb_chunks b) as [|c r] eqn:Ec; [contradiction|].
    destruct (chunk_fits c rec) eqn:Fit.
    + destruct (save_head_ok db p size s t b (K t) segs rec c r R Ec Fit Hr Hone) as (b' & -> & H).
      cbn [option_map]. do 2 eexists. split; [reflexivity|]. cbn [tr_dropped]. split; [lia|]. split; [discriminate|].
      split; [discriminate|]. apply inv_upd; assumption.
    + destruct p; [contradiction| |].
      * set (b1 := mktb false (tb_retired b) (chunk_new size :: c :: r)).
        destruct (save_head_ok db PGrow size s t b1 (K t) (segs ++ [[]]) rec (chunk_new size) (c :: r)) as (b' & -> & H); auto.
        { split; [rewrite concat_app; simpl; rewrite app_nil_r; exact HL|]. split; [discriminate|].
          split; [rewrite rev_app_distr; simpl; constructor; [apply chunk_new_rep|exact F]|].
          constructor; [reflexivity|exact Fs]. }
        { apply fits_new. auto. }
        { intro Q; contradiction. }
        cbn [option_map]. do 2 eexists. split; [reflexivity|]. cbn [tr_dropped]. split; [lia|]. split; [discriminate|].
        split; [discriminate|]. apply inv_upd; assumption.
      * do 2 eexists. split; [reflexivity|]. cbn [tr_dropped]. split; [lia|]. split; [discriminate|]. split; [discriminate|].
        eapply inv_upd_same; eauto.
Qed.

Lemma inv_new db p size s K t : inv db p size s K -> tr_buf s t = None ->
  inv db p size (mktr (upd (tr_buf s) t (new_tbuf size)) (tr_dropped s)) K.
Proof.
  intros I E x. cbn [tr_buf]. destruct (Nat.eq_dec x t) as [->|N].
  - rewrite upd_same. specialize (I t). rewrite E in I. exists [[]]. split; [|reflexivity].
    rewrite I. split; [reflexivity|]. split; [discriminate|]. split; [constructor; [apply chunk_new_rep|constructor]|].
    constructor; [reflexivity|constructor].
  - rewrite upd_other by congruence. apply I.
Qed.

Definition step_ok (db : metadb) (p : policy) (size : N) (o : trace_op) : Prop :=
  match o with
  | TSnap t a rec => rec_ok db rec /\ (p = PGrow -> (10 + N.of_nat (length rec) * 30 < size)%N)
  | _ => True
  end.

Lemma trace_step_ok db p size s K o : p <> PFlush -> inv db p size s K -> step_ok db p size o ->
  exists s' out, trace_step p size s o = Some (s', out) /\
    tr_dropped s' = tr_dropped s + (if is_dropped (o, out) then 1 else 0) /\
    (p = PGrow -> out <> OLost) /\ (is_snap o = true <-> out <> ONone) /\
    inv db p size s' (fun t => kept_step t (K t) (o, out)).
Proof.
  intros Hp I Ho. destruct o as [t a rec|t|t|t|t|]; cbn [trace_step].
  - destruct Ho as [Hr Hf]. destruct (tr_buf s t) as [b|] eqn:E.
    + destruct (snap_in_ok db p size s K t b rec Hp I E Hr Hf) as (s' & o & -> & D & G & NN & I').
      exists s', o. split; [reflexivity|]. unfold is_dropped. cbn [snd]. split; [destruct o; exact D|].
      split; [exact G|]. split; [cbn [is_snap]; tauto|]. destruct o; cbn [kept_step]; exact I'.
    + destruct a.
      * assert (I1 := inv_new db p size s K t I E).
        destruct (snap_in_ok db p size _ K t (new_tbuf size) rec Hp I1 (upd_same _ _ _) Hr Hf) as (s' & o & -> & D & G & NN & I').
        exists s', o. split; [reflexivity|]. unfold is_dropped. cbn [snd]. split; [destruct o; exact D|].
        split; [exact G|]. split; [cbn [is_snap]; tauto|]. destruct o; cbn [kept_step]; exact I'.
      * do 2 eexists. split; [reflexivity|]. unfold is_dropped. cbn [snd tr_dropped]. split; [lia|]. split; [discriminate|].
        split; [cbn; split; [discriminate|reflexivity]|]. exact I.
  - assert (Q : is_snap (TCreate t) = true <-> ONone <> ONone) by (cbn; split; [discriminate|intro X; contradiction]).
    destruct (tr_buf s t) as [b|] eqn:E; do 2 eexists; (split; [reflexivity|]); (split; [cbn; lia|]); (split; [discriminate|]); (split; [exact Q|]); cbn [kept_step].
    + exact I. + apply inv_new; assumption.
  - assert (Q : is_snap (TRelease t) = true <-> ONone <> ONone) by (cbn; split; [discriminate|intro X; contradiction]).
    destruct (tr_buf s t) as [b|] eqn:E; do 2 eexists; (split; [reflexivity|]); (split; [cbn; lia|]); (split; [discriminate|]); (split; [exact Q|]); cbn [kept_step].
    + eapply inv_upd_same; eauto. + exact I.
  - assert (Q : is_snap (TFlushStart t) = true <-> ONone <> ONone) by (cbn; split; [discriminate|intro X; contradiction]).
    destruct (tr_buf s t) as [b|] eqn:E; do 2 eexists; (split; [reflexivity|]); (split; [cbn; lia|]); (split; [discriminate|]); (split; [exact Q|]); cbn [kept_step].
    + eapply inv_upd_same; eauto. + exact I.
  - assert (Q : is_snap (TFlushEnd t) = true <-> ONone <> ONone) by (cbn; split; [discriminate|intro X; contradiction]).
    destruct (tr_buf s t) as [b|] eqn:E; do 2 eexists; (split; [reflexivity|]); (split; [cbn; lia|]); (split; [discriminate|]); (split; [exact Q|]); cbn [kept_step].
    + eapply inv_upd_same; eauto. + exact I.
  - do 2 eexists. split; [reflexivity|]. split; [cbn; lia|]. split; [discriminate|].
    split; [cbn; split; [discriminate|intro X; contradiction]|]. cbn [kept_step].
    intro t. cbn [tr_buf]. specialize (I t). destruct (tr_buf s t) as [b|]; [|reflexivity].
    destruct (tb_retired b); [reflexivity|]. destruct I as (segs & (HL & Hne & F & Fs) & Hone).
    destruct (tb_chunks b) as [|c r]; [contradiction|]. inversion Fs as [|? ? Hc Hrest]; subst.
    exists [[]]. split; [|reflexivity]. split; [reflexivity|]. split; [discriminate|].
    split; [constructor; [apply chunk_new_rep|constructor]|]. constructor; [reflexivity|constructor].
Qed.

Definition lost_free (tr : list (trace_op * outcome)) : Prop := forall e, In e tr -> snd e <> OLost.

Lemma trace_run_ok db p size ops : p <> PFlush -> Forall (step_ok db p size) ops -> forall s K, inv db p size s K ->
  exists s' tr, trace_run p size s ops = Some (s', tr) /\ map fst tr = ops /\
    tr_dropped s' = tr_dropped s + count is_dropped tr /\
    (p = PGrow -> lost_free tr) /\
    (forall e, In e tr -> is_snap (fst e) = true <-> snd e <> ONone) /\
    inv db p size s' (fun t => fold_left (kept_step t) tr (K t)).
Proof.
  intros Hp F. induction F as [|o ops Ho F IH]; intros s K I.
  - exists s, []. cbn. split; [reflexivity|]. split; [reflexivity|]. split; [lia|]. split; [intros _ e []|]. split; [intros e []|exact I].
  - destruct (trace_step_ok db p size s K o Hp I Ho) as (s1 & out & E1 & D1 & G1 & S1 & I1).
    destruct (IH s1 _ I1) as (s2 & tr & E2 & M2 & D2 & G2 & S2 & I2).
    exists s2, ((o, out) :: tr). cbn [trace_run]. rewrite E1, E2. split; [reflexivity|].
    split; [cbn; rewrite M2; reflexivity|]. split.
    { unfold count in *. cbn [filter]. destruct (is_dropped (o, out)); cbn [length]; lia. }
    split. { intros Hg e [<-|He]; [exact (G1 Hg)|exact (G2 Hg e He)]. }
    split. { intros e [<-|He]; [exact S1|exact (S2 e He)]. }
    exact I2.
Qed.

Lemma flush_chunks_rep db l : forall segs, Forall2 (chunk_rep db) l segs -> flush_chunks db l = Some (concat segs).
Proof.
  induction l as [|c l IH]; intros segs F; inversion F as [|? y ? ys H1 H2]; subst; [reflexivity|].
  cbn [flush_chunks concat]. rewrite (chunk_rep_flush db c y H1), (IH ys H2). reflexivity.
Qed.

Lemma inv_init db p size : inv db p size trace_init (fun _ => []).
Proof. intro t. reflexivity. Qed.

(* main lemma *)
Lemma trace_conservation db p size ops : p = PGrow \/ p = PStop -> ops_ok db ops -> (p = PGrow -> ops_fit size ops) ->
  exists s tr, trace_run p size trace_init ops = Some (s, tr) /\ map fst tr = ops /\
    tr_dropped s = count is_dropped tr /\
    (p = PGrow -> forall e, In e tr -> snd e <> OLost) /\
    (forall e, In e tr -> is_snap (fst e) = true <-> snd e <> ONone) /\
    forall t, exists segs, concat segs = kept t tr /\ flush_out db s t = Some (concat (rev segs)) /\
                           (p = PStop -> length segs <= 1).
Proof.
  intros Hp Hok Hfit.
  assert (F : Forall (step_ok db p size) ops).
  { apply Forall_forall. intros o Ho. destruct o as [t a rec| | | | |]; cbn [step_ok]; try exact I.
    split; [exact (Hok t a rec Ho)|]. intro Hg. exact (Hfit Hg t a rec Ho). }
  destruct (trace_run_ok db p size ops) with (s := trace_init) (K := fun _ : nat => @nil (list entry))
    as (s & tr & E & M & D & G & S & I); [destruct Hp; subst; discriminate|exact F|apply inv_init|].
  exists s, tr. split; [exact E|]. split; [exact M|]. split; [exact D|]. split; [exact G|]. split; [exact S|].
  intro t. specialize (I t). cbv beta in I. unfold flush_out. change (fold_left (kept_step t) tr []) with (kept t tr) in I. destruct (tr_buf s t) as [b|].
  - destruct I as (segs & (HL & _ & F2 & _) & Hone). exists segs. split; [exact HL|].
    split; [apply flush_chunks_rep; exact F2|]. intros ->. rewrite Hone by discriminate. lia.
  - exists []. rewrite I. split; [reflexivity|]. split; [reflexivity|]. simpl. lia.
Qed.
