(* C51: cross-process aggregation (aggregate_over_mpi) *)
From Coq Require Import Permutation.
From Verif Require Import Base VariantModel VariantSpec TreeModel MpiModel MpiProofs MpiProofs2.
Open Scope nat_scope.

(* ---------------- specification ---------------- *)
Definition finished {L M} (w : world L M) : Prop := forall r, w_prog w r = [].
(* "Rep a x": rank state a (database and aggregator) stands for the input records x.
   merging the packed contents of b into a stands for the records of both *)
Definition merges {A NB SB IM X} (pack : A -> NB * SB * A) (ncount : NB -> N) (scount : SB -> N) (merge_nodes : A -> N -> NB -> A * IM) (merge_snaps : A -> IM -> N -> SB -> A) (Rep : A -> list X -> Prop) : Prop :=
  forall a b x y nb sb b' a1 i, Rep a x -> Rep b y -> pack b = (nb, sb, b') -> merge_nodes a (ncount nb) nb = (a1, i) -> Rep (merge_snaps a1 i (scount sb) sb) (x ++ y).

Section T.
Context {A NB SB IM : Type} (pack : A -> NB * SB * A) (ncount : NB -> N) (scount : SB -> N) (merge_nodes : A -> N -> NB -> A * IM) (merge_snaps : A -> IM -> N -> SB -> A).
Notation run := (mrun (@do_send A NB SB IM pack ncount scount) (@do_recv A NB SB IM merge_nodes merge_snaps)).
Notation step := (mstep (@do_send A NB SB IM pack ncount scount) (@do_recv A NB SB IM merge_nodes merge_snaps)).

(* No execution gets stuck, even if MPI never buffers a message, and all are of bounded length *)
Theorem C51_no_deadlock size (a : nat -> A) k w : run k (mpi_start size a) w -> finished w \/ exists kind w', kind <> Buffered /\ step kind w w'.
Proof.
  intro H. destruct (rel_run _ _ _ _ _ _ _ (start_rel pack ncount scount merge_nodes merge_snaps size a) H) as (G & R & _). destruct G as [|i G]; [left; intro r; rewrite (r_prog _ _ _ _ _ R r); auto|right]. eapply rel_progress; eauto.
Qed.
Theorem C51_terminates size (a : nat -> A) : exists bound, forall k w, run k (mpi_start size a) w -> k <= bound.
Proof.
  exists (weight (@glob (@msg NB SB) size size 1)). intros k w H. destruct (rel_run _ _ _ _ _ _ _ (start_rel pack ncount scount merge_nodes merge_snaps size a) H) as (G & _ & W). lia.
Qed.
(* All executions end in the same state, with no message left over *)
Theorem C51_deterministic size (a : nat -> A) k1 k2 w1 w2 : run k1 (mpi_start size a) w1 -> run k2 (mpi_start size a) w2 -> finished w1 -> finished w2 ->
  (forall r, w_mem w1 r = w_mem w2 r) /\ (forall s d, w_chan w1 s d = []).
Proof.
  intros H1 H2 F1 F2. destruct (rel_run _ _ _ _ _ _ _ (start_rel pack ncount scount merge_nodes merge_snaps size a) H1) as (G1 & R1 & _). destruct (rel_run _ _ _ _ _ _ _ (start_rel pack ncount scount merge_nodes merge_snaps size a) H2) as (G2 & R2 & _).
  destruct (rel_end _ _ _ _ _ R1 F1) as (-> & E1). destruct (rel_end _ _ _ _ _ R2 F2) as (-> & E2). split; [intro r; rewrite <- (E1 r), <- (E2 r); auto|]. intros s d. rewrite (r_chan _ _ _ _ _ R1). auto.
Qed.
(* Rank 0 ends up with the input of every rank exactly once, in rank order *)
Theorem C51_result {X} (Rep : A -> list X -> Prop) (input : nat -> list X) size (a : nat -> A) k w :
  merges pack ncount scount merge_nodes merge_snaps Rep -> 0 < size -> (forall r, r < size -> Rep (a r) (input r)) ->
  run k (mpi_start size a) w -> finished w -> Rep (l_a (w_mem w 0)) (flat_map input (seq 0 size)).
Proof.
  intros HM Hs Ha H F. destruct (rel_run _ _ _ _ _ _ _ (start_rel pack ncount scount merge_nodes merge_snaps size a) H) as (G & R & _). destruct (rel_end _ _ _ _ _ R F) as (-> & E). rewrite <- (E 0).
  apply glob_rep; auto; [|apply pow_gt|].
  - intros x y u v H1 H2. unfold combine. destruct (pack y) as ((nb, sb), b') eqn:Ep. destruct (merge_nodes x (ncount nb) nb) as (a1, i) eqn:Em. eapply HM; eauto.
  - intros r Hr _. cbn [l_a]. rewrite Nat.min_l by lia. cbn [seq flat_map]. rewrite app_nil_r. auto.
Qed.
End T.

(* Every rank but 0 first receives the data of some other ranks and then sends its data once, to a
   smaller rank; rank 0 only receives *)
Lemma no_more_sends n r : forall fuel s, 0 < s -> r mod s <> 0 -> steps fuel n r s = [].
Proof.
  induction fuel as [|f IH]; intros s Hs Hm; cbn [steps]; auto. destruct (s <? n); auto. assert (H2 : r mod (2 * s) <> 0) by (intro E; apply Hm; apply mod_zero; auto).
  rewrite IH by (auto; lia). unfold body. rewrite (proj2 (Nat.eqb_neq _ _) Hm), (proj2 (Nat.eqb_neq _ _) H2). auto.
Qed.
Lemma steps_shape n r : 0 < r -> r < n -> forall fuel s, 0 < s -> r mod s = 0 -> n <= s * 2 ^ fuel -> exists srcs p, steps fuel n r s = flat_map receive_and_merge srcs ++ pack_and_send p /\ p < r /\ Forall (fun q => r < q < n) srcs.
Proof.
  intros H0 Hn. induction fuel as [|f IH]; intros s Hs Hm HF; cbn [steps].
  - exfalso. cbn [Nat.pow] in HF. rewrite Nat.mod_small in Hm; lia.
  - assert (Hsn : s < n). { destruct (Nat.lt_ge_cases s n); auto. rewrite Nat.mod_small in Hm; lia. }
    rewrite (proj2 (Nat.ltb_lt s n) Hsn). unfold body. rewrite Hm. cbn [Nat.eqb andb]. destruct (Nat.eqb_spec (r mod (2 * s)) 0) as [E|E]; cbn [negb andb].
    + destruct (IH (2 * s)) as (srcs & p & -> & Hp & Hq); [lia|auto|cbn [Nat.pow] in HF; lia|]. rewrite app_nil_r. destruct (Nat.ltb_spec (r + s) n).
      * exists (r + s :: srcs), p. cbn [flat_map]. rewrite <- app_assoc. split; auto. split; auto. constructor; auto. lia.
      * exists srcs, p. auto.
    + rewrite no_more_sends by (auto; lia). exists [], (r - s). rewrite app_nil_r. cbn [flat_map app]. split; auto. split; [lia|constructor].
Qed.
Lemma steps_root n : forall fuel s, 0 < s -> exists srcs, steps fuel n 0 s = flat_map receive_and_merge srcs /\ Forall (fun q => 0 < q < n) srcs.
Proof.
  induction fuel as [|f IH]; intros s Hs; cbn [steps]; [exists []; auto|]. destruct (s <? n); [|exists []; auto]. destruct (IH (2 * s)) as (srcs & -> & Hq); [lia|]. unfold body. rewrite !Nat.mod_0_l by lia. cbn [Nat.eqb andb negb]. rewrite app_nil_r.
  destruct (Nat.ltb_spec (0 + s) n); [exists (0 + s :: srcs); split; auto; constructor; auto; lia|exists srcs; auto].
Qed.
Theorem C51_each_rank_sends_once size rank : rank < size ->
  exists srcs, Forall (fun q => rank < q < size) srcs /\
    if Nat.eqb rank 0 then aggregate_over_mpi size rank = flat_map receive_and_merge srcs
    else exists dest, dest < rank /\ aggregate_over_mpi size rank = flat_map receive_and_merge srcs ++ pack_and_send dest.
Proof.
  intro H. destruct (Nat.eqb_spec rank 0) as [->|Hr].
  - destruct (steps_root size size 1) as (srcs & E & Hq); [lia|]. exists srcs. auto.
  - destruct (steps_shape size rank ltac:(lia) H size 1) as (srcs & p & E & Hp & Hq); [lia|apply Nat.mod_1_r|apply pow_gt|]. exists srcs. split; auto. exists p. auto.
Qed.

(* ---------------- the node buffer ---------------- *)
Open Scope N_scope.
(* a metadata database: references exist and lead downwards *)
Definition db_tree (db : N -> option tnode) (rank : N -> nat) : Prop :=
  forall i n, db i = Some n -> i <> INV_ID -> n_id n = i /\ (n_attr n < i -> n_attr n <> INV_ID /\ (exists m, db (n_attr n) = Some m) /\ (rank (n_attr n) < rank i)%nat) /\
    (forall p, n_par n = Some p -> p <> INV_ID -> (exists m, db p = Some m) /\ (rank p < rank i)%nat).
Definition root_ok (db : N -> option tnode) : Prop := forall n, db INV_ID = Some n -> n_id n = INV_ID.
(* a list of nodes a receiver can add one after the other: everything a node refers to comes before it *)
Definition importable (buf : list tnode) : Prop := forall pre n post, buf = pre ++ n :: post ->
  ~ In (n_id n) (map n_id pre) /\ (forall p, n_par n = Some p -> p <> INV_ID -> In p (map n_id pre)) /\ (n_attr n < n_id n -> In (n_attr n) (map n_id pre)).
Definition nodes_of_db (db : N -> option tnode) (buf : list tnode) : Prop := forall n, In n buf -> db (n_id n) = Some n.

Lemma in_buf_iff i buf : in_buf i buf = true <-> In i (map n_id buf).
Proof. unfold in_buf. rewrite existsb_exists, in_map_iff. split; intros (n & H1 & H2); exists n; [apply N.eqb_eq in H2|]; auto. subst. split; auto. apply N.eqb_refl. Qed.
Lemma importable_nil : importable []. Proof. intros pre n post E. destruct pre; discriminate. Qed.
Lemma importable_snoc buf n : importable buf -> ~ In (n_id n) (map n_id buf) -> (forall p, n_par n = Some p -> p <> INV_ID -> In p (map n_id buf)) -> (n_attr n < n_id n -> In (n_attr n) (map n_id buf)) -> importable (buf ++ [n]).
Proof.
  intros H H1 H2 H3 pre m post E. destruct (app_split buf [] pre post n m E) as [(<- & <- & _)|[(X & _ & E2)|(X & -> & _)]]; auto; [destruct X; discriminate|]. apply (H pre m X). auto.
Qed.
Lemma append_ok db rank : db_tree db rank -> root_ok db -> forall fuel i buf buf', importable buf -> nodes_of_db db buf -> append_path fuel db (db i) buf = Some buf' ->
  importable buf' /\ nodes_of_db db buf' /\ (exists ext, buf' = buf ++ ext) /\ (i <> INV_ID -> (exists n, db i = Some n) -> In i (map n_id buf')).
Proof.
  intros HT HR. induction fuel as [|f IH]; intros i buf buf' HI HN H; [discriminate|]. cbn [append_path] in H. destruct (db i) as [n|] eqn:En.
  2:{ injection H as <-. split; auto. split; auto. split; [exists []; rewrite app_nil_r; auto|]. intros _ (n & E). discriminate. }
  destruct (N.eq_dec i INV_ID) as [->|Hi].
  { rewrite (HR _ En), N.eqb_refl in H. cbn [orb] in H. injection H as <-. split; auto. split; auto. split; [exists []; rewrite app_nil_r; auto|]. intro X. exfalso. auto. }
  destruct (HT i n En Hi) as (Eid & Hat & Hpar). rewrite Eid in H. rewrite (proj2 (N.eqb_neq i INV_ID) Hi) in H. cbn [orb] in H. destruct (in_buf i buf) eqn:Ein.
  { injection H as <-. split; auto. split; auto. split; [exists []; rewrite app_nil_r; auto|]. intros _ _. apply in_buf_iff. auto. }
  destruct (if n_attr n <? i then append_path f db (db (n_attr n)) buf else Some buf) as [b1|] eqn:E1; [|discriminate].
  assert (X1 : importable b1 /\ nodes_of_db db b1 /\ (exists ext, b1 = buf ++ ext) /\ (n_attr n < i -> In (n_attr n) (map n_id b1))).
  { destruct (N.ltb_spec (n_attr n) i) as [Hlt|Hge].
    - destruct (IH _ _ _ HI HN E1) as (A1 & A2 & A3 & A4). destruct (Hat Hlt) as (B1 & B2 & _). auto.
    - injection E1 as <-. split; auto. split; auto. split; [exists []; rewrite app_nil_r; auto|lia]. }
  destruct X1 as (I1 & N1 & (e1 & X1) & At1).
  destruct (append_path f db match n_par n with Some p => db p | None => None end b1) as [b2|] eqn:E2; [|discriminate].
  assert (X2 : importable b2 /\ nodes_of_db db b2 /\ (exists ext, b2 = b1 ++ ext) /\ (forall p, n_par n = Some p -> p <> INV_ID -> In p (map n_id b2))).
  { destruct (n_par n) as [p|] eqn:Ep.
    - destruct (IH _ _ _ I1 N1 E2) as (A1 & A2 & A3 & A4). split; auto. split; auto. split; auto. intros p' E Hp. injection E as <-. destruct (Hpar p eq_refl Hp). auto.
    - destruct f; [discriminate|]. cbn [append_path] in E2. injection E2 as <-. split; auto. split; auto. split; [exists []; rewrite app_nil_r; auto|]. intros p' E. discriminate. }
  destruct X2 as (I2 & N2 & (e2 & X2) & Par2). injection H as <-. destruct (in_buf i b2) eqn:Ei2.
  - split; auto. split; auto. split; [exists (e1 ++ e2); rewrite X2, X1, app_assoc; auto|]. intros _ _. apply in_buf_iff. auto.
  - split; [|split; [|split]].
    + apply importable_snoc; auto; rewrite Eid.
      * intro Z. apply in_buf_iff in Z. congruence.
      * intro Hlt. rewrite X2, map_app. apply in_or_app. left. auto.
    + intros m Hm. apply in_app_or in Hm. destruct Hm as [Hm|[<-|[]]]; auto. rewrite Eid. auto.
    + exists (e1 ++ e2 ++ [n]). rewrite X2, X1, !app_assoc. auto.
    + intros _ _. rewrite map_app. apply in_or_app. right. left. auto.
Qed.
Lemma append_some db rank : db_tree db rank -> root_ok db -> forall fuel i buf, (S (S (rank i)) < fuel)%nat -> exists buf', append_path fuel db (db i) buf = Some buf'.
Proof.
  intros HT HR. induction fuel as [|f IH]; intros i buf Hf; [lia|]. cbn [append_path]. destruct (db i) as [n|] eqn:En; [|eauto]. destruct (N.eq_dec i INV_ID) as [->|Hi]; [rewrite (HR _ En), N.eqb_refl; cbn [orb]; eauto|].
  destruct (HT i n En Hi) as (Eid & Hat & Hpar). rewrite Eid, (proj2 (N.eqb_neq i INV_ID) Hi). cbn [orb]. destruct (in_buf i buf); [eauto|].
  assert (X1 : exists b1, (if n_attr n <? i then append_path f db (db (n_attr n)) buf else Some buf) = Some b1). { destruct (N.ltb_spec (n_attr n) i) as [Hlt|]; [|eauto]. destruct (Hat Hlt) as (_ & _ & Hr). apply IH. lia. }
  destruct X1 as (b1 & ->). assert (X2 : exists b2, append_path f db match n_par n with Some p => db p | None => None end b1 = Some b2).
  { destruct (n_par n) as [p|] eqn:Ep; [|destruct f; [lia|cbn [append_path]; eauto]]. destruct (N.eq_dec p INV_ID) as [->|Hp]; [|destruct (Hpar p eq_refl Hp) as (_ & Hr); apply IH; lia].
    destruct f; [lia|]. cbn [append_path]. destruct (db INV_ID) as [r|] eqn:Er; [|eauto]. rewrite (HR _ Er), N.eqb_refl. cbn [orb]. eauto. }
  destruct X2 as (b2 & ->). eauto.
Qed.
(* The nodes sent for any number of records can be added by the receiver one after the other, are
   sent once each, come from the sender's database and include the node of every entry *)
Theorem C51_nodes_importable db rank : db_tree db rank -> root_ok db -> forall recs fuel buf,
  fold_left (fun b r => match b with Some b => append_record fuel db r b | None => None end) recs (Some []) = Some buf ->
  importable buf /\ NoDup (map n_id buf) /\ nodes_of_db db buf /\ (forall r i n, In r recs -> In i r -> i <> INV_ID -> db i = Some n -> In n buf).
Proof.
  intros HT HR recs fuel buf H.
  assert (G : forall r b b', importable b -> nodes_of_db db b -> append_record fuel db r b = Some b' -> importable b' /\ nodes_of_db db b' /\ (exists ext, b' = b ++ ext) /\ (forall i n, In i r -> i <> INV_ID -> db i = Some n -> In n b')).
  { induction r as [|i r IH]; intros b b' HI HN E; cbn [append_record] in E.
    - injection E as <-. split; auto. split; auto. split; [exists []; rewrite app_nil_r; auto|]. intros i n [].
    - destruct (append_path fuel db (db i) b) as [b1|] eqn:E1; [|discriminate]. destruct (append_ok db rank HT HR _ _ _ _ HI HN E1) as (I1 & N1 & (e1 & X1) & C1). destruct (IH _ _ I1 N1 E) as (I2 & N2 & (e2 & X2) & C2).
      split; auto. split; auto. split; [exists (e1 ++ e2); rewrite X2, X1, app_assoc; auto|]. intros j n [->|Hj] Hn Ej; [|eapply C2; eauto]. assert (Z : In j (map n_id b1)) by (apply C1; eauto). apply in_map_iff in Z. destruct Z as (m & Em & Hm).
      pose proof (N1 m Hm) as Em2. rewrite Em, Ej in Em2. injection Em2 as ->. rewrite X2. apply in_or_app. auto. }
  assert (F : forall recs b, importable b -> nodes_of_db db b -> fold_left (fun b r => match b with Some b => append_record fuel db r b | None => None end) recs (Some b) = Some buf ->
     importable buf /\ nodes_of_db db buf /\ (exists ext, buf = b ++ ext) /\ (forall r i n, In r recs -> In i r -> i <> INV_ID -> db i = Some n -> In n buf)).
  { clear recs H. induction recs as [|r recs IH]; intros b HI HN E; cbn [fold_left] in E.
    - injection E as <-. split; auto. split; auto. split; [exists []; rewrite app_nil_r; auto|]. intros r i n [].
    - destruct (append_record fuel db r b) as [b1|] eqn:E1.
      + destruct (G _ _ _ HI HN E1) as (I1 & N1 & (e1 & X1) & C1). destruct (IH _ I1 N1 E) as (I2 & N2 & (e2 & X2) & C2). split; auto. split; auto. split; [exists (e1 ++ e2); rewrite X2, X1, app_assoc; auto|].
        intros r' i n [->|Hr] Hi Hn Ei; [|eapply C2; eauto]. rewrite X2. apply in_or_app. left. eapply C1; eauto.
      + exfalso. clear -E. induction recs as [|r recs IH]; [discriminate|auto]. }
  destruct (F recs [] importable_nil) as (A1 & A2 & _ & A3); auto; [intros n []|]. split; auto. split; [|auto].
  clear -A1. assert (K : forall b, importable b -> NoDup (map n_id b)).
  { induction b as [|n b IH] using rev_ind; intro H; [constructor|]. rewrite map_app. cbn [map]. apply (Permutation_NoDup (Permutation_cons_append (map n_id b) (n_id n))). constructor.
    - destruct (H b n [] eq_refl) as (Z & _). auto.
    - apply IH. intros pre m post E. apply (H pre m (post ++ [n])). rewrite E, <- app_assoc. auto. }
  auto.
Qed.
(* ... and packing terminates *)
Theorem C51_packing_terminates db rank : db_tree db rank -> root_ok db -> forall r buf, exists f0, forall f, (f0 <= f)%nat -> exists buf', append_record f db r buf = Some buf'.
Proof.
  intros HT HR r buf. exists (S (S (S (list_max (map rank r))))). intros f Hf.
  assert (K : Forall (fun i => (S (S (rank i)) < f)%nat) r). { apply Forall_forall. intros i Hi. pose proof (proj1 (list_max_le (map rank r) (list_max (map rank r))) (Nat.le_refl _)) as B. rewrite Forall_forall in B. specialize (B (rank i) (in_map rank _ _ Hi)). lia. }
  revert buf. induction K as [|i r Hi HK IH]; intro buf; cbn [append_record]; [eauto|]. destruct (append_some db rank HT HR f i buf Hi) as (b & ->). apply IH. cbn [map list_max fold_right] in Hf. fold (list_max (map rank r)) in Hf. lia.
Qed.

(* ---------------- examples ---------------- *)
(* ranks that keep plain lists of records: packing sends the list, merging appends it *)
Definition xpack (a : list N) : unit * list N * list N := (tt, a, a).
Definition xmn (a : list N) (_ : N) (_ : unit) : list N * unit := (a, tt).
Definition xms (a : list N) (_ : unit) (_ : N) (b : list N) : list N := a ++ b.
Example C51_ex_merges : merges xpack (fun _ => 0) (fun b => N.of_nat (length b)) xmn xms (fun a x => a = x).
Proof. intros a b x y nb sb b' a1 i -> -> E1 E2. unfold xpack in E1. injection E1 as <- <- <-. unfold xmn in E2. injection E2 as <- <-. auto. Qed.
(* six ranks: who talks to whom *)
Example C51_ex_programs : map (aggregate_over_mpi 6) [0; 2; 4; 5]%nat =
  [receive_and_merge 1 ++ receive_and_merge 2 ++ receive_and_merge 4; receive_and_merge 3 ++ pack_and_send 0; receive_and_merge 5 ++ pack_and_send 0; pack_and_send 4]%nat.
Proof. reflexivity. Qed.
Lemma run_app {L M} (f : nat -> L -> M * L) g n (w1 w2 w3 : world L M) k : mstep f g k w1 w2 -> mrun f g n w2 w3 -> mrun f g (S n) w1 w3.
Proof. intros H R. induction R as [w|n k' a b c R IH S]; [econstructor; [constructor|eauto]|]. econstructor; [apply IH; auto|eauto]. Qed.
(* a complete execution for two ranks in which MPI buffers the first message and waits for the receive in all others *)
Example C51_ex_run : exists k w, mrun (do_send xpack (fun _ => 0) (fun b => N.of_nat (length b))) (do_recv xmn xms) k (mpi_start 2 (fun r => if Nat.eqb r 0 then [1; 2] else [3])) w /\ finished w /\ l_a (w_mem w 0%nat) = [1; 2; 3].
Proof.
  eexists. eexists. split.
  - eapply run_app; [eapply ms_buffered with (r := 1%nat); reflexivity|].
    eapply run_app; [eapply ms_receive with (r := 0%nat); reflexivity|].
    eapply run_app; [eapply ms_rendezvous with (s := 1%nat) (d := 0%nat); [discriminate|reflexivity|reflexivity|reflexivity|reflexivity]|].
    eapply run_app; [eapply ms_rendezvous with (s := 1%nat) (d := 0%nat); [discriminate|reflexivity|reflexivity|reflexivity|reflexivity]|].
    eapply run_app; [eapply ms_rendezvous with (s := 1%nat) (d := 0%nat); [discriminate|reflexivity|reflexivity|reflexivity|reflexivity]|]. constructor.
  - split; [intro r; destruct r as [|[|r]]; reflexivity|reflexivity].
Qed.
(* an attribute (node 12, below the type node 3) and a region path: nodes 13 and 14 *)
Definition xdb (i : N) : option tnode :=
  if i =? 14 then Some (mkn 14 12 (VStr [98]) (Some 13)) else if i =? 13 then Some (mkn 13 12 (VStr [97]) (Some INV_ID)) else if i =? 12 then Some (mkn 12 8 (VStr [114]) (Some 3))
  else if i =? 8 then Some (mkn 8 8 (VStr lit_attr_name) (Some 3)) else if i =? 3 then Some (mkn 3 9 (VType T_STRING) (Some INV_ID)) else None.
Example C51_ex_tree : db_tree xdb N.to_nat /\ root_ok xdb /\ option_map (map n_id) (append_record 10 xdb [14; 13; 12] []) = Some [3; 8; 12; 13; 14].
Proof.
  split; [|split; [intros n H; discriminate|reflexivity]]. intros i n H Hi. unfold xdb in H.
  destruct (N.eqb_spec i 14) as [->|]; [|destruct (N.eqb_spec i 13) as [->|]; [|destruct (N.eqb_spec i 12) as [->|]; [|destruct (N.eqb_spec i 8) as [->|]; [|destruct (N.eqb_spec i 3) as [->|]; [|discriminate]]]]]; injection H as <-; cbn [n_id n_attr n_par];
    (split; [reflexivity|]); (split; [intro Hl; first [lia|split; [discriminate|split; [eexists; reflexivity|lia]]]|intros p E Hp; injection E as <-; first [exfalso; apply Hp; reflexivity|split; [eexists; reflexivity|lia]]]).
Qed.
Print Assumptions C51_result.
