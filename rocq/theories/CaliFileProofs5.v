(* Proofs: sequences of write calls *)
From Verif Require Import Base VariantModel VariantSpec NamesModel TextModel TextProofs TextProofs2 TreeModel TreeProofs CaliFileModel CaliFileProofs CaliFileProofs2 CaliFileProofs3 CaliFileProofs4.

(* CaliWriter::write_snapshot / write_globals calls; c_db: the metadata database at that time *)
Record call := mkcall { c_db : N -> option tnode; c_glob : bool; c_rec : list entry }.
Fixpoint write_calls (fuel : nat) (cs : list call) (w : writer) : option writer :=
  match cs with
  | [] => Some w
  | c :: r => match write_rec fuel (c_db c) (c_glob c) (c_rec c) w with Some w1 => write_calls fuel r w1 | None => None end
  end.
Definition w_init : writer := mkw [] [].
Lemma winv_init : winv w_init. Proof. split; [constructor|cbn; tauto]. Qed.

Lemma write_node_mono db f : forall id w w', write_node f db id w = Some w' -> write_node (S f) db id w = Some w'.
Proof.
  induction f as [|f IH]; intros id w w' H; [discriminate|]. remember (S f) as g eqn:Eg. cbn [write_node]. rewrite Eg in H. cbn [write_node] in H.
  destruct (id <? 11); auto. destruct (mem id (w_written w)); auto. destruct (db id) as [n|]; auto.
  destruct (write_node f db (n_attr n) w) as [w1|] eqn:E1; [|discriminate]. rewrite (IH _ _ _ E1). destruct (n_par n) as [p|]; auto. destruct (p =? INV_ID); auto.
  destruct (write_node f db p w1) as [w2|] eqn:E2; [|discriminate]. rewrite (IH _ _ _ E2). auto.
Qed.
Lemma write_node_mono' db f g id w w' : (f <= g)%nat -> write_node f db id w = Some w' -> write_node g db id w = Some w'.
Proof. induction 1; auto. intro H'. apply write_node_mono. auto. Qed.
Lemma write_entries_mono db f g : (f <= g)%nat -> forall rec w w', write_entries f db rec w = Some w' -> write_entries g db rec w = Some w'.
Proof.
  intros Hle. induction rec as [|e r IH]; intros w w' H; cbn [write_entries] in *; auto. destruct (write_node f db (entry_node e) w) as [w1|] eqn:E; [|discriminate].
  rewrite (write_node_mono' _ _ _ _ _ _ Hle E). auto.
Qed.
Lemma write_rec_mono db f g b rec w w' : (f <= g)%nat -> write_rec f db b rec w = Some w' -> write_rec g db b rec w = Some w'.
Proof. intros Hle. unfold write_rec. destruct (write_entries f db rec w) as [w1|] eqn:E; [|discriminate]. rewrite (write_entries_mono _ _ _ Hle _ _ _ E). auto. Qed.
Lemma write_calls_mono f g cs : (f <= g)%nat -> forall w w', write_calls f cs w = Some w' -> write_calls g cs w = Some w'.
Proof.
  intros Hle. induction cs as [|c r IH]; intros w w' H; cbn [write_calls] in *; auto. destruct (write_rec f (c_db c) _ _ w) as [w1|] eqn:E; [|discriminate].
  rewrite (write_rec_mono _ _ _ _ _ _ _ Hle E). auto.
Qed.
Lemma write_entries_some src rank : wf_src src rank -> forall rec w, exists f w', write_entries f src rec w = Some w'.
Proof.
  intros Hwf. induction rec as [|e r IH]; intros w; [exists 0%nat, w; reflexivity|].
  destruct (write_node_some src rank Hwf (S (S (S (rank (entry_node e))))) (entry_node e) w) as (w1 & E1); [lia|right; lia|].
  destruct (IH w1) as (f & w2 & E2). exists (Nat.max (S (S (S (rank (entry_node e))))) f), w2. cbn [write_entries].
  rewrite (write_node_mono' _ _ _ _ _ _ (Nat.le_max_l _ _) E1). apply (write_entries_mono _ f); [apply Nat.le_max_r|auto].
Qed.
Lemma write_calls_some cs : Forall (fun c => exists rank, wf_src (c_db c) rank) cs -> forall w, exists f w', write_calls f cs w = Some w'.
Proof.
  induction 1 as [|c r (rank & Hc) Hr IH]; intros w; [exists 0%nat, w; reflexivity|].
  destruct (write_entries_some (c_db c) rank Hc (c_rec c) w) as (f1 & w1 & E1).
  destruct (IH (mkw (w_written w1) (w_out w1 ++ [WRec (c_glob c) (refs_of (c_rec c)) (imms_of (c_rec c))]))) as (f2 & w2 & E2).
  exists (Nat.max f1 f2), w2. cbn [write_calls]. unfold write_rec. rewrite (write_entries_mono _ f1 _ (Nat.le_max_l _ _) _ _ _ E1). apply (write_calls_mono f2); [apply Nat.le_max_r|auto].
Qed.
(* node lines do not disturb the record lines *)
Definition recs_of (ls : list wline) : list (bool * list N * list (N * value)) := flat_map (fun l => match l with WRec g r i => [(g, r, i)] | _ => [] end) ls.
Lemma recs_app a b : recs_of (a ++ b) = recs_of a ++ recs_of b. Proof. apply flat_map_app. Qed.
Lemma write_node_recs db f : forall id w w', write_node f db id w = Some w' -> recs_of (w_out w') = recs_of (w_out w).
Proof.
  induction f as [|f IH]; intros id w w' H; [discriminate|]. cbn [write_node] in H. destruct (id <? 11); [injection H as <-; auto|]. destruct (mem id (w_written w)); [injection H as <-; auto|].
  destruct (db id) as [n|]; [|injection H as <-; auto]. destruct (write_node f db (n_attr n) w) as [w1|] eqn:E1; [|discriminate]. apply IH in E1.
  destruct (match n_par n with Some p => if p =? INV_ID then Some w1 else write_node f db p w1 | None => Some w1 end) as [w2|] eqn:E2; [|discriminate]. injection H as <-. cbn [w_out]. rewrite recs_app. cbn. rewrite app_nil_r.
  destruct (n_par n) as [p|]; [|congruence]. destruct (p =? INV_ID); [congruence|]. apply IH in E2. congruence.
Qed.
Lemma write_entries_recs db f : forall rec w w', write_entries f db rec w = Some w' -> recs_of (w_out w') = recs_of (w_out w).
Proof.
  induction rec as [|e r IH]; intros w w' H; cbn [write_entries] in H; [congruence|]. destruct (write_node f db (entry_node e) w) as [w1|] eqn:E; [|discriminate].
  apply write_node_recs in E. apply IH in H. congruence.
Qed.
Definition call_rec (c : call) := (c_glob c, refs_of (c_rec c), imms_of (c_rec c)).
Lemma write_calls_recs f cs : forall w w', write_calls f cs w = Some w' -> recs_of (w_out w') = recs_of (w_out w) ++ map call_rec cs.
Proof.
  induction cs as [|c r IH]; intros w w' H; cbn [write_calls] in H; [injection H as <-; cbn; rewrite app_nil_r; auto|].
  unfold write_rec in H. destruct (write_entries f (c_db c) (c_rec c) w) as [w1|] eqn:E; [|discriminate]. apply write_entries_recs in E. apply IH in H. rewrite H. cbn [w_out map]. rewrite recs_app, E, <- app_assoc. reflexivity.
Qed.
Lemma write_calls_inv f cs : Forall (fun c => (exists rank, wf_src (c_db c) rank) /\ rec_ok (c_db c) (c_rec c)) cs -> forall w w', winv w -> write_calls f cs w = Some w' ->
  winv w' /\ (forall n, In (WNode n) (w_out w') -> In (WNode n) (w_out w) \/ exists c, In c cs /\ 11 <= n_id n /\ c_db c (n_id n) = Some n).
Proof.
  induction 1 as [|c r ((rank & Hc) & Hrec) Hr IH]; intros w w' Hw H; cbn [write_calls] in H; [injection H as <-; auto|].
  destruct (write_rec f (c_db c) _ _ w) as [w1|] eqn:E; [|discriminate]. destruct (write_rec_inv (c_db c) rank Hc _ _ _ _ _ Hw Hrec E) as (W1 & _ & S1).
  destruct (IH _ _ W1 H) as (W2 & S2). split; auto. intros n Hn. destruct (S2 n Hn) as [Hn1|(c' & H1 & H2)]; [|right; exists c'; cbn; tauto].
  destruct (S1 n Hn1) as [?|?]; auto. right. exists c. cbn. tauto.
Qed.
(* closed, unfolded *)
Lemma closed_at ls : closed ls -> forall pre l post, ls = pre ++ l :: post ->
  match l with
  | WNode n => known_id pre (n_attr n) /\ (forall p, n_par n = Some p -> p = INV_ID \/ known_id pre p) /\ ~ In (n_id n) (wids pre)
  | WRec _ refs imms => Forall (known_id pre) refs /\ Forall (fun x => known_id pre (fst x)) imms
  end.
Proof.
  induction 1 as [|ls n Hc IH Ka Kp Knew|ls g refs imms Hc IH Kr Ki]; intros pre l post E.
  - destruct pre; discriminate.
  - destruct post as [|x post].
    + apply app_inj_tail in E. destruct E as (-> & <-). auto.
    + destruct (exists_last (l := x :: post)) as (post' & y & E'); [discriminate|]. rewrite E' in E.
      change (pre ++ l :: post' ++ [y]) with (pre ++ (l :: post') ++ [y]) in E. rewrite app_assoc in E. apply app_inj_tail in E. destruct E as (E & _). apply (IH _ _ _ E).
  - destruct post as [|x post].
    + apply app_inj_tail in E. destruct E as (-> & <-). auto.
    + destruct (exists_last (l := x :: post)) as (post' & y & E'); [discriminate|]. rewrite E' in E.
      change (pre ++ l :: post' ++ [y]) with (pre ++ (l :: post') ++ [y]) in E. rewrite app_assoc in E. apply app_inj_tail in E. destruct E as (E & _). apply (IH _ _ _ E).
Qed.
Lemma closed_nodup ls : closed ls -> NoDup (wids ls).
Proof.
  induction 1 as [|ls n Hc IH Ka Kp Knew|ls g refs imms Hc IH Kr Ki]; [constructor| |].
  - rewrite wids_app. cbn. apply NoDup_rev in IH. rewrite <- (rev_involutive (wids ls ++ [n_id n])). apply NoDup_rev. rewrite rev_app_distr. cbn. constructor; auto. rewrite <- in_rev. auto.
  - rewrite wids_app. cbn. rewrite app_nil_r. auto.
Qed.
Lemma ctx_recs_recs ls : ctx_recs ls = flat_map (fun x => match x with (false, r, i) => [rec_entries r i] | _ => [] end) (recs_of ls).
Proof. induction ls as [|[n|[] r i] ls IH]; cbn; auto. f_equal. exact IH. Qed.
