(* C43: lock-free child insertion *)
From Verif Require Import Base LockfreeModel.

(* runs, with the list of (parent, node) appends in the order in which they took effect
   (the successful compare-exchange) *)
Definition takes_effect (s : lfstate) (o : lfop) : list (N * N) :=
  match o with
  | LCas n sp => match lf_call s n, lf_parent s n with
      | ALoop, Some m => if negb sp && oeqb (lf_head s m) (lf_next s n) then [(m, n)] else []
      | _, _ => [] end
  | _ => [] end.
Inductive lf_run : lfstate -> lfstate -> list (N * N) -> Prop :=
| lr_refl s : lf_run s s []
| lr_step s1 s2 s3 o log : lf_run s1 s2 log -> lf_step s2 o = Some s3 -> lf_run s1 s3 (log ++ takes_effect s2 o).

(* the children of m in a log, newest first *)
Definition kids (m : N) (log : list (N * N)) : list N :=
  rev (map snd (filter (fun p => fst p =? m) log)).
(* following first_child and next_sibling in state s from p yields the list l and then null *)
Fixpoint chain (s : lfstate) (p : option N) (l : list N) : Prop :=
  match l with
  | [] => p = None
  | n :: l' => p = Some n /\ chain s (rd_next s n) l'
  end.
(* a traversal interleaved with a run: at each step the next pointer is read in the state the
   system is in at that time *)
Inductive traverse : lfstate -> option N -> list N -> Prop :=
| tr_end s : traverse s None []
| tr_step s s' n l log : lf_run s s' log -> traverse s' (rd_next s' n) l -> traverse s (Some n) (n :: l).

(* ---------- proofs ---------- *)
Lemma lfupd_same {A} (f : N -> A) k x : lfupd f k x k = x.
Proof. unfold lfupd. rewrite N.eqb_refl. reflexivity. Qed.
Lemma lfupd_other {A} (f : N -> A) k x j : j <> k -> lfupd f k x j = f j.
Proof. intro H. unfold lfupd. apply N.eqb_neq in H. rewrite H. reflexivity. Qed.
Lemma oeqb_eq a b : oeqb a b = true -> a = b.
Proof. destruct a, b; cbn; intro H; try discriminate; [apply N.eqb_eq in H; congruence|reflexivity]. Qed.
Lemma kids_app m l1 l2 : kids m (l1 ++ l2) = kids m l2 ++ kids m l1.
Proof. unfold kids. rewrite filter_app, map_app, rev_app_distr. reflexivity. Qed.

Record linv (s : lfstate) (log : list (N * N)) : Prop := {
  li_nodup : NoDup (map snd log);
  li_done : forall m n, In (m, n) log <-> lf_call s n = ADone /\ lf_parent s n = Some m;
  li_chain : forall m, chain s (lf_head s m) (kids m log);
}.
Lemma in_kids m n log : In n (kids m log) <-> In (m, n) log.
Proof.
  unfold kids. rewrite <- in_rev, in_map_iff. split.
  - intros ((m', n') & <- & H). apply filter_In in H. destruct H as (H & E). cbn in E. apply N.eqb_eq in E. subst m'. exact H.
  - intro H. exists (m, n). split; auto. apply filter_In. split; auto. cbn. apply N.eqb_refl.
Qed.
Lemma chain_same s s' p l : chain s p l -> (forall n, In n l -> lf_next s' n = lf_next s n) -> chain s' p l.
Proof.
  revert p. induction l as [|n l IH]; cbn; intros p H E; auto. destruct H as (-> & H). split; auto.
  unfold rd_next in *. rewrite E by auto. apply IH; auto.
Qed.
Lemma lf_step_inv s o s' log : linv s log -> lf_step s o = Some s' -> linv s' (log ++ takes_effect s o).
Proof.
  intros [I1 I2 I3] H. destruct o as [m n|n sp]; cbn in H |- *.
  - destruct (lf_call s n) eqn:E; try discriminate. injection H as <-. rewrite app_nil_r.
    constructor; auto; cbn.
    + intros m' n'. rewrite I2. destruct (N.eq_dec n' n).
      * subst. rewrite !lfupd_same. rewrite E. intuition congruence.
      * rewrite !lfupd_other by auto. reflexivity.
    + intro m'. apply chain_same with s; auto.
  - destruct (lf_call s n) eqn:E; try discriminate. destruct (lf_parent s n) as [m|] eqn:Ep; [|discriminate].
    destruct (negb sp && oeqb (lf_head s m) (lf_next s n)) eqn:C; injection H as <-.
    + apply andb_true_iff in C. destruct C as (_ & C). apply oeqb_eq in C.
      assert (Nin : forall m', ~ In (m', n) log) by (intros m' Hi; apply I2 in Hi; destruct Hi; congruence).
      constructor; cbn.
      * rewrite map_app. cbn. apply NoDup_rev in I1. rewrite <- (rev_involutive (map snd log ++ [n])).
        apply NoDup_rev. rewrite rev_app_distr. cbn. constructor; auto.
        rewrite <- in_rev, in_map_iff. intros ((m' & n') & Hn & Hi). cbn in Hn. subst n'. exact (Nin m' Hi).
      * intros m' n'. rewrite in_app_iff, I2. cbn. destruct (N.eq_dec n' n).
        -- subst. rewrite lfupd_same. rewrite E, Ep. split; [intros [[H _]|[H|[]]]; [discriminate|injection H as ->; auto]|intros (_ & H); injection H as ->; auto].
        -- rewrite lfupd_other by auto. split; [intros [H|[H|[]]]; [auto|congruence]|auto].
      * intro m'. rewrite kids_app. unfold kids at 1. cbn [filter fst map snd rev app].
        destruct (N.eqb_spec m m').
        -- subst m'. cbn. rewrite lfupd_same. split; auto. unfold rd_next; cbn. rewrite <- C. apply chain_same with s; auto.
        -- cbn. rewrite lfupd_other by auto. apply chain_same with s; auto.
    + rewrite app_nil_r. constructor; auto; cbn. intro m'.
      apply chain_same with s; auto. intros n' Hn'. cbn. apply in_kids in Hn'. apply I2 in Hn'.
      apply lfupd_other. intros ->. destruct Hn'; congruence.
Qed.
Lemma linv_init : linv lf_init [].
Proof. constructor; cbn; auto. - constructor. - intros m n. intuition discriminate. Qed.
Lemma lf_run_inv s log : lf_run lf_init s log -> linv s log.
Proof.
  intro H. remember lf_init as s0 eqn:E. induction H as [s|s1 s2 s3 o log H IH Hs]; subst; [apply linv_init|].
  eapply lf_step_inv; eauto.
Qed.
Lemma lf_run_from s log s' log' : linv s log -> lf_run s s' log' -> linv s' (log ++ log').
Proof.
  intros I H. induction H as [s|s1 s2 s3 o log' H IH Hs]; [rewrite app_nil_r; auto|].
  rewrite app_assoc. eapply lf_step_inv; eauto.
Qed.

(* C43, part 1: in every reachable state, for every interleaving, the child list of m is finite,
   null-terminated, and contains exactly the nodes whose append took effect, newest first *)
Theorem C43_list_is_appended_nodes : forall s log m, lf_run lf_init s log ->
  chain s (rd_first s m) (kids m log) /\ NoDup (kids m log).
Proof.
  intros s log m H. apply lf_run_inv in H. destruct H as [I1 I2 I3]. split; [apply I3|].
  unfold kids. apply NoDup_rev. clear - I1. induction log as [|(m', n) log IH]; cbn; [constructor|].
  cbn in I1. inversion I1; subst. destruct (m' =? m); cbn; [constructor|]; auto.
  intro Hi. apply H1. rewrite in_map_iff in Hi |- *. destruct Hi as (x & Hx & Hi). apply filter_In in Hi. exists x. tauto.
Qed.
Print Assumptions C43_list_is_appended_nodes.

(* C43, part 2: once the append of n to m has returned, n is in the child list of m exactly once,
   and stays there; a node whose append has not been called is in no list *)
Theorem C43_append_not_lost : forall s log m n, lf_run lf_init s log ->
  lf_call s n = ADone -> lf_parent s n = Some m ->
  exists l, chain s (rd_first s m) l /\ count_occ N.eq_dec l n = 1%nat.
Proof.
  intros s log m n H Hd Hp. exists (kids m log).
  destruct (C43_list_is_appended_nodes s log m H) as (Hc & Hn). split; auto.
  apply NoDup_count_occ'; auto. apply in_kids. apply lf_run_inv in H. apply (li_done _ _ H). auto.
Qed.
Print Assumptions C43_append_not_lost.
Theorem C43_only_appended : forall s log m n l, lf_run lf_init s log ->
  chain s (rd_first s m) l -> In n l -> lf_call s n = ADone /\ lf_parent s n = Some m.
Proof.
  intros s log m n l H Hc Hi. pose proof (lf_run_inv _ _ H) as [I1 I2 I3]. apply I2. apply in_kids.
  assert (E : l = kids m log). { specialize (I3 m). revert Hc I3. unfold rd_first. generalize (lf_head s m), (kids m log). clear.
    induction l as [|a l IH]; intros p [|b k]; cbn; auto.
    - intros -> (H & _); discriminate.
    - intros (-> & _) H; discriminate.
    - intros (-> & H1) (E & H2). injection E as <-. f_equal. eapply IH; eauto. }
  subst l. exact Hi.
Qed.
Print Assumptions C43_only_appended.

(* C43, part 3: a traversal that reads the head of m's list in state s and proceeds while other
   threads continue to append sees exactly the nodes that were in the list in state s *)
Theorem C43_concurrent_traversal : forall s log m l, lf_run lf_init s log ->
  traverse s (rd_first s m) l -> l = kids m log.
Proof.
  intros s log m l H Ht. apply lf_run_inv in H. pose proof (li_chain _ _ H m) as Hc. unfold rd_first in Ht.
  assert (Hsub : forall n, In n (kids m log) -> In (m, n) log) by (intros n; apply in_kids).
  revert Hc Hsub. generalize (kids m log) as k. revert log H. induction Ht as [s|s s' n l log' Hr Ht IH]; intros log I k Hc Hsub.
  - destruct k as [|a k]; [reflexivity|]. cbn in Hc. destruct Hc; discriminate.
  - destruct k as [|a k]; cbn in Hc; [discriminate|]. destruct Hc as (E & Hc). injection E as <-. f_equal.
    pose proof (lf_run_from _ _ _ _ I Hr) as I'.
    assert (Next : forall x, In (m, x) log -> lf_next s' x = lf_next s x).
    { clear - I Hr. intros x Hx. revert I. induction Hr as [s|s1 s2 s3 o log' H IH Hs]; intro I; [reflexivity|].
      rewrite <- (IH I). pose proof (lf_run_from _ _ _ _ I H) as I'.
      assert (D : lf_call s2 x = ADone) by (apply (li_done _ _ I' m x); apply in_app_iff; auto).
      destruct o as [m' n'|n' sp]; cbn in Hs.
      - destruct (lf_call s2 n'); try discriminate. injection Hs as <-. reflexivity.
      - destruct (lf_call s2 n') eqn:E; try discriminate. destruct (lf_parent s2 n'); [|discriminate].
        destruct (negb sp && oeqb (lf_head s2 n) (lf_next s2 n')); injection Hs as <-; cbn; auto.
        apply lfupd_other. congruence. }
    apply (IH (log ++ log') I'); unfold rd_next in *.
    + rewrite Next by (apply Hsub; left; auto). apply chain_same with s; auto. intros x Hx. apply Next. apply Hsub; right; auto.
    + intros x Hx. apply in_app_iff. left. apply Hsub. right; auto.
Qed.
Print Assumptions C43_concurrent_traversal.

(* C43, part 4 (progress): an iteration of the loop fails only if the head changed since the
   last iteration of this append, or spuriously: an iteration that immediately follows another
   iteration of the same append succeeds unless the weak compare-exchange fails spuriously *)
Theorem C43_undisturbed_append_succeeds : forall s s1 s2 n sp, 
  lf_step s (LCas n sp) = Some s1 -> lf_call s1 n = ALoop -> lf_step s1 (LCas n false) = Some s2 -> lf_call s2 n = ADone.
Proof.
  intros s s1 s2 n sp H H1 H2. cbn in H. destruct (lf_call s n) eqn:E; try discriminate. destruct (lf_parent s n) as [m|] eqn:Ep; [|discriminate].
  destruct (negb sp && oeqb (lf_head s m) (lf_next s n)) eqn:C; injection H as <-.
  - cbn in H1. rewrite lfupd_same in H1. discriminate.
  - cbn in H2. rewrite E, Ep in H2. rewrite lfupd_same in H2.
    assert (R : oeqb (lf_head s m) (lf_head s m) = true) by (destruct (lf_head s m); cbn; auto using N.eqb_refl).
    rewrite R in H2. injection H2 as <-. cbn. apply lfupd_same.
Qed.
Print Assumptions C43_undisturbed_append_succeeds.

(* non-vacuity: two threads racing to append 1 and 2 to node 0, the loser retries *)
Fixpoint lf_exec (s : lfstate) (ops : list lfop) (log : list (N * N)) : option (lfstate * list (N * N)) :=
  match ops with [] => Some (s, log) | o :: r => match lf_step s o with Some s' => lf_exec s' r (log ++ takes_effect s o) | None => None end end.
Lemma lf_exec_run ops : forall s0 s log s' log', lf_run s0 s log -> lf_exec s ops log = Some (s', log') -> lf_run s0 s' log'.
Proof.
  induction ops as [|o r IH]; cbn; intros s0 s log s' log' H E; [injection E as <- <-; auto|].
  destruct (lf_step s o) eqn:Es; [|discriminate]. eapply IH; [|exact E]. econstructor; eauto.
Qed.
Example C43_ex : exists s, lf_run lf_init s [(0, 1); (1, 3); (0, 2)] /\
  chain s (rd_first s 0) [2; 1] /\ chain s (rd_first s 1) [3] /\ lf_call s 4 = ALoop.
Proof.
  eexists. split; [eapply (lf_exec_run [LStart 0 1; LStart 0 2; LCas 2 true; LCas 1 false; LCas 2 false; LStart 1 3; LCas 3 false; LCas 2 false; LStart 1 4]); [apply lr_refl|vm_compute; reflexivity]|].
  cbn. repeat split; reflexivity.
Qed.
