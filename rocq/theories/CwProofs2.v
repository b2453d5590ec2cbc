(* Proofs: a thread writes a node at most once; bounded work; one thread = the sequential writer *)
From Verif Require Import Base VariantModel VariantSpec NamesModel TextModel TreeModel CaliFileModel CaliFileProofs CaliFileProofs2 CaliFileProofs3 CaliFileProofs5 CaliFileProps CwModel CwSpec CwProofs.

Section Rank.
Variable src : N -> option tnode.
Variable rank : N -> nat.
Hypothesis Hwf : wf_src src rank.

(* ---------- at most once per thread ---------- *)
Definition emits (x : stmt) : option N := match x with SNode i | SLook i => Some i | SEmit n => Some (n_id n) | _ => None end.
Definition below (b : N) (x : stmt) : Prop := forall i, emits x = Some i -> i < 11 \/ (rank i < rank b)%nat.
(* above: the statements in front *)
Fixpoint nest (above : list stmt) (l : list stmt) : Prop :=
  match l with
  | [] => True
  | SLook id :: r => above = [] /\ nest [SLook id] r
  | SEmit n :: r => 11 <= n_id n /\ (exists r', r = SMark (n_id n) :: r') /\ Forall (below (n_id n)) above /\ nest (above ++ [SEmit n]) r
  | x :: r => nest (above ++ [x]) r
  end.
Lemma nest_weaken l : forall a b, (forall x, In x b -> In x a \/ emits x = None) -> (a = [] -> b = []) -> nest a l -> nest b l.
Proof.
  induction l as [|[id|id|n|id|g rec] l IH]; intros a b H H0 T; cbn [nest] in *; auto.
  - eapply IH; [| |exact T]; [|intro E; destruct a; discriminate]. intros x Hx. apply in_app_iff in Hx. destruct Hx as [Hx|Hx]; [destruct (H x Hx); auto; left; apply in_app_iff; auto|left; apply in_app_iff; auto].
  - destruct T as (T1 & T2). split; auto.
  - destruct T as (T1 & T2 & T3 & T4). split; auto. split; auto. split.
    + apply Forall_forall. intros x Hx. destruct (H x Hx) as [Q|Q]; [rewrite Forall_forall in T3; auto|intros i Hi; congruence].
    + eapply IH; [| |exact T4]; [|intro E; destruct a; discriminate]. intros x Hx. apply in_app_iff in Hx. destruct Hx as [Hx|Hx]; [destruct (H x Hx); auto; left; apply in_app_iff; auto|left; apply in_app_iff; auto].
  - eapply IH; [| |exact T]; [|intro E; destruct a; discriminate]. intros x Hx. apply in_app_iff in Hx. destruct Hx as [Hx|Hx]; [destruct (H x Hx); auto; left; apply in_app_iff; auto|left; apply in_app_iff; auto].
  - eapply IH; [| |exact T]; [|intro E; destruct a; discriminate]. intros x Hx. apply in_app_iff in Hx. destruct Hx as [Hx|Hx]; [destruct (H x Hx); auto; left; apply in_app_iff; auto|left; apply in_app_iff; auto].
Qed.
(* statements below the top never contain SLook *)
Lemma nest_nolook l : forall a, a <> [] -> nest a l -> forall i, ~ In (SLook i) l.
Proof.
  induction l as [|x l IH]; intros a Ha T i Hi; [destruct Hi|]. destruct Hi as [->|Hi].
  - cbn [nest] in T. destruct T as (T & _). congruence.
  - destruct x; cbn [nest] in T; try (eapply (IH (a ++ [_])); [destruct a; discriminate|exact T|exact Hi]).
    + destruct T as (T & _). congruence.
    + destruct T as (_ & _ & _ & T). eapply (IH (a ++ [_])); [destruct a; discriminate|exact T|exact Hi].
Qed.
(* an SEmit further down has a larger rank than everything in front *)
Lemma nest_emit l : forall a n, nest a l -> In (SEmit n) l -> Forall (below (n_id n)) a.
Proof.
  induction l as [|x l IH]; intros a n T Hi; [destruct Hi|]. destruct Hi as [->|Hi].
  - cbn [nest] in T. apply T.
  - destruct x; cbn [nest] in T; try (apply (IH (a ++ [_])) with (2 := Hi) in T; apply Forall_app in T; apply T).
    + destruct T as (-> & T). constructor.
    + destruct T as (_ & _ & _ & T). apply (IH (a ++ [_])) with (2 := Hi) in T. apply Forall_app in T. apply T.
Qed.
Lemma nest_emit11 l : forall a n, nest a l -> In (SEmit n) l -> 11 <= n_id n.
Proof.
  induction l as [|x l IH]; intros a n T Hi; [destruct Hi|]. destruct Hi as [->|Hi].
  - cbn [nest] in T. apply T.
  - destruct x; cbn [nest] in T; try (eapply IH; [exact T|exact Hi]).
    + destruct T as (_ & T). eapply IH; [exact T|exact Hi].
    + destruct T as (_ & _ & _ & T). eapply IH; [exact T|exact Hi].
Qed.
(* replacing the top by statements of smaller rank *)
Lemma nest_raise l : forall a b, a <> [] -> nest a l -> (forall c, Forall (below c) a -> Forall (below c) b) -> nest b l.
Proof.
  induction l as [|[id|id|n|id|g rec] l IH]; intros a b Ha T H; cbn [nest] in *; auto.
  - eapply IH; [|exact T|]; [destruct a; discriminate|]. intros c Hc. apply Forall_app in Hc. apply Forall_app. split; [apply H|]; apply Hc.
  - destruct T as (T & _). congruence.
  - destruct T as (T1 & T2 & T3 & T4). split; auto. split; auto. split; auto. eapply IH; [|exact T4|]; [destruct a; discriminate|]. intros c Hc. apply Forall_app in Hc. apply Forall_app. split; [apply H|]; apply Hc.
  - eapply IH; [|exact T|]; [destruct a; discriminate|]. intros c Hc. apply Forall_app in Hc. apply Forall_app. split; [apply H|]; apply Hc.
  - eapply IH; [|exact T|]; [destruct a; discriminate|]. intros c Hc. apply Forall_app in Hc. apply Forall_app. split; [apply H|]; apply Hc.
Qed.
Definition emitted (s : cw) (t id : N) : Prop := In (t, id) (node_writes s).
Record once (s : cw) (t : N) : Prop := mkonce {
  on_nest : nest [] (cw_todo s t);
  on_look : forall i r, cw_todo s t = SLook i :: r -> ~ emitted s t i;
  on_emit : forall n, In (SEmit n) (cw_todo s t) -> ~ emitted s t (n_id n);
  on_done : forall i, emitted s t i -> In i (cw_written s) \/ exists r, cw_todo s t = SMark i :: r }.
Lemma nest_call g rec : nest [] (call_stmts g rec).
Proof.
  unfold call_stmts. assert (G : forall l a, nest a (map (fun e => SNode (entry_node e)) l ++ [SRec g rec])); [|apply G]. induction l as [|e r IH]; intro a; cbn [map app nest]; auto.
Qed.

Lemma nw_snoc s t l db w td : node_writes (mkcw db w (cw_out s ++ [(t, l)]) td) = node_writes s ++ match l with WNode n => [(t, n_id n)] | _ => [] end.
Proof. unfold node_writes. cbn [cw_out]. rewrite flat_map_app. cbn. destruct l; cbn; rewrite ?app_nil_r; reflexivity. Qed.
Lemma nest_top x r : nest [] (x :: r) -> nest [x] r.
Proof. destruct x; cbn [nest app]; [exact (fun T => T)|exact (fun T => proj2 T)|intros (_ & _ & _ & T); exact T|exact (fun T => T)|exact (fun T => T)]. Qed.
Lemma nest_drop x r : nest [] (x :: r) -> nest [] r.
Proof. intro T. pose proof (nest_top x r T) as Q. eapply nest_weaken; [| |exact Q]; [intros y []|discriminate]. Qed.
(* a thread that is not stepping keeps its part *)
Lemma once_other s s' t : once s t -> cw_todo s' t = cw_todo s t -> (forall i, In (t, i) (node_writes s') <-> In (t, i) (node_writes s)) -> (forall i, In i (cw_written s) -> In i (cw_written s')) -> once s' t.
Proof.
  intros [A B C D] E W X. unfold emitted in *. constructor; unfold emitted; rewrite ?E; auto.
  - intros i r Hr. rewrite W. eauto.
  - intros n Hn. rewrite W. auto.
  - intros i Hi. rewrite W in Hi. destruct (D i Hi); auto.
Qed.
Lemma once_exec s t s' : inv src s -> once s t -> NoDup (node_writes s) -> cw_exec s t = Some s' -> once s' t /\ NoDup (node_writes s').
Proof.
  intros Hi [A B C D] ND H. unfold cw_exec in H. destruct (cw_todo s t) as [|x r] eqn:Et; [discriminate|].
  assert (Pop : forall y, emits y = None \/ True -> True) by auto. clear Pop.
  assert (Skip : (forall i, x <> SMark i) -> once (set_todo s t r) t).
  { intro Hx. constructor; unfold emitted, node_writes; cbn [set_todo cw_todo cw_out cw_written]; rewrite ?upd_same.
    - eapply nest_drop; eauto.
    - intros i r' Er. exfalso. subst r. apply nest_nolook with (i := i) (a := [x]) (l := SLook i :: r'); [discriminate| |left; auto].
      apply nest_top; exact A.
    - intros n Hn. apply C. right; auto.
    - intros i Hi'. destruct (D i Hi') as [Q|(r' & Q)]; auto. injection Q as -> _. exfalso. apply (Hx i); auto. }
  destruct x as [id|id|n|id|g rec].
  - destruct (N.ltb_spec id 11); [injection H as <-; split; [apply Skip; discriminate|exact ND]|].
    destruct (mem id (cw_written s)) eqn:Em; injection H as <-; [split; [apply Skip; discriminate|exact ND]|]. split; [|exact ND].
    constructor; unfold emitted, node_writes; cbn [set_todo cw_todo cw_out cw_written]; rewrite ?upd_same.
    + cbn [nest]. split; auto. cbn [nest app] in A. eapply nest_raise; [|exact A|]; [discriminate|]. intros c Hc. apply Forall_inv in Hc. constructor; [exact Hc|constructor].
    + intros i r' Er. injection Er as <- <-. intro Q. destruct (D id Q) as [Q'|(r' & Q')]; [apply mem_in in Q'; congruence|discriminate].
    + intros n [Hn|Hn]; [discriminate|]. apply C. right; auto.
    + intros i Q. destruct (D i Q) as [Q'|(r' & Q')]; auto. discriminate.
  - pose proof (iv_todo _ _ Hi t) as T. rewrite Et in T. cbn [todo_ok] in T. destruct T as (T1 & T2 & _).
    destruct (cw_db s id) as [n|] eqn:En; [|congruence]. assert (Es : s' = set_todo s t (node_stmts id n ++ r)) by congruence. subst s'. clear H. split; [|exact ND].
    destruct (Hwf id n (iv_part _ _ Hi _ _ En) T1) as (Hid & Ra & Rp).
    cbn [nest] in A. destruct A as (_ & A). specialize (B id r eq_refl).
    assert (Ba : below id (SNode (n_attr n))) by (intros i Q; injection Q as <-; destruct Ra as [?|(_ & ?)]; auto).
    assert (Bp : forall p, n_par n = Some p -> p <> INV_ID -> below id (SNode p)) by (intros p Hp Hne i Q; injection Q as <-; destruct (Rp p Hp) as [?|[?|(_ & ?)]]; [contradiction|auto|auto]).
    assert (Up : forall c, Forall (below c) [SLook id] -> forall x, below id x -> below c x).
    { intros c Hc x Hx. apply Forall_inv in Hc. specialize (Hc id eq_refl). intros i Q. destruct (Hx i Q); auto. right. destruct Hc; lia. }
    assert (Se : forall c, Forall (below c) [SLook id] -> below c (SEmit n)) by (intros c Hc; apply Forall_inv in Hc; specialize (Hc id eq_refl); intros i Q; injection Q as <-; rewrite Hid; exact Hc).
    assert (Sm : forall c, below c (SMark id)) by (intros c i Q; discriminate).
    assert (NS : nest [] (node_stmts id n ++ r)).
    { unfold node_stmts. cbn [app nest]. destruct (n_par n) as [p|] eqn:Ep; [destruct (N.eqb_spec p INV_ID)|]; cbn [app nest]; rewrite Hid.
      - split; auto. split; [eauto|]. split; [constructor; auto|]. eapply nest_raise; [|exact A|]; [discriminate|]. intros c Hc. constructor; [apply (Up c Hc _ Ba)|]. constructor; [apply (Se c Hc)|]. constructor; auto.
      - split; auto. split; [eauto|]. split; [constructor; auto|]. eapply nest_raise; [|exact A|]; [discriminate|]. intros c Hc. constructor; [apply (Up c Hc _ Ba)|]. constructor; [apply (Up c Hc _ (Bp p eq_refl n0))|]. constructor; [apply (Se c Hc)|]. constructor; auto.
      - split; auto. split; [eauto|]. split; [constructor; auto|]. eapply nest_raise; [|exact A|]; [discriminate|]. intros c Hc. constructor; [apply (Up c Hc _ Ba)|]. constructor; [apply (Se c Hc)|]. constructor; auto. }
    constructor; unfold emitted, node_writes; cbn [set_todo cw_todo cw_out cw_written]; rewrite ?upd_same.
    + exact NS.
    + intros i r' Er. unfold node_stmts in Er. discriminate.
    + intros m Hm. apply in_app_iff in Hm. destruct Hm as [Hm|Hm]; [|apply C; right; auto].
      assert (m = n) as ->. { unfold node_stmts in Hm. destruct Hm as [Hm|Hm]; [discriminate|]. apply in_app_iff in Hm. destruct Hm as [Hm|[Hm|[Hm|[]]]]; try congruence.
        destruct (n_par n) as [p|]; [destruct (p =? INV_ID)|]; cbn in Hm; intuition discriminate. }
      rewrite Hid. exact B.
    + intros i Q. destruct (D i Q) as [Q'|(r' & Q')]; auto. discriminate.
  - injection H as <-. assert (Cn : ~ emitted s t (n_id n)) by (apply C; left; auto). rewrite nw_snoc. split.
    + cbn [nest app] in A. destruct A as (A1 & (r' & Er) & _ & A4).
      constructor; unfold emitted; rewrite ?nw_snoc; cbn [cw_todo cw_written]; rewrite ?upd_same.
      * eapply nest_weaken; [| |exact A4]; [intros y []|discriminate].
      * intros i r1 E1. rewrite Er in E1. discriminate.
      * intros m Hm Q. apply in_app_iff in Q. destruct Q as [Q|[Q|[]]]; [revert Q; apply C; right; auto|]. injection Q as Q.
        pose proof (nest_emit r [SEmit n] m A4 Hm) as F. apply Forall_inv in F. destruct (F (n_id n) eq_refl); [lia|]. rewrite <- Q in *. lia.
      * intros i Q. apply in_app_iff in Q. destruct Q as [Q|[Q|[]]]; [|injection Q as <-; right; exists r'; exact Er]. destruct (D i Q) as [Q'|(r1 & Q')]; auto. discriminate.
    + rewrite <- (rev_involutive (node_writes s ++ [(t, n_id n)])). apply NoDup_rev. rewrite rev_app_distr. cbn [rev app]. constructor; [rewrite <- in_rev; exact Cn|apply NoDup_rev; exact ND].
  - injection H as <-. split; [|exact ND]. constructor; unfold emitted, node_writes; cbn [cw_todo cw_out cw_written]; rewrite ?upd_same.
    + eapply nest_drop; eauto.
    + intros i r' Er. exfalso. subst r. apply nest_nolook with (i := i) (a := [SMark id]) (l := SLook i :: r'); [discriminate| |left; auto]. exact A.
    + intros n Hn. apply C. right; auto.
    + intros i Q. left. destruct (D i Q) as [Q'|(r' & Q')]; [right; auto|injection Q' as -> _; left; auto].
  - injection H as <-. rewrite nw_snoc, app_nil_r. split; [|exact ND]. constructor; unfold emitted; rewrite ?nw_snoc, ?app_nil_r; cbn [cw_todo cw_written]; rewrite ?upd_same.
    + eapply nest_drop; eauto.
    + intros i r' Er. exfalso. subst r. apply nest_nolook with (i := i) (a := [SRec g rec]) (l := SLook i :: r'); [discriminate| |left; auto]. exact A.
    + intros n Hn. apply C. right; auto.
    + intros i Q. destruct (D i Q) as [Q'|(r' & Q')]; auto. discriminate.
Qed.
Lemma exec_others s t s' u : cw_exec s t = Some s' -> u <> t -> cw_todo s' u = cw_todo s u /\ (forall i, In (u, i) (node_writes s') <-> In (u, i) (node_writes s)) /\ (forall i, In i (cw_written s) -> In i (cw_written s')).
Proof.
  intros H Hne. unfold cw_exec in H. destruct (cw_todo s t) as [|[id|id|n|id|g rec] r] eqn:Et; [discriminate| | | | |].
  - destruct (id <? 11); [|destruct (mem id (cw_written s))]; injection H as <-; cbn [set_todo cw_todo cw_written]; rewrite upd_other by auto; split; auto; split; auto; reflexivity.
  - destruct (cw_db s id); injection H as <-; cbn [set_todo cw_todo cw_written]; rewrite upd_other by auto; split; auto; split; auto; reflexivity.
  - injection H as <-. cbn [cw_todo cw_written]. rewrite upd_other by auto. split; auto. split; auto. intro i. rewrite nw_snoc, in_app_iff. split; [intros [?|[Q|[]]]; auto; injection Q as -> _; contradiction|auto].
  - injection H as <-. cbn [cw_todo cw_written]. rewrite upd_other by auto. split; auto. split; [reflexivity|]. intros i Hi. right; auto.
  - injection H as <-. cbn [cw_todo cw_written]. rewrite upd_other by auto. split; auto. split; auto. intro i. rewrite nw_snoc, app_nil_r. reflexivity.
Qed.
Lemma wf_id i n : src i = Some n -> 11 <= i -> n_id n = i.
Proof. intros H H1. apply (Hwf i n H H1). Qed.
Lemma history_once acts s : history src acts s -> (forall t, once s t) /\ NoDup (node_writes s).
Proof.
  induction 1 as [db Hp Hc|acts s a s' Hh (IH & ND) Ha E].
  - split; [|constructor]. intro t. constructor; cbn; auto; try discriminate; try contradiction.
  - destruct a as [t g rec|t|db]; cbn [act_ok cw_act] in *.
    + destruct (cw_todo s t) eqn:Et; [|discriminate]. injection E as <-. split; [|exact ND]. intro u. destruct (N.eq_dec u t) as [->|Hne].
      * destruct (IH t) as [A B C D]. constructor; unfold emitted, node_writes; cbn [set_todo cw_todo cw_out cw_written]; rewrite ?upd_same.
        -- apply nest_call.
        -- intros i r Er. unfold call_stmts in Er. destruct rec; discriminate.
        -- intros n Hn. exfalso. unfold call_stmts in Hn. apply in_app_iff in Hn. destruct Hn as [Hn|[Hn|[]]]; [|discriminate]. apply in_map_iff in Hn. destruct Hn as (? & Q & _). discriminate.
        -- intros i Q. destruct (D i Q) as [?|(r & Q')]; auto. congruence.
      * apply (once_other s); auto; [cbn [set_todo cw_todo]; apply upd_other; auto|reflexivity].
    + pose proof (history_inv src acts s wf_id Hh) as Hi. destruct (once_exec s t s' Hi (IH t) ND E) as (O & ND'). split; auto. intro u. destruct (N.eq_dec u t) as [->|Hne]; auto.
      destruct (exec_others s t s' u E Hne) as (X1 & X2 & X3). apply (once_other s); auto.
    + injection E as <-. split; [|exact ND]. intro t. apply (once_other s); auto. reflexivity.
Qed.

(* ---------- bounded work ---------- *)
Fixpoint wn (r : nat) : nat := match r with O => 6 | S k => 4 + 2 * wn k end.
Definition wnode (id : N) : nat := if id <? 11 then 1 else wn (rank id).
Definition weight1 (x : stmt) : nat := match x with SNode i => wnode i | SLook i => wn (rank i) - 1 | _ => 1 end.
Definition weight (l : list stmt) : nat := list_sum (map weight1 l).
Lemma wn_pos r : (6 <= wn r)%nat. Proof. induction r; cbn [wn]; lia. Qed.
Lemma wn_mono a b : (a <= b)%nat -> (wn a <= wn b)%nat.
Proof. induction 1; auto. cbn [wn]. lia. Qed.
Lemma weight_app a b : weight (a ++ b) = (weight a + weight b)%nat.
Proof. unfold weight. rewrite map_app, list_sum_app. reflexivity. Qed.
Lemma wref id r : ref_ok src rank id r -> (2 * wnode r + 4 <= wn (rank id))%nat.
Proof.
  intros [Hr|(_ & Hr)]; unfold wnode.
  - replace (r <? 11) with true by lia. pose proof (wn_pos (rank id)). lia.
  - destruct (rank id) as [|k] eqn:E; [lia|]. cbn [wn]. pose proof (wn_mono (rank r) k ltac:(lia)). pose proof (wn_pos k). destruct (r <? 11); lia.
Qed.
Lemma exec_weight s t s' : inv src s -> cw_exec s t = Some s' -> (weight (cw_todo s' t) < weight (cw_todo s t))%nat.
Proof.
  intros Hi H. unfold cw_exec in H. pose proof (iv_todo _ _ Hi t) as T. destruct (cw_todo s t) as [|[id|id|n|id|g rec] r] eqn:Et; [discriminate| | | | |]; cbn [todo_ok] in T.
  - unfold weight. cbn [map list_sum fold_right weight1]. fold (list_sum (map weight1 r)). unfold wnode. pose proof (wn_pos (rank id)). destruct (N.ltb_spec id 11).
    + injection H as <-. cbn [set_todo cw_todo]. rewrite upd_same. lia.
    + destruct (mem id (cw_written s)); injection H as <-; cbn [set_todo cw_todo]; rewrite upd_same; cbn [map list_sum fold_right weight1]; fold (list_sum (map weight1 r)); lia.
  - destruct T as (T1 & T2 & _). destruct (cw_db s id) as [n|] eqn:En; [|congruence]. destruct (Hwf id n (iv_part _ _ Hi _ _ En) T1) as (Hid & Ra & Rp).
    apply wref in Ra. assert (E : cw_todo s' t = node_stmts id n ++ r) by (injection H as <-; cbn [set_todo cw_todo]; apply upd_same). rewrite E, weight_app.
    change (weight (SLook id :: r)) with (wn (rank id) - 1 + weight r)%nat.
    assert (Q : (weight (node_stmts id n) + 2 <= wn (rank id))%nat); [|lia].
    unfold node_stmts. destruct (n_par n) as [p|] eqn:Ep; [destruct (N.eqb_spec p INV_ID)|].
    + unfold weight. cbn [map list_sum fold_right weight1 app]. lia.
    + destruct (Rp p eq_refl) as [?|Rp']; [contradiction|]. apply wref in Rp'. unfold weight. cbn [map list_sum fold_right weight1 app]. lia.
    + unfold weight. cbn [map list_sum fold_right weight1 app]. lia.
  - injection H as <-. cbn [cw_todo]. rewrite upd_same. change (weight (SEmit n :: r)) with (S (weight r)). lia.
  - injection H as <-. cbn [cw_todo]. rewrite upd_same. change (weight (SMark id :: r)) with (S (weight r)). lia.
  - injection H as <-. cbn [cw_todo]. rewrite upd_same. change (weight (SRec g rec :: r)) with (S (weight r)). lia.
Qed.
Lemma run_weight t later : forall acts s s', history src acts s -> goes src s later s' -> no_call t later ->
  (steps_of t later + weight (cw_todo s' t) <= weight (cw_todo s t))%nat.
Proof.
  induction later as [|a l IH]; intros acts s s' Hh H Hn; cbn [goes] in H.
  - subst s'. cbn. lia.
  - destruct H as (Ha & s1 & E & H).
    assert (Hn' : no_call t l) by (intros g rec Hi; apply (Hn g rec); right; auto).
    specialize (IH (acts ++ [a]) s1 s' (hs_act src acts s a s1 Hh Ha E) H Hn').
    unfold steps_of in *. cbn [filter]. destruct a as [u g rec|u|db]; cbn [cw_act] in E.
    + assert (u <> t) by (intro; subst; apply (Hn g rec); left; auto). destruct (cw_todo s u); [|discriminate]. injection E as <-. cbn [set_todo cw_todo] in IH. rewrite upd_other in IH by auto. exact IH.
    + destruct (N.eqb_spec u t) as [->|Hne].
      * pose proof (exec_weight s t s1 (history_inv src acts s wf_id Hh) E). cbn [length]. lia.
      * destruct (exec_others s u s1 t E ltac:(auto)) as (X & _). rewrite X in IH. exact IH.
    + injection E as <-. exact IH.
Qed.
Lemma weight_zero l : weight l = 0%nat -> l = [].
Proof.
  destruct l as [|x r]; auto. change (weight (x :: r)) with (weight1 x + weight r)%nat. intro H. exfalso. destruct x; cbn [weight1] in H; try lia.
  - unfold wnode in H. destruct (id <? 11); [lia|]. pose proof (wn_pos (rank id)). lia.
  - pose proof (wn_pos (rank id)). lia.
Qed.
End Rank.

(* ---------- one thread alone ---------- *)
Lemma run_app a : forall s b, cw_run s (a ++ b) = match cw_run s a with Some s1 => cw_run s1 b | None => None end.
Proof. induction a as [|x a IH]; intros s b; cbn [app cw_run]; auto. destruct (cw_act s x); auto. Qed.
Definition is_exec (t : N) (l : list cact) : Prop := Forall (fun a => a = AExec t) l.
(* s is the sequential writer w with the statements l to do *)
Definition sim (t : N) (db : N -> option tnode) (w : writer) (l : list stmt) (s : cw) : Prop :=
  cw_db s = db /\ cw_written s = w_written w /\ cw_lines s = w_out w /\ cw_todo s t = l.
Lemma sim_set t db w l l' s : sim t db w l s -> sim t db w l' (set_todo s t l').
Proof. intros (A & B & C & D). unfold sim, cw_lines in *. cbn [set_todo cw_db cw_written cw_out cw_todo]. rewrite upd_same. auto. Qed.
Lemma exec1 s t s1 : cw_exec s t = Some s1 -> cw_run s [AExec t] = Some s1.
Proof. intro H. cbn [cw_run cw_act]. rewrite H. reflexivity. Qed.
Lemma sim_node t db : forall fuel id w w' r s, write_node fuel db id w = Some w' -> sim t db w (SNode id :: r) s ->
  exists l s', is_exec t l /\ cw_run s l = Some s' /\ sim t db w' r s'.
Proof.
  induction fuel as [|f IH]; intros id w w' r s H Hs; [discriminate|]. cbn [write_node] in H. pose proof Hs as (S1 & S2 & S3 & S4).
  assert (Skip : (id <? 11) || mem id (w_written w) = true -> exists l s', is_exec t l /\ cw_run s l = Some s' /\ sim t db w r s').
  { intro Q. exists [AExec t], (set_todo s t r). split; [repeat constructor|]. split; [|eapply sim_set; exact Hs]. apply exec1. unfold cw_exec. rewrite S4, S2. destruct (id <? 11); auto. cbn [orb] in Q. rewrite Q. reflexivity. }
  destruct (id <? 11) eqn:E11; [injection H as <-; apply Skip; reflexivity|]. destruct (mem id (w_written w)) eqn:Em; [injection H as <-; apply Skip; reflexivity|]. clear Skip.
  set (s1 := set_todo s t (SLook id :: r)). assert (R1 : cw_run s [AExec t] = Some s1) by (apply exec1; unfold cw_exec; rewrite S4, S2, E11, Em; reflexivity).
  assert (M1 : sim t db w (SLook id :: r) s1) by (eapply sim_set; exact Hs). pose proof M1 as (T1 & T2 & T3 & T4).
  destruct (db id) as [n|] eqn:En.
  2:{ injection H as <-. exists ([AExec t] ++ [AExec t]), (set_todo s1 t r). split; [repeat constructor|]. split; [|eapply sim_set; exact M1]. rewrite run_app, R1. apply exec1. unfold cw_exec. rewrite T4, T1, En. reflexivity. }
  set (s2 := set_todo s1 t (node_stmts id n ++ r)). assert (R2 : cw_run s1 [AExec t] = Some s2) by (apply exec1; unfold cw_exec; rewrite T4, T1, En; reflexivity).
  assert (M2 : sim t db w (node_stmts id n ++ r) s2) by (eapply sim_set; exact M1).
  destruct (write_node f db (n_attr n) w) as [w1|] eqn:E1; [|discriminate].
  destruct (IH _ _ _ _ s2 E1 M2) as (l3 & s3 & X3 & R3 & M3).
  assert (B : exists w2 l4 s4, is_exec t l4 /\ cw_run s3 l4 = Some s4 /\ sim t db w2 (SEmit n :: SMark id :: r) s4 /\ w' = mkw (id :: w_written w2) (w_out w2 ++ [WNode n])).
  { unfold node_stmts in M3. destruct (n_par n) as [p|]; [destruct (p =? INV_ID)|].
    - injection H as <-. exists w1, [], s3. split; [constructor|]. split; auto.
    - destruct (write_node f db p w1) as [w2|] eqn:E2; [|discriminate]. injection H as <-. destruct (IH _ _ _ _ s3 E2 M3) as (l4 & s4 & X4 & R4 & M4). exists w2, l4, s4. auto.
    - injection H as <-. exists w1, [], s3. split; [constructor|]. split; auto. }
  destruct B as (w2 & l4 & s4 & X4 & R4 & (U1 & U2 & U3 & U4) & ->).
  set (s5 := mkcw (cw_db s4) (cw_written s4) (cw_out s4 ++ [(t, WNode n)]) (upd (cw_todo s4) t (SMark id :: r))).
  assert (R5 : cw_run s4 [AExec t] = Some s5) by (apply exec1; unfold cw_exec; rewrite U4; reflexivity).
  set (s6 := mkcw (cw_db s5) (id :: cw_written s5) (cw_out s5) (upd (cw_todo s5) t r)).
  assert (R6 : cw_run s5 [AExec t] = Some s6) by (apply exec1; unfold cw_exec; cbn [s5 cw_todo]; rewrite upd_same; reflexivity).
  exists ([AExec t] ++ [AExec t] ++ l3 ++ l4 ++ [AExec t] ++ [AExec t]), s6. split.
  { unfold is_exec in *. repeat (apply Forall_app; split); auto; repeat constructor. }
  split; [rewrite run_app, R1, run_app, R2, run_app, R3, run_app, R4, run_app, R5; exact R6|].
  unfold sim, s6, s5, cw_lines in *. cbn [cw_db cw_written cw_out cw_todo w_written w_out]. rewrite !upd_same, map_app, U2, U3. auto.
Qed.
Lemma sim_entries t db fuel : forall rec w w' r s, write_entries fuel db rec w = Some w' -> sim t db w (map (fun e => SNode (entry_node e)) rec ++ r) s ->
  exists l s', is_exec t l /\ cw_run s l = Some s' /\ sim t db w' r s'.
Proof.
  induction rec as [|e rec IH]; intros w w' r s H Hs; cbn [write_entries map app] in *.
  - injection H as <-. exists [], s. split; [constructor|]. auto.
  - destruct (write_node fuel db (entry_node e) w) as [w1|] eqn:E; [|discriminate]. destruct (sim_node t db fuel _ _ _ _ s E Hs) as (l1 & s1 & X1 & R1 & M1).
    destruct (IH _ _ _ s1 H M1) as (l2 & s2 & X2 & R2 & M2). exists (l1 ++ l2), s2. split; [apply Forall_app; auto|]. split; [rewrite run_app, R1; exact R2|exact M2].
Qed.
Lemma sim_calls t fuel : forall cs w w' db s, write_calls fuel cs w = Some w' -> sim t db w [] s ->
  exists l s', solo t l /\ cw_run s l = Some s' /\ cw_lines s' = w_out w' /\ cw_todo s' t = [] /\
    flat_map (fun a => match a with ACall _ g rec => [(g, rec)] | _ => [] end) l = map (fun c => (c_glob c, c_rec c)) cs.
Proof.
  induction cs as [|c cs IH]; intros w w' db s H Hs; cbn [write_calls] in H.
  - injection H as <-. destruct Hs as (_ & _ & A & B). exists [], s. split; [intros a []|]. auto.
  - unfold write_rec in H. destruct (write_entries fuel (c_db c) (c_rec c) w) as [w1|] eqn:E; [|discriminate]. destruct Hs as (S1 & S2 & S3 & S4).
    set (s1 := mkcw (c_db c) (cw_written s) (cw_out s) (cw_todo s)). assert (R1 : cw_run s [AGrow (c_db c)] = Some s1) by reflexivity.
    set (s2 := set_todo s1 t (call_stmts (c_glob c) (c_rec c))). assert (R2 : cw_run s1 [ACall t (c_glob c) (c_rec c)] = Some s2) by (cbn [cw_run cw_act]; unfold s1 at 1; cbn [cw_todo]; rewrite S4; reflexivity).
    assert (M2 : sim t (c_db c) w (map (fun e => SNode (entry_node e)) (c_rec c) ++ [SRec (c_glob c) (c_rec c)]) s2).
    { unfold sim, s2, cw_lines, call_stmts. cbn [set_todo cw_db cw_written cw_out cw_todo]. rewrite upd_same. auto. }
    destruct (sim_entries t (c_db c) fuel _ _ _ _ s2 E M2) as (l3 & s3 & X3 & R3 & (U1 & U2 & U3 & U4)).
    set (s4 := mkcw (cw_db s3) (cw_written s3) (cw_out s3 ++ [(t, WRec (c_glob c) (refs_of (c_rec c)) (imms_of (c_rec c)))]) (upd (cw_todo s3) t [])).
    assert (R4 : cw_run s3 [AExec t] = Some s4) by (apply exec1; unfold cw_exec; rewrite U4; reflexivity).
    destruct (IH _ _ (c_db c) s4 H) as (l5 & s5 & X5 & R5 & L5 & T5 & C5).
    { unfold sim, s4, cw_lines in *. cbn [cw_db cw_written cw_out cw_todo w_written w_out]. rewrite upd_same, map_app, U3. auto. }
    exists ([AGrow (c_db c)] ++ [ACall t (c_glob c) (c_rec c)] ++ l3 ++ [AExec t] ++ l5), s5. split; [|split; [|split; [exact L5|split; [exact T5|]]]].
    + intros a Ha. unfold is_exec in X3. rewrite Forall_forall in X3. repeat (apply in_app_iff in Ha; destruct Ha as [Ha|Ha]); [destruct Ha as [<-|[]]; exact Logic.I|destruct Ha as [<-|[]]; reflexivity|rewrite (X3 a Ha); reflexivity|destruct Ha as [<-|[]]; reflexivity|apply X5; auto].
    + rewrite run_app, R1, run_app, R2, run_app, R3, run_app, R4. exact R5.
    + rewrite !flat_map_app, C5. cbn [flat_map app map]. f_equal.
      assert (Z : forall l, is_exec t l -> flat_map (fun a => match a with ACall _ g rec => [(g, rec)] | _ => [] end) l = []) by (induction 1 as [|a l -> Hl IHl]; auto). rewrite (Z l3 X3). reflexivity.
Qed.
