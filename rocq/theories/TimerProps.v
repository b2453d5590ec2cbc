From Verif Require Import Base TimerModel TimerSpec TimerProofs.
Open Scope N_scope.

Lemma sub64_exact : forall a b, b <= a -> a < W64 -> sub64 a b = a - b.
Proof. intros. unfold sub64. assert (a + W64 - b = a - b + 1 * W64) as -> by lia. rewrite N.mod_add by discriminate. apply N.mod_small. lia. Qed.

(* C44: the complete picture of one snapshot after any history.  Its offset is always recorded.  Its
   duration, the (64-bit) difference to the thread's previous timed snapshot or to 0, is recorded unless
   the thread is unknown so far and a signal handler takes the snapshot. *)
Theorem C44_snapshot : forall c l t sg n info,
  let o := out_after c l (TSnap t sg n info) in
  offsets o = [n] /\
  durations o = (if known t l || negb sg then [sub64 n (last (timed_offsets c t l) 0)] else []).
Proof.
  intros c l t sg n info o. subst o. unfold out_after. cbn [tstep].
  destruct (reach c l) as [K P Nn S]. set (s := snd (trun c ts_init l)) in *. clearbody s.
  destruct (snap_spec c s t sg n info) as (_ & SP). rewrite K.
  destruct (ts_info s t) as [i|] eqn:E.
  - destruct SP as (-> & _). destruct (dur_out n (sub64 n (ti_prev i)) _ (incl_shape c sg info n (ti_stack i))) as (-> & ->).
    rewrite (P _ _ E). auto.
  - destruct sg.
    + destruct SP as (-> & _). auto.
    + destruct SP as (-> & _). destruct (dur_out n (sub64 n (ti_prev ti_new)) _ (incl_shape c false info n (ti_stack ti_new))) as (-> & ->).
      rewrite (proj1 (Nn _ E)). auto.
Qed.

Fixpoint diffs (p : N) (l : list N) : list N := match l with [] => [] | o :: r => sub64 o p :: diffs o r end.
Lemma last_cons : forall l (a p : N), last (a :: l) p = last l a.
Proof. induction l; intros; auto. change (last (a0 :: a :: l) p) with (last (a :: l) p). rewrite IHl. symmetry. apply IHl. Qed.
Lemma diffs_snoc : forall l p x, diffs p (l ++ [x]) = diffs p l ++ [sub64 x (last l p)].
Proof. induction l; intros; cbn [app]; auto. cbn [diffs app]. rewrite IHl, last_cons. reflexivity. Qed.
Lemma durations_diffs : forall c t l, thread_durations c t l = diffs 0 (timed_offsets c t l).
Proof.
  intros c t l. induction l as [|e l IH] using rev_ind; [reflexivity|].
  rewrite timed_snoc. unfold thread_durations in *. rewrite outs_snoc, flat_map_app, IH.
  destruct (Nat.eqb (ev_thread e) t) eqn:Q; cbn [flat_map]; [|rewrite !app_nil_r; auto].
  apply Nat.eqb_eq in Q. rewrite app_nil_r. destruct e as [u|u sg n info]; cbn [ev_thread] in Q; subst u.
  - cbn. rewrite !app_nil_r. auto.
  - destruct (C44_snapshot c l t sg n info) as (O & D). rewrite O, D. destruct (known t l || negb sg).
    + rewrite diffs_snoc. reflexivity.
    + rewrite !app_nil_r. reflexivity.
Qed.
Lemma nsum_app : forall a b, nsum (a ++ b) = nsum a + nsum b.
Proof. induction a; intros; cbn [app nsum fold_right]; auto. unfold nsum in IHa. rewrite IHa. unfold nsum. lia. Qed.
Lemma sub64_mod : forall a b x, b mod W64 = x mod W64 -> b < W64 -> (x + sub64 a b) mod W64 = a mod W64.
Proof.
  intros. unfold sub64. rewrite N.add_mod_idemp_r by discriminate. rewrite <- N.add_mod_idemp_l by discriminate. rewrite <- H.
  rewrite N.add_mod_idemp_l by discriminate. assert (b + (a + W64 - b) = a + 1 * W64) as -> by lia. apply N.mod_add. discriminate.
Qed.

(* The durations recorded on a thread add up to its last offset (modulo 2^64), whatever the clock does *)
Theorem C44_durations_total : forall c t l, Forall (fun n => n < W64) (timed_offsets c t l) ->
  nsum (thread_durations c t l) mod W64 = last (timed_offsets c t l) 0.
Proof.
  intros c t l. rewrite durations_diffs. generalize (timed_offsets c t l). clear. intros l.
  induction l as [|x l IH] using rev_ind; intros F; [reflexivity|].
  apply Forall_app in F. destruct F as (F1 & F2). inversion F2; subst. specialize (IH F1).
  rewrite diffs_snoc, nsum_app, last_snoc. change (nsum [sub64 x (last l 0)]) with (sub64 x (last l 0) + 0). rewrite N.add_0_r.
  rewrite sub64_mod.
  - apply N.mod_small; auto.
  - rewrite IH. apply N.mod_small. destruct l as [|y l'] using rev_ind; [reflexivity|]. rewrite last_snoc. apply Forall_app in F1. destruct F1 as (_ & F). inversion F; auto.
  - destruct l as [|y l'] using rev_ind; [reflexivity|]. rewrite last_snoc. apply Forall_app in F1. destruct F1 as (_ & F). inversion F; auto.
Qed.

Lemma steady_tail : forall x l, steady (x :: l) -> steady l /\ (forall y, In y l -> x <= y).
Proof.
  intros x l (F & S). inversion F; subst. split.
  - split; auto. intros i j a b L Ha Hb. apply (S (Datatypes.S i) (Datatypes.S j)); auto. lia.
  - intros y I. apply In_nth_error in I. destruct I as (k & I). apply (S 0%nat (Datatypes.S k)); auto. lia.
Qed.
Lemma diffs_sum : forall l p, steady (p :: l) -> nsum (diffs p l) = last l p - p /\ p <= last l p.
Proof.
  induction l; intros p S.
  - cbn. lia.
  - destruct (steady_tail _ _ S) as (S1 & M). destruct (IHl a S1) as (A & B).
    assert (p <= a) by (apply M; left; auto). rewrite last_cons. cbn [diffs nsum fold_right]. fold (nsum (diffs a l)). rewrite A.
    destruct S1 as (F & _). inversion F; subst. rewrite sub64_exact by auto. lia.
Qed.
(* With a steady clock they add up exactly: all of them to the last offset, and all but the first to
   the time between the thread's first and last timed snapshot; each is the time since the previous one *)
Theorem C44_durations : forall c t l, steady (timed_offsets c t l) ->
  let ds := thread_durations c t l in let os := timed_offsets c t l in
  length ds = length os /\ nsum ds = last os 0 /\ nsum (tl ds) = last os 0 - hd 0 os /\
  (forall k a b, nth_error os k = Some a -> nth_error os (S k) = Some b -> nth_error ds (S k) = Some (b - a)).
Proof.
  intros c t l St ds os. subst ds os. rewrite durations_diffs. revert St. generalize (timed_offsets c t l). clear. intros l S.
  assert (S0 : steady (0 :: l)).
  { destruct S as (F & S). split; [constructor; auto; reflexivity|]. intros [|i] [|j] x y L Hx Hy; try lia.
    - injection Hx as <-. lia.
    - apply (S i j); auto. lia. }
  split; [|split; [|split]].
  - clear. generalize 0. induction l; intros; cbn [diffs length]; auto.
  - destruct (diffs_sum l 0 S0). lia.
  - destruct l as [|o r]; [reflexivity|]. rewrite last_cons. cbn [diffs tl hd]. destruct (diffs_sum r o S) as (A & B). auto.
  - revert S0. clear. generalize 0 as p. induction l; intros p S k x y Hx Hy; [destruct k; discriminate|].
    destruct (steady_tail _ _ S) as (S1 & M). destruct k.
    + injection Hx as ->. destruct l; [discriminate|]. injection Hy as ->. cbn [diffs nth_error]. f_equal.
      destruct (steady_tail _ _ S1) as ((F & _) & M1). inversion F; subst. apply sub64_exact; auto. apply M1. left; auto.
    + cbn [diffs nth_error]. apply (IHl a S1 k); auto.
Qed.

(* C44, inclusive durations.  An end event of attribute a outside of signal handlers records the time
   since the innermost begin event of a that is still open on the same thread - the one followed only by
   matched begin/end pairs of a - and nothing, counting an error, if there is none. *)
Theorem C44_inclusive : forall c l t n p a, tc_incl c = true ->
  attr_get p (tc_begin c) = None -> attr_get p (tc_end c) = Some a ->
  let e := TSnap t false n (Some p) in
  (forall b, open_begin (marks c t a l) b ->
     inclusives (out_after c l e) = [sub64 n b] /\ errors_after c (l ++ [e]) = errors_after c l) /\
  ((forall b, ~ open_begin (marks c t a l) b) ->
     inclusives (out_after c l e) = [] /\ errors_after c (l ++ [e]) = errors_after c l + 1).
Proof.
  intros c l t n p a HI HB HE e. subst e. unfold errors_after. rewrite trun_snoc. cbn [snd]. unfold out_after. cbn [tstep].
  destruct (reach c l) as [K P Nn S]. set (s := snd (trun c ts_init l)) in *. clearbody s.
  assert (EV : evt c false (Some p) n = Some (a, ME n)) by (unfold evt; rewrite HI; cbn [andb negb]; rewrite HB, HE; reflexivity).
  assert (X : exists i, (match ts_info s t with Some i => Some i | None => Some ti_new end) = Some i /\
              stk_of (ti_stack i) a = stk (marks c t a l)).
  { destruct (ts_info s t) as [i|] eqn:E; [exists i; split; auto; apply (S HI); auto|].
    exists ti_new. split; auto. rewrite (proj2 (Nn _ E)). reflexivity. }
  destruct X as (i & X1 & X2). destruct (snap_spec c s t false n (Some p)) as (_ & SP). rewrite X1 in SP.
  destruct SP as (-> & -> & _). unfold incl_out, err_inc. rewrite EV, X2. split.
  - intros b O. destruct (open_stk _ _ O) as (r & ->). cbn. split; auto. lia.
  - intros O. destruct (stk (marks c t a l)) as [|b r] eqn:E; [auto|]. destruct (O b). eapply stk_open; eauto.
Qed.
(* with a clock that did not go back it is the exact time since that begin event *)
Theorem C44_inclusive_exact : forall c l t n p a b, tc_incl c = true ->
  attr_get p (tc_begin c) = None -> attr_get p (tc_end c) = Some a ->
  open_begin (marks c t a l) b -> b <= n -> n < W64 ->
  inclusives (out_after c l (TSnap t false n (Some p))) = [n - b].
Proof.
  intros. destruct (C44_inclusive c l t n p a H H0 H1) as (A & _). rewrite (proj1 (A b H2)). rewrite sub64_exact; auto.
Qed.
(* No other event records an inclusive duration or counts an error *)
Theorem C44_inclusive_only : forall c l e,
  (match e with
   | TSnap _ false _ (Some p) => tc_incl c = false \/ attr_get p (tc_begin c) <> None \/ attr_get p (tc_end c) = None
   | _ => True end) ->
  inclusives (out_after c l e) = [] /\ errors_after c (l ++ [e]) = errors_after c l.
Proof.
  intros c l e H. unfold errors_after. rewrite trun_snoc. cbn [snd]. unfold out_after.
  set (s := snd (trun c ts_init l)). clearbody s. destruct e as [t|t sg n info].
  - cbn. unfold acquire. destruct (ts_info s t); auto.
  - cbn [tstep]. destruct (snap_spec c s t sg n info) as (_ & SP).
    assert (EV : forall j k, evt c sg info n <> Some (j, ME k)).
    { intros j k E. unfold evt in E. destruct (tc_incl c) eqn:TI; cbn [andb] in E; [|discriminate]. destruct sg; cbn [negb] in E; [discriminate|].
      destruct info as [p|]; [|discriminate]. destruct (attr_get p (tc_begin c)) eqn:B; [discriminate|].
      destruct (attr_get p (tc_end c)) eqn:En; [|discriminate]. destruct H as [H|[H|H]]; congruence. }
    assert (Z : forall f, incl_out c sg info n f = [] /\ err_inc c sg info n f = 0).
    { intros. unfold incl_out, err_inc. destruct (evt c sg info n) as [[j [k|k]]|] eqn:E; auto. destruct (EV j k); auto. }
    destruct (match ts_info s t with Some i => Some i | None => if sg then None else Some ti_new end) as [i|].
    + destruct SP as (-> & -> & _). destruct (Z (ti_stack i)) as (-> & ->). cbn. split; auto; lia.
    + destruct SP as (-> & _ & ->). auto.
Qed.

(* Threads do not influence each other: the records of a thread are those it would get alone *)
Lemma step_local : forall c s1 s2 t e, ev_thread e = t -> ts_info s1 t = ts_info s2 t ->
  fst (tstep c s1 e) = fst (tstep c s2 e) /\ ts_info (snd (tstep c s1 e)) t = ts_info (snd (tstep c s2 e)) t.
Proof.
  intros c s1 s2 t e E H. destruct e as [u|u sg n info]; cbn [ev_thread] in E; subst u; cbn [tstep].
  - unfold acquire. rewrite <- H. destruct (ts_info s1 t) eqn:E; cbn [fst snd set_info ts_info]; auto.
    + split; congruence.
    + rewrite Nat.eqb_refl. auto.
  - unfold snapshot_cb, acquire. rewrite <- H. destruct (ts_info s1 t) as [i|] eqn:E; [|destruct sg; [cbn; rewrite E, <- H; auto|]].
    + cbn zeta. destruct (if tc_incl c && negb sg then info else None) as [p|]; [|cbn; rewrite Nat.eqb_refl; auto].
      destruct (attr_get p (tc_begin c)); [cbn; rewrite Nat.eqb_refl; auto|].
      destruct (attr_get p (tc_end c)) as [a|]; [|cbn; rewrite Nat.eqb_refl; auto]. cbn [ti_stack].
      destruct (ti_stack i a) as [[|? ?]|]; cbn; rewrite Nat.eqb_refl; auto.
    + cbn zeta. destruct (if tc_incl c && negb false then info else None) as [p|]; [|cbn; rewrite Nat.eqb_refl; auto].
      destruct (attr_get p (tc_begin c)); [cbn; rewrite Nat.eqb_refl; auto|].
      destruct (attr_get p (tc_end c)) as [a|]; cbn; rewrite Nat.eqb_refl; auto.
Qed.
Lemma step_other : forall c s t e, ev_thread e <> t -> ts_info (snd (tstep c s e)) t = ts_info s t.
Proof.
  intros c s t e H. destruct e as [u|u sg n info]; cbn [ev_thread tstep] in *.
  - unfold acquire. destruct (ts_info s u); cbn [snd]; auto. cbn. assert (Nat.eqb t u = false) as -> by (apply Nat.eqb_neq; auto). auto.
  - destruct (snap_spec c s u sg n info) as (A & _). apply A. auto.
Qed.
Theorem C44_thread_isolation : forall c t l,
  outs c t l = outs c t (filter (fun e => Nat.eqb (ev_thread e) t) l).
Proof.
  intros c t l. unfold outs. generalize (eq_refl (ts_info ts_init t)). generalize ts_init at 1 3 as s1. generalize ts_init as s2.
  induction l; intros s2 s1 E; [reflexivity|]. cbn [filter]. destruct (Nat.eqb (ev_thread a) t) eqn:Q.
  - assert (Q' : ev_thread a = t) by (apply Nat.eqb_eq; auto). destruct (step_local c s1 s2 t a Q' E) as (A & B).
    cbn [trun]. destruct (tstep c s1 a) as [o1 s1']. destruct (tstep c s2 a) as [o2 s2']. cbn [fst snd] in *. subst o2.
    specialize (IHl s2' s1' B). destruct (trun c s1' l). destruct (trun c s2' _). cbn [fst] in *. cbn [thread_outs]. rewrite Q. f_equal. auto.
  - assert (Q' : ev_thread a <> t) by (apply Nat.eqb_neq; auto). pose proof (step_other c s1 t a Q') as B.
    cbn [trun]. destruct (tstep c s1 a) as [o1 s1']. cbn [snd] in B. rewrite E in B.
    specialize (IHl s2 s1' B). destruct (trun c s1' l). cbn [fst] in *. cbn [thread_outs]. rewrite Q. auto.
Qed.

(* two threads, nested regions of the same and of another attribute, a signal, an unmatched end *)
Definition tx_cfg : tcfg := mktc true 100 101.
Definition tx_b (a : N) : option attr_path := Some [(50, 7); (100, a)].
Definition tx_e (a : N) : option attr_path := Some [(101, a); (50, 8)].
Definition tx_hist : list tev :=
  [TSnap 1 true 5 None; TThread 0; TSnap 0 false 10 (tx_b 40); TSnap 0 false 25 (tx_b 40); TSnap 1 false 30 (tx_b 40);
   TSnap 0 false 31 (tx_b 41); TSnap 0 true 32 None; TSnap 0 false 40 (tx_e 40); TSnap 0 false 47 (tx_e 41); TSnap 1 false 50 None;
   TSnap 0 false 60 (tx_e 40); TSnap 0 false 61 (tx_e 40)].
Example C44_ex :
  flat_map inclusives (outs tx_cfg 0 tx_hist) = [15; 16; 50] /\ thread_durations tx_cfg 0 tx_hist = [10; 15; 6; 1; 8; 7; 13; 1] /\
  timed_offsets tx_cfg 1 tx_hist = [30; 50] /\ thread_durations tx_cfg 1 tx_hist = [30; 20] /\ errors_after tx_cfg tx_hist = 1.
Proof. vm_compute. repeat split; reflexivity. Qed.
Example C44_ex_open : open_begin (marks tx_cfg 0 40 (firstn 10 tx_hist)) 10.
Proof. exists [], [MB 25; ME 40]. split; [reflexivity|]. apply (bal_pair 25 40 [] []); constructor. Qed.
Example C44_ex_steady : steady (timed_offsets tx_cfg 0 tx_hist).
Proof.
  assert (timed_offsets tx_cfg 0 tx_hist = [10; 25; 31; 32; 40; 47; 60; 61]) as -> by reflexivity.
  split; [repeat constructor|]. intros i j x y L Hx Hy.
  do 8 (destruct i as [|i]; [injection Hx as <-; do 8 (destruct j as [|j]; [try lia; injection Hy as <-; lia|]); destruct j; discriminate|]).
  destruct i; discriminate.
Qed.
