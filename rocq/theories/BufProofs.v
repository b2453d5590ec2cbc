(* C68 proofs, part 1: ownership and contents of the buffers *)
From Verif Require Import Base BufModel BufSpec.

Lemma set_same {A} (f : N -> A) k x : set f k x k = x.
Proof. unfold set. rewrite N.eqb_refl. reflexivity. Qed.
Lemma set_other {A} (f : N -> A) k x j : j <> k -> set f k x j = f j.
Proof. unfold set. intro H. destruct (N.eqb_spec j k); congruence. Qed.
Lemma set_cases {A} (f : N -> A) k x j : (j = k /\ set f k x j = x) \/ (j <> k /\ set f k x j = f j).
Proof. unfold set. destruct (N.eqb_spec j k); auto. Qed.

Global Arguments content : simpl never.
Lemma content_app u l m : content u (l ++ m) = fold_left (keep u) m (content u l).
Proof. apply fold_left_app. Qed.
(* events that do not concern the contents of u *)
Definition touches (u : N) (e : ev) : bool := match e with ESaved v _ | EReset v | EFree v => v =? u | _ => false end.
Lemma keep_id u l acc : forallb (fun e => negb (touches u e)) l = true -> fold_left (keep u) l acc = acc.
Proof.
  revert acc. induction l as [|e l IH]; intros acc H; [reflexivity|]. cbn in *. apply andb_true_iff in H. destruct H as (H1 & H2). apply negb_true_iff in H1.
  replace (keep u acc e) with acc; [auto|]. destruct e; cbn in *; auto; rewrite H1; reflexivity.
Qed.
Lemma content_id u l m : forallb (fun e => negb (touches u e)) m = true -> content u (l ++ m) = content u l.
Proof. intro H. rewrite content_app. apply keep_id; auto. Qed.
Lemma outs_id u o l : forallb (fun e => negb (touches u e)) (map (EOut o) l) = true.
Proof. induction l; cbn; auto. Qed.

Lemma upd_heap s a f b : s_heap (upd s a f) b = if b =? a then option_map f (s_heap s a) else s_heap s b.
Proof.
  unfold upd, acc. destruct (s_heap s a) as [c|] eqn:E; cbn.
  - unfold set. destruct (N.eqb_spec b a); subst; auto.
  - destruct (N.eqb_spec b a) as [->|]; cbn; auto.
Qed.
Lemma upd_opt_heap s o f b : s_heap (upd_opt s o f) b = match o with Some a => if b =? a then option_map f (s_heap s a) else s_heap s b | None => s_heap s b end.
Proof. destruct o; [apply upd_heap|reflexivity]. Qed.
Ltac upd_field := intros; unfold upd_opt, upd, acc; repeat match goal with |- context [match ?x with _ => _ end] => destruct x end; reflexivity.
Lemma upd_own s a f : s_own (upd s a f) = s_own s. Proof. upd_field. Qed.
Lemma upd_gone s a f : s_gone (upd s a f) = s_gone s. Proof. upd_field. Qed.
Lemma upd_pc s a f : s_pc (upd s a f) = s_pc s. Proof. upd_field. Qed.
Lemma upd_log s a f : s_log (upd s a f) = s_log s. Proof. upd_field. Qed.
Lemma upd_fresh s a f : s_fresh (upd s a f) = s_fresh s. Proof. upd_field. Qed.
Lemma upd_lock s a f : s_lock (upd s a f) = s_lock s. Proof. upd_field. Qed.
Lemma upd_list s a f : s_list (upd s a f) = s_list s. Proof. upd_field. Qed.
Lemma upd_drop s a f : s_dropped (upd s a f) = s_dropped s. Proof. upd_field. Qed.
Lemma upd_fault s a f : s_fault (upd s a f) = s_fault s || match s_heap s a with Some _ => false | None => true end.
Proof. unfold upd, acc. destruct (s_heap s a); cbn; [rewrite orb_false_r|rewrite orb_true_r]; reflexivity. Qed.
Lemma uo_own s a f : s_own (upd_opt s a f) = s_own s. Proof. upd_field. Qed.
Lemma uo_gone s a f : s_gone (upd_opt s a f) = s_gone s. Proof. upd_field. Qed.
Lemma uo_pc s a f : s_pc (upd_opt s a f) = s_pc s. Proof. upd_field. Qed.
Lemma uo_log s a f : s_log (upd_opt s a f) = s_log s. Proof. upd_field. Qed.
Lemma uo_fresh s a f : s_fresh (upd_opt s a f) = s_fresh s. Proof. upd_field. Qed.
Lemma uo_lock s a f : s_lock (upd_opt s a f) = s_lock s. Proof. upd_field. Qed.
Lemma uo_list s a f : s_list (upd_opt s a f) = s_list s. Proof. upd_field. Qed.
Lemma uo_drop s a f : s_dropped (upd_opt s a f) = s_dropped s. Proof. upd_field. Qed.
Ltac usimp := rewrite ?upd_own, ?upd_gone, ?upd_pc, ?upd_log, ?upd_fresh, ?upd_lock, ?upd_list, ?upd_drop, ?uo_own, ?uo_gone, ?uo_pc, ?uo_log, ?uo_fresh, ?uo_lock, ?uo_list, ?uo_drop.
(* linking and unlinking change only the pointers *)
Definition core (c c' : cell) : Prop := c_owner c' = c_owner c /\ c_ret c' = c_ret c /\ c_data c' = c_data c /\ c_stop c' = c_stop c.
Lemma core_refl c : core c c. Proof. unfold core; auto. Qed.
Lemma core_trans a b c : core a b -> core b c -> core a c.
Proof. unfold core. intros (A1 & A2 & A3 & A4) (B1 & B2 & B3 & B4). rewrite B1, B2, B3, B4. auto. Qed.
(* the two heaps have the same cells up to a relation *)
Definition hrel (P : N -> cell -> cell -> Prop) (h h' : N -> option cell) : Prop :=
  forall a, match h a, h' a with Some c, Some c' => P a c c' | None, None => True | _, _ => False end.
Lemma hrel_upd (P : N -> cell -> cell -> Prop) s a f : (forall c, P a c (f c)) -> (forall b c, P b c c) -> hrel P (s_heap s) (s_heap (upd s a f)).
Proof. intros Hf Hr b. rewrite upd_heap. destruct (N.eqb_spec b a) as [->|]; destruct (s_heap s _); cbn; auto. Qed.
Lemma hrel_uo (P : N -> cell -> cell -> Prop) s o f : (forall a c, P a c (f c)) -> (forall b c, P b c c) -> hrel P (s_heap s) (s_heap (upd_opt s o f)).
Proof. intros Hf Hr. destruct o; [apply hrel_upd; auto|]. intro b. cbn. destruct (s_heap s b); auto. Qed.
Lemma hrel_trans (P : N -> cell -> cell -> Prop) h1 h2 h3 : (forall a c1 c2 c3, P a c1 c2 -> P a c2 c3 -> P a c1 c3) -> hrel P h1 h2 -> hrel P h2 h3 -> hrel P h1 h3.
Proof. intros T A B a. specialize (A a). specialize (B a). destruct (h1 a), (h2 a), (h3 a); try contradiction; eauto. Qed.
Definition coreP (_ : N) := core.
Lemma coreP_trans (a : N) c1 c2 c3 : coreP a c1 c2 -> coreP a c2 c3 -> coreP a c1 c3. Proof. apply core_trans. Qed.
Lemma link_core s a : hrel coreP (s_heap s) (s_heap (link s a)).
Proof.
  unfold link. cbn [w_list s_heap]. eapply hrel_trans; [apply coreP_trans|apply hrel_uo|apply hrel_upd]; intros; apply core_refl || (unfold coreP, core; cbn; auto).
Qed.
Lemma hrel_refl (P : N -> cell -> cell -> Prop) h : (forall a c, P a c c) -> hrel P h h.
Proof. intros H a. destruct (h a); auto. Qed.
Lemma unlink_core s a tmp : hrel coreP (s_heap s) (s_heap (unlink s a tmp)).
Proof.
  unfold unlink, acc. destruct (s_heap s a) as [c|] eqn:E; [|apply hrel_refl; intros; apply core_refl].
  set (s1 := upd_opt s _ _). set (s2 := upd_opt s1 _ _). replace (s_heap (if oeqb (s_list s2) (Some a) then w_list s2 tmp else s2)) with (s_heap s2) by (destruct (oeqb _ _); reflexivity).
  unfold s2, s1. eapply hrel_trans; [apply coreP_trans|apply hrel_uo|apply hrel_uo]; intros; apply core_refl || (unfold coreP, core; cbn; auto).
Qed.
Ltac link_field := intros; unfold link, unlink, acc; try (destruct (s_heap _ _); [|reflexivity]); cbn; usimp; try (destruct (oeqb _ _)); cbn; usimp; reflexivity.
Lemma link_own s a : s_own (link s a) = s_own s. Proof. link_field. Qed.
Lemma link_gone s a : s_gone (link s a) = s_gone s. Proof. link_field. Qed.
Lemma link_pc s a : s_pc (link s a) = s_pc s. Proof. link_field. Qed.
Lemma link_log s a : s_log (link s a) = s_log s. Proof. link_field. Qed.
Lemma link_fresh s a : s_fresh (link s a) = s_fresh s. Proof. link_field. Qed.
Lemma link_lock s a : s_lock (link s a) = s_lock s. Proof. link_field. Qed.
Lemma link_drop s a : s_dropped (link s a) = s_dropped s. Proof. link_field. Qed.
Lemma unl_own s a t : s_own (unlink s a t) = s_own s. Proof. link_field. Qed.
Lemma unl_gone s a t : s_gone (unlink s a t) = s_gone s. Proof. link_field. Qed.
Lemma unl_pc s a t : s_pc (unlink s a t) = s_pc s. Proof. link_field. Qed.
Lemma unl_log s a t : s_log (unlink s a t) = s_log s. Proof. link_field. Qed.
Lemma unl_fresh s a t : s_fresh (unlink s a t) = s_fresh s. Proof. link_field. Qed.
Lemma unl_lock s a t : s_lock (unlink s a t) = s_lock s. Proof. link_field. Qed.
Lemma unl_drop s a t : s_dropped (unlink s a t) = s_dropped s. Proof. link_field. Qed.

Global Arguments link : simpl never.
Global Arguments unlink : simpl never.
Global Arguments upd : simpl never.
Global Arguments upd_opt : simpl never.
Global Arguments set : simpl never.
(* ---- ownership and contents: every interleaving, with or without flush_lock ---- *)
Definition owns_pc (p : pc) : option N := match p with Link a _ | Loaded a _ | Save a _ => Some a | _ => None end.
Record I1 (s : st) : Prop := {
  i_lt : forall t a, s_own s t = Some a -> a < s_fresh s;
  i_inj : forall t u a, s_own s t = Some a -> s_own s u = Some a -> t = u;
  i_heap : forall a c, s_heap s a = Some c -> s_own s (c_owner c) = Some a;
  i_ret : forall a c, s_heap s a = Some c -> c_ret c = s_gone s (c_owner c);
  i_idle : forall t, s_gone s t = true -> s_pc s t = Idle;
  i_pc : forall t a, owns_pc (s_pc s t) = Some a -> s_own s t = Some a;
  i_data : forall a c, s_heap s a = Some c -> c_data c = content (c_owner c) (s_log s);
  i_free : forall t a, s_own s t = Some a -> (s_heap s a = None <-> In (EFree t) (s_log s));
  i_none : forall t, s_own s t = None -> content t (s_log s) = [] /\ ~ In (EFree t) (s_log s);
  i_freed : forall t, In (EFree t) (s_log s) -> content t (s_log s) = [] /\ exists a, s_own s t = Some a;
  i_rel : forall t, s_gone s t = true <-> In (ERelease t) (s_log s);
  i_new : forall t, s_own s t <> None <-> In (ENew t) (s_log s) }.
Lemma I1_init : I1 st_init.
Proof. constructor; cbn; try discriminate; intros; try tauto; split; try discriminate; try tauto; congruence. Qed.
Definition plain (e : ev) : bool := match e with EFree _ | ERelease _ | ENew _ => false | _ => true end.
Definition cellrel (l m : list ev) (_ : N) (c c' : cell) : Prop :=
  c_owner c' = c_owner c /\ c_ret c' = c_ret c /\ (c_data c = content (c_owner c) l -> c_data c' = content (c_owner c) (l ++ m)).
Lemma plain_in m : forallb plain m = true -> (forall t, ~ In (EFree t) m) /\ (forall t, ~ In (ERelease t) m) /\ (forall t, ~ In (ENew t) m).
Proof. intro H. rewrite forallb_forall in H. split; [|split]; intros t Ht; apply H in Ht; discriminate. Qed.
Lemma I1_frame s s' m : I1 s -> s_own s' = s_own s -> s_fresh s' = s_fresh s -> s_gone s' = s_gone s -> s_log s' = s_log s ++ m -> forallb plain m = true ->
  hrel (cellrel (s_log s) m) (s_heap s) (s_heap s') ->
  (forall t, content t (s_log s ++ m) = content t (s_log s) \/ exists a c, s_own s t = Some a /\ s_heap s a = Some c) ->
  (forall t, s_gone s t = true -> s_pc s' t = Idle) -> (forall t a, owns_pc (s_pc s' t) = Some a -> s_own s t = Some a) -> I1 s'.
Proof.
  intros J Eo Ef Eg El Pl Hh Hc Hi Hp. destruct (plain_in m Pl) as (P1 & P2 & P3).
  assert (Hb : forall a c', s_heap s' a = Some c' -> exists c, s_heap s a = Some c /\ cellrel (s_log s) m a c c').
  { intros a c' E. specialize (Hh a). rewrite E in Hh. destruct (s_heap s a) as [c|]; [eauto|contradiction]. }
  assert (Hn : forall a, s_heap s' a = None <-> s_heap s a = None).
  { intro a. specialize (Hh a). destruct (s_heap s a), (s_heap s' a); try contradiction; split; intro; congruence || auto. }
  assert (HF : forall t, In (EFree t) (s_log s ++ m) <-> In (EFree t) (s_log s)) by (intro t; rewrite in_app_iff; specialize (P1 t); tauto).
  assert (HR : forall t, In (ERelease t) (s_log s ++ m) <-> In (ERelease t) (s_log s)) by (intro t; rewrite in_app_iff; specialize (P2 t); tauto).
  constructor; rewrite ?Eo, ?Ef, ?Eg, ?El; try apply J; auto.
  - intros a c' E. destruct (Hb a c' E) as (c & E1 & (E2 & E3 & E4)). rewrite E2. apply (i_heap s J a c E1).
  - intros a c' E. destruct (Hb a c' E) as (c & E1 & (E2 & E3 & E4)). rewrite E2, E3. apply (i_ret s J a c E1).
  - intros a c' E. destruct (Hb a c' E) as (c & E1 & (E2 & E3 & E4)). rewrite E2. apply E4. apply (i_data s J a c E1).
  - intros t a E. rewrite Hn, HF. apply (i_free s J t a E).
  - intros t E. rewrite HF. destruct (Hc t) as [->|(a & c & E1 & E2)]; [apply (i_none s J t E)|congruence].
  - intros t E. rewrite HF in E. destruct (Hc t) as [->|(a & c & E1 & E2)]; [apply (i_freed s J t E)|]. apply (i_free s J t a E1) in E. congruence.
  - intro t. rewrite HR. apply (i_rel s J t).
  - intro t. rewrite in_app_iff, (i_new s J t). specialize (P3 t). tauto.
Qed.
Definition inert (e : ev) : bool := match e with ESaved _ _ | EReset _ | EFree _ | ERelease _ | ENew _ => false | _ => true end.
Lemma inert_touch m u : forallb inert m = true -> forallb (fun e => negb (touches u e)) m = true.
Proof. intro H. rewrite forallb_forall in *. intros e He. specialize (H e He). destruct e; cbn in *; congruence. Qed.
Lemma inert_plain m : forallb inert m = true -> forallb plain m = true.
Proof. intro H. rewrite forallb_forall in *. intros e He. specialize (H e He). destruct e; cbn in *; congruence. Qed.
(* steps that change neither the contents nor the owners *)
Lemma I1_inert s s' m : I1 s -> s_own s' = s_own s -> s_fresh s' = s_fresh s -> s_gone s' = s_gone s -> s_log s' = s_log s ++ m -> forallb inert m = true ->
  hrel (fun _ c c' => c_owner c' = c_owner c /\ c_ret c' = c_ret c /\ c_data c' = c_data c) (s_heap s) (s_heap s') ->
  (forall t, s_gone s t = true -> s_pc s' t = Idle) -> (forall t a, owns_pc (s_pc s' t) = Some a -> s_own s t = Some a) -> I1 s'.
Proof.
  intros J Eo Ef Eg El Hm Hh Hi Hp. apply (I1_frame s s' m); auto.
  - apply inert_plain; auto.
  - intro a. specialize (Hh a). destruct (s_heap s a), (s_heap s' a); auto. destruct Hh as (H1 & H2 & H3). split; [|split]; auto. intro E. rewrite H3, E. symmetry. apply content_id, inert_touch; auto.
  - intro t. left. apply content_id, inert_touch; auto.
Qed.
Definition sameod (_ : N) (c c' : cell) : Prop := c_owner c' = c_owner c /\ c_ret c' = c_ret c /\ c_data c' = c_data c.
Lemma sameod_refl a c : sameod a c c. Proof. unfold sameod. auto. Qed.
Lemma core_sameod h h' : hrel coreP h h' -> hrel sameod h h'.
Proof. intros H a. specialize (H a). destruct (h a), (h' a); auto. destruct H as (A1 & A2 & A3 & A4). split; auto. Qed.
(* the program counter of a non-exited thread changes *)
Lemma pc_idle s t p u : I1 s -> s_gone s t = false -> s_gone s u = true -> set (s_pc s) t p u = Idle.
Proof. intros J Ht Hu. rewrite set_other by congruence. apply (i_idle s J u Hu). Qed.
Lemma pc_owns s t p u a : I1 s -> owns_pc p = None \/ owns_pc p = owns_pc (s_pc s t) -> owns_pc (set (s_pc s) t p u) = Some a -> s_own s u = Some a.
Proof.
  intros J Hp E. destruct (set_cases (s_pc s) t p u) as [(-> & Es)|(Hu & Es)]; rewrite Es in E; [|apply (i_pc s J u a E)].
  destruct Hp as [Hp|Hp]; rewrite Hp in E; [discriminate|apply (i_pc s J t a E)].
Qed.
Lemma busy_gone s t : I1 s -> s_pc s t <> Idle -> s_gone s t = false.
Proof. intros J H. destruct (s_gone s t) eqn:E; auto. exfalso. apply H, (i_idle s J t E). Qed.
Lemma idle_gone s t p u : I1 s -> s_pc s t <> Idle -> s_gone s u = true -> set (s_pc s) t p u = Idle.
Proof. intros J H. apply pc_idle; auto. apply busy_gone; auto. Qed.
Section P.
Variable lk : bool.
Lemma I1_call s t o : I1 s -> s_pc s t = Idle -> I1 (call s t o).
Proof.
  intros J Hi. unfold call. destruct (s_gone s t) eqn:G; auto.
  assert (HA : forall m0 r, forallb inert m0 = true -> s_own s t = None -> I1 (w_pc (alloc (w_log s (m0 ++ [ENew t])) t) t (Link (s_fresh s) r))).
  { intros m0 r Hm Ho. set (m := m0 ++ [ENew t]). set (a := s_fresh s). assert (Hfa : forall u, s_own s u <> Some a) by (intros u E; apply (i_lt s J) in E; unfold a in E; lia).
    destruct (plain_in m0 (inert_plain m0 Hm)) as (P1 & P2 & P3). assert (Hc : forall u, content u (s_log s ++ m) = content u (s_log s)) by (intro u; apply content_id; unfold m; rewrite forallb_app, inert_touch by auto; reflexivity).
    assert (HF : forall u, In (EFree u) (s_log s ++ m) <-> In (EFree u) (s_log s)) by (intro u; unfold m; rewrite !in_app_iff; cbn; specialize (P1 u); split; [intros [H|[H|[H|[]]]]; try tauto; discriminate|auto]).
    assert (HR : forall u, In (ERelease u) (s_log s ++ m) <-> In (ERelease u) (s_log s)) by (intro u; unfold m; rewrite !in_app_iff; cbn; specialize (P2 u); split; [intros [H|[H|[H|[]]]]; try tauto; discriminate|auto]).
    assert (HN : forall u, In (ENew u) (s_log s ++ m) <-> u = t \/ In (ENew u) (s_log s)) by (intro u; unfold m; rewrite !in_app_iff; cbn; specialize (P3 u); split; [intros [H|[H|[H|[]]]]; try tauto; injection H as <-; auto|intros [->|H]; auto]).
    assert (Ha : s_heap s a = None). { destruct (s_heap s a) as [c|] eqn:E; auto. apply (i_heap s J) in E. exfalso. eapply Hfa; eauto. }
    constructor; cbn; fold a.
    - intros u b. destruct (set_cases (s_own s) t (Some a) u) as [(-> & ->)|(Hu & ->)]; intro E; [injection E as <-; lia|]. apply (i_lt s J) in E. fold a in E. lia.
    - intros u v b. destruct (set_cases (s_own s) t (Some a) u) as [(-> & ->)|(Hu & ->)], (set_cases (s_own s) t (Some a) v) as [(-> & ->)|(Hv & ->)]; auto; intros E1 E2.
      + injection E1 as <-. exfalso. eapply Hfa; eauto.
      + injection E2 as <-. exfalso. eapply Hfa; eauto.
      + apply (i_inj s J u v b); auto.
    - intros b c. destruct (set_cases (s_heap s) a (Some (mkcell t false false None None [])) b) as [(-> & ->)|(Hb & ->)]; intro E; [injection E as <-; cbn; apply set_same|].
      rewrite set_other; [apply (i_heap s J b c E)|]. intro E1. apply (i_heap s J) in E. rewrite E1 in E. congruence.
    - intros b c. destruct (set_cases (s_heap s) a (Some (mkcell t false false None None [])) b) as [(-> & ->)|(Hb & ->)]; intro E; [injection E as <-; cbn; auto|]. apply (i_ret s J b c E).
    - intros u. apply pc_idle; auto.
    - intros u b. destruct (set_cases (s_pc s) t (Link a r) u) as [(-> & ->)|(Hu & ->)]; cbn; intro E; [injection E as <-; apply set_same|]. rewrite set_other by auto. apply (i_pc s J u b E).
    - intros b c. destruct (set_cases (s_heap s) a (Some (mkcell t false false None None [])) b) as [(-> & ->)|(Hb & ->)]; intro E; [injection E as <-; cbn; rewrite Hc; symmetry; apply (i_none s J t Ho)|]. rewrite Hc. apply (i_data s J b c E).
    - intros u b. rewrite HF. destruct (set_cases (s_own s) t (Some a) u) as [(-> & ->)|(Hu & ->)]; intro E.
      + injection E as <-. rewrite set_same. split; [discriminate|]. intro H. apply (i_none s J t Ho) in H. contradiction.
      + rewrite set_other; [apply (i_free s J u b E)|]. intros ->. eapply Hfa; eauto.
    - intros u. rewrite HF, Hc. destruct (set_cases (s_own s) t (Some a) u) as [(-> & ->)|(Hu & ->)]; intro E; [discriminate|]. apply (i_none s J u E).
    - intros u. rewrite HF, Hc. intro E. destruct (i_freed s J u E) as (E1 & b & E2). split; auto. exists b. rewrite set_other; auto. congruence.
    - intros u. rewrite HR. apply (i_rel s J u).
    - intros u. rewrite HN, <- (i_new s J u). destruct (set_cases (s_own s) t (Some a) u) as [(-> & ->)|(Hu & ->)]; [split; [auto|discriminate]|]. tauto. }
  assert (Hp : forall p u, s_gone s u = true -> set (s_pc s) t p u = Idle) by (intros; apply pc_idle; auto).
  destruct o as [|r|clr|].
  - destruct (s_own s t) eqn:Ho; auto. apply (HA [] None eq_refl eq_refl).
  - destruct (s_own s t) as [a|] eqn:Ho; [|apply (HA [EStart t r] (Some r) eq_refl eq_refl)]. apply (I1_inert s _ [EStart t r]); auto; try (apply hrel_refl; auto).
    + cbn. intros u Hu. apply pc_idle; auto.
    + intros u b. cbn. destruct (set_cases (s_pc s) t (Loaded a r) u) as [(-> & ->)|(Hu & ->)]; cbn; [intro E; injection E as <-; auto|apply (i_pc s J u b)].
  - apply (I1_inert s _ []); auto; try (cbn; rewrite app_nil_r; auto; fail).
    + apply hrel_refl; auto.
    + intros u Hu. apply pc_idle; auto.
    + intros u b. apply pc_owns; auto.
  - set (s1 := w_log (w_gone s t) [ERelease t]). set (s' := match s_own s t with Some a => upd s1 a ret_c | None => s1 end).
    assert (Fo : s_own s' = s_own s) by (unfold s'; destruct (s_own s t); usimp; reflexivity).
    assert (Ff : s_fresh s' = s_fresh s) by (unfold s'; destruct (s_own s t); usimp; reflexivity).
    assert (Fg : s_gone s' = set (s_gone s) t true) by (unfold s'; destruct (s_own s t); usimp; reflexivity).
    assert (Fp : s_pc s' = s_pc s) by (unfold s'; destruct (s_own s t); usimp; reflexivity).
    assert (Fl : s_log s' = s_log s ++ [ERelease t]) by (unfold s'; destruct (s_own s t); usimp; reflexivity).
    assert (Hh : forall b, s_heap s' b = if oeqb (s_own s t) (Some b) then option_map ret_c (s_heap s b) else s_heap s b).
    { intro b. unfold s'. destruct (s_own s t) as [a|]; cbn [oeqb]; [|reflexivity]. rewrite upd_heap. rewrite N.eqb_sym. destruct (N.eqb_spec a b); [subst|]; reflexivity. }
    assert (Hc : forall u, content u (s_log s ++ [ERelease t]) = content u (s_log s)) by (intro u; apply content_id; reflexivity).
    assert (HF : forall u, In (EFree u) (s_log s ++ [ERelease t]) <-> In (EFree u) (s_log s)) by (intro u; rewrite in_app_iff; cbn; split; [intros [H|[H|[]]]; [auto|discriminate]|auto]).
    assert (Hb : forall b c', s_heap s' b = Some c' -> exists c, s_heap s b = Some c /\ c_owner c' = c_owner c /\ c_data c' = c_data c /\ c_ret c' = (if c_owner c =? t then true else c_ret c)).
    { intros b c' E. rewrite Hh in E. destruct (s_heap s b) as [c|] eqn:Eb; [|destruct (oeqb _ _); discriminate]. pose proof (i_heap s J b c Eb) as Eo. exists c. split; auto.
      destruct (oeqb (s_own s t) (Some b)) eqn:Q; cbn in E; injection E as <-; cbn.
      - split; [|split]; auto. destruct (s_own s t) as [x|] eqn:Et; [|discriminate]. cbn in Q. apply N.eqb_eq in Q. subst x. rewrite (i_inj s J (c_owner c) t b Eo Et). rewrite N.eqb_refl. reflexivity.
      - split; [|split]; auto. destruct (N.eqb_spec (c_owner c) t) as [X|]; auto. rewrite X in Eo. rewrite Eo in Q. cbn in Q. rewrite N.eqb_refl in Q. discriminate. }
    constructor; rewrite ?Fo, ?Ff, ?Fg, ?Fp, ?Fl; try apply J.
    + intros b c' E. destruct (Hb b c' E) as (c & E1 & -> & _). apply (i_heap s J b c E1).
    + intros b c' E. destruct (Hb b c' E) as (c & E1 & -> & _ & ->). destruct (N.eqb_spec (c_owner c) t) as [->|X]; [rewrite set_same; auto|rewrite set_other by auto; apply (i_ret s J b c E1)].
    + intros u. destruct (set_cases (s_gone s) t true u) as [(-> & _)|(Hu & ->)]; auto. apply J.
    + intros b c' E. destruct (Hb b c' E) as (c & E1 & -> & -> & _). rewrite Hc. apply (i_data s J b c E1).
    + intros u b E. rewrite HF, Hh. rewrite <- (i_free s J u b E). destruct (oeqb _ _); [|tauto]. destruct (s_heap s b); cbn; split; congruence.
    + intros u E. rewrite HF, Hc. apply (i_none s J u E).
    + intros u. rewrite HF, Hc. apply (i_freed s J u).
    + intros u. rewrite in_app_iff. cbn. destruct (set_cases (s_gone s) t true u) as [(-> & ->)|(Hu & ->)]; [split; auto|]. rewrite (i_rel s J u). split; [auto|intros [H|[H|[]]]; [auto|congruence]].
    + intros u. rewrite in_app_iff, (i_new s J u). cbn. split; [auto|intros [H|[H|[]]]; [auto|discriminate]].
Qed.
Ltac inert_step J m := apply (I1_inert _ _ m J); cbn; usimp; auto; try (rewrite app_nil_r; reflexivity).
Lemma I1_fault s : I1 s -> I1 (w_fault s).
Proof. intros []. constructor; auto. Qed.
Lemma I1_step s x : I1 s -> I1 (step lk s x).
Proof.
  intro J. destruct x as [t o]. unfold step. destruct (s_pc s t) as [|a r|a r|a r|clr|clr|clr [a|]|a|a|a|a|a|a|a|a|a tmp|a tmp] eqn:Hpc.
  - apply I1_call; auto.
  - apply (I1_inert s _ [] J); cbn; rewrite ?link_own, ?link_fresh, ?link_gone, ?link_log, ?link_pc, ?app_nil_r; auto.
    + apply core_sameod, link_core.
    + intros u. apply idle_gone; auto. congruence.
    + intros u b. apply pc_owns; auto. rewrite Hpc. destruct r; auto.
  - unfold acc. destruct (s_heap s a) as [c|] eqn:Ea; [|apply I1_fault; auto]. destruct (c_stop c).
    + apply (I1_inert s _ [EDropped t r] J); cbn; auto; [apply hrel_refl; auto| |]; [intros u; apply idle_gone; auto; congruence|intros u b; apply pc_owns; auto].
    + apply (I1_inert s _ [] J); cbn; auto; [rewrite app_nil_r; auto|apply hrel_refl; auto| |]; [intros u; apply idle_gone; auto; congruence|intros u b; apply pc_owns; auto; rewrite Hpc; auto].
  - unfold acc. destruct (s_heap s a) as [c|] eqn:Ea; [|apply I1_fault; auto]. pose proof (i_pc s J t a ltac:(rewrite Hpc; reflexivity)) as Eo.
    assert (Ec : c_owner c = t) by (apply (i_inj s J _ _ a); auto; apply (i_heap s J a c Ea)).
    apply (I1_frame s _ [ESaved t r] J); cbn; usimp; auto.
    + intro b. rewrite upd_heap. cbn. destruct (N.eqb_spec b a) as [->|Hb].
      * rewrite Ea. cbn. split; [|split]; auto. cbn. intros E. rewrite content_app. cbn. rewrite Ec, N.eqb_refl. rewrite <- Ec, <- E. reflexivity.
      * destruct (s_heap s b) as [d|] eqn:Eb; auto. split; [|split]; auto. intros E. rewrite content_app. cbn. destruct (N.eqb_spec t (c_owner d)) as [X|X]; auto. exfalso. apply (i_heap s J) in Eb. rewrite <- X in Eb. congruence.
    + intro u. rewrite content_app. cbn. destruct (N.eqb_spec t u) as [<-|X]; auto. right. eauto.
    + intros u; apply idle_gone; auto; congruence.
    + intros u b; apply pc_owns; auto.
  - assert (H : I1 (w_log (w_lock (w_pc s t (Head clr)) (Some t)) [EBegin t clr])).
    { apply (I1_inert s _ [EBegin t clr] J); cbn; auto; [apply hrel_refl; auto| |]; [intros u; apply idle_gone; auto; congruence|intros u b; apply pc_owns; auto]. }
    destruct lk, (s_lock s); auto.
  - apply (I1_inert s _ [] J); cbn; auto; [rewrite app_nil_r; auto|apply hrel_refl; auto| |]; [intros u; apply idle_gone; auto; congruence|intros u b; apply pc_owns; auto].
  - destruct clr; (apply (I1_inert s _ [] J); cbn; usimp; auto; [rewrite app_nil_r; auto|apply hrel_upd; intros; cbn; auto| |]; [intros u; apply idle_gone; auto; congruence|intros u b; apply pc_owns; auto]).
  - replace (if clr then _ else _) with (w_log (w_lock (w_pc s t Idle) None) [EEnd t]) by (destruct clr; reflexivity). apply (I1_inert s _ [EEnd t] J); cbn; auto; [apply hrel_refl; auto| |]; [intros u; apply idle_gone; auto; congruence|intros u b; apply pc_owns; auto].
  - unfold acc. destruct (s_heap s a) as [c|] eqn:Ea; [|apply I1_fault; auto]. apply (I1_inert s _ (map (EOut (c_owner c)) (c_data c)) J); cbn; auto; [apply forallb_forall; intros e He; apply in_map_iff in He; destruct He as (x & <- & _); reflexivity|apply hrel_refl; auto| |]; [intros u; apply idle_gone; auto; congruence|intros u b; apply pc_owns; auto].
  - apply (I1_inert s _ [] J); cbn; usimp; auto; [rewrite app_nil_r; auto|apply hrel_upd; intros; cbn; auto| |]; [intros u; apply idle_gone; auto; congruence|intros u b; apply pc_owns; auto].
  - unfold acc. destruct (s_heap s a) as [c|] eqn:Ea; [|apply I1_fault; auto]. apply (I1_inert s _ [] J); cbn; auto; [rewrite app_nil_r; auto|apply hrel_refl; auto| |]; [intros u; apply idle_gone; auto; congruence|intros u b; apply pc_owns; auto].
  - unfold acc. destruct (s_heap s a) as [c|] eqn:Ea; [|apply I1_fault; auto]. pose proof (i_heap s J a c Ea) as Eo.
    apply (I1_frame s _ [EReset (c_owner c)] J); cbn; usimp; auto.
    + intro b. rewrite upd_heap. destruct (N.eqb_spec b a) as [->|Hb].
      * rewrite Ea. cbn. split; [|split]; auto. cbn. intros E. rewrite content_app. cbn. rewrite N.eqb_refl. reflexivity.
      * destruct (s_heap s b) as [d|] eqn:Eb; auto. split; [|split]; auto. intros E. rewrite content_app. cbn. destruct (N.eqb_spec (c_owner c) (c_owner d)) as [X|X]; auto. exfalso. apply (i_heap s J) in Eb. rewrite <- X in Eb. congruence.
    + intro u. rewrite content_app. cbn. destruct (N.eqb_spec (c_owner c) u) as [<-|X]; auto. right. eauto.
    + intros u; apply idle_gone; auto; congruence.
    + intros u b; apply pc_owns; auto.
  - apply (I1_inert s _ [] J); cbn; usimp; auto; [rewrite app_nil_r; auto|apply hrel_upd; intros; cbn; auto| |]; [intros u; apply idle_gone; auto; congruence|intros u b; apply pc_owns; auto].
  - unfold acc. destruct (s_heap s a) as [c|] eqn:Ea; [|apply I1_fault; auto]. apply (I1_inert s _ [] J); cbn; auto; [rewrite app_nil_r; auto|apply hrel_refl; auto| |]; [intros u; apply idle_gone; auto; congruence|intros u b; apply pc_owns; auto; destruct (c_ret c); auto].
  - unfold acc. destruct (s_heap s a) as [c|] eqn:Ea; [|apply I1_fault; auto]. apply (I1_inert s _ [] J); cbn; auto; [rewrite app_nil_r; auto|apply hrel_refl; auto| |]; [intros u; apply idle_gone; auto; congruence|intros u b; apply pc_owns; auto].
  - unfold acc. destruct (s_heap s a) as [c|] eqn:Ea; [|apply I1_fault; auto]. apply (I1_inert s _ [] J); cbn; auto; [rewrite app_nil_r; auto|apply hrel_refl; auto| |]; [intros u; apply idle_gone; auto; congruence|intros u b; apply pc_owns; auto].
  - apply (I1_inert s _ [] J); cbn; rewrite ?unl_own, ?unl_fresh, ?unl_gone, ?unl_log, ?unl_pc, ?app_nil_r; auto.
    + apply core_sameod, unlink_core.
    + intros u. apply idle_gone; auto. congruence.
    + intros u b. apply pc_owns; auto.
  - unfold acc. destruct (s_heap s a) as [c|] eqn:Ea; [|apply I1_fault; auto]. pose proof (i_heap s J a c Ea) as Eo. set (o1 := c_owner c) in *.
    assert (Hh : forall b d, set (s_heap s) a None b = Some d -> b <> a /\ s_heap s b = Some d) by (intros b d; destruct (set_cases (s_heap s) a None b) as [(-> & ->)|(Hb & ->)]; [discriminate|auto]).
    assert (HF : forall u, In (EFree u) (s_log s ++ [EFree o1]) <-> u = o1 \/ In (EFree u) (s_log s)) by (intro u; rewrite in_app_iff; cbn; split; [intros [H|[H|[]]]; [auto|injection H as <-; auto]|intros [->|H]; auto]).
    assert (HR : forall u, In (ERelease u) (s_log s ++ [EFree o1]) <-> In (ERelease u) (s_log s)) by (intro u; rewrite in_app_iff; cbn; split; [intros [H|[H|[]]]; [auto|discriminate]|auto]).
    assert (Hc : forall u, content u (s_log s ++ [EFree o1]) = if o1 =? u then [] else content u (s_log s)) by (intro u; rewrite content_app; reflexivity).
    constructor; cbn; try apply J.
    + intros b d E. apply Hh in E. destruct E as (_ & E). apply (i_heap s J b d E).
    + intros b d E. apply Hh in E. destruct E as (_ & E). apply (i_ret s J b d E).
    + intros u. apply idle_gone; auto. congruence.
    + intros u b. apply pc_owns; auto.
    + intros b d E. apply Hh in E. destruct E as (Hb & E). rewrite Hc. destruct (N.eqb_spec o1 (c_owner d)) as [X|X]; [|apply (i_data s J b d E)]. apply (i_heap s J) in E. rewrite <- X in E. congruence.
    + intros u b E. rewrite HF. destruct (set_cases (s_heap s) a None b) as [(-> & ->)|(Hb & ->)].
      * split; auto. intros _. left. apply (i_inj s J u o1 a); auto.
      * rewrite (i_free s J u b E). split; auto. intros [->|H]; auto. congruence.
    + intros u E. rewrite HF, Hc. destruct (i_none s J u E) as (E1 & E2). destruct (N.eqb_spec o1 u) as [<-|X]; [congruence|]. split; auto. intros [H|H]; congruence || auto.
    + intros u. rewrite HF, Hc. intros [->|H]; [rewrite N.eqb_refl; eauto|]. destruct (i_freed s J u H) as (E1 & E2). split; auto. destruct (o1 =? u); auto.
    + intros u. rewrite HR. apply (i_rel s J u).
    + intros u. rewrite in_app_iff, (i_new s J u). cbn. split; [auto|intros [H|[H|[]]]; [auto|discriminate]].
Qed.
Lemma I1_run sched : I1 (run lk sched).
Proof.
  unfold run. assert (H : forall s, I1 s -> I1 (fold_left (step lk) sched s)); [|apply H, I1_init]. induction sched as [|x l IH]; intros s J; cbn; auto. apply IH, I1_step, J.
Qed.
End P.
