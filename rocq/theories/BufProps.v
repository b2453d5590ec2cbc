(* C68: per-thread buffers with concurrent recording, flushing, clearing and thread exit *)
From Verif Require Import Base BufModel BufSpec BufProofs BufProofs2 BufProofs3.

(* what a completed flush (clear) between the logs a and a ++ EBegin :: b has done *)
Definition flush_done (a b : list ev) : Prop := forall u, exists extra, written u b = content u a ++ extra /\ prefix extra (saved u b).
Definition clear_done (a b : list ev) : Prop :=
  (forall u, content u a <> [] -> In (EReset u) b) /\ (forall u, In (ERelease u) a -> In (ENew u) a -> In (EFree u) (a ++ b)).
Definition Pev (l : list ev) (e : ev) : Prop :=
  match e with
  | EFree u => In (ERelease u) l /\ ~ In (EFree u) l
  | EDropped t r => busy l
  | EEnd t => exists a b clr, l = a ++ EBegin t clr :: b /\ quiet b /\ if clr then clear_done a b else flush_done a b
  | ESaved t r => ~ In (ERelease t) l
  | _ => True
  end.
Definition good (l : list ev) : Prop := forall a e b, l = a ++ e :: b -> Pev a e.
Lemma good_nil : good []. Proof. intros a e b E. destruct a; discriminate. Qed.
Lemma good_snoc l e : good l -> Pev l e -> good (l ++ [e]).
Proof.
  intros G P a x b E. destruct b as [|y b _] using rev_ind.
  - apply app_inj_tail in E. destruct E as (-> & ->). exact P.
  - change (a ++ x :: b ++ [y]) with (a ++ (x :: b) ++ [y]) in E. rewrite app_assoc in E. apply app_inj_tail in E. destruct E as (E & _). apply (G a x b E).
Qed.
Definition dull (e : ev) : bool := match e with EFree _ | EDropped _ _ | EEnd _ | ESaved _ _ | EBegin _ _ => false | _ => true end.
Lemma good_dull l m : good l -> forallb dull m = true -> good (l ++ m).
Proof.
  revert l. induction m as [|e m IH]; intros l G H; [rewrite app_nil_r; auto|]. cbn in H. apply andb_true_iff in H. destruct H as (H1 & H2). change (e :: m) with ([e] ++ m). rewrite app_assoc. apply IH; auto. apply good_snoc; auto. destruct e; cbn in *; auto; discriminate.
Qed.
Lemma dull_quiet m : forallb dull m = true -> quiet m.
Proof. intro H. unfold quiet. rewrite forallb_forall in *. intros e He. specialize (H e He). destruct e; cbn in *; congruence. Qed.
Lemma dull_out o l : forallb dull (map (EOut o) l) = true.
Proof. induction l; cbn; auto. Qed.
Lemma fin_quiet o m : quiet m -> fin o m = o.
Proof. unfold quiet, fin. revert o. induction m as [|e m IH]; intros o H; [reflexivity|]. cbn in *. apply andb_true_iff in H. destruct H as (H1 & H2). destruct e; cbn in *; try discriminate; auto. Qed.
Lemma serial_quiet o m : quiet m -> serial_from o m.
Proof. unfold quiet. revert o. induction m as [|e m IH]; intros o H; [exact Logic.I|]. cbn in *. apply andb_true_iff in H. destruct H as (H1 & H2). destruct e; cbn in *; try discriminate; auto. Qed.
Section P.
Variable lk : bool.
Definition kind (s s' : st) (t : N) (m : list ev) : Prop :=
  (quiet m /\ s_lock s' = s_lock s) \/ (exists clr, m = [EBegin t clr] /\ s_lock s' = Some t /\ (lk = true -> s_lock s = None)) \/ (m = [EEnd t] /\ s_lock s' = None /\ s_lock s = Some t).
Lemma step_log s L t o : I1 s -> I2 s L -> I3 s L -> exists m, s_log (step lk s (t, o)) = s_log s ++ m /\ kind s (step lk s (t, o)) t m /\ (good (s_log s) -> good (s_log s ++ m)).
Proof.
  intros J1 J2 J3. unfold step. 
  assert (D : forall s' m, s_log s' = s_log s ++ m -> forallb dull m = true -> s_lock s' = s_lock s -> exists m, s_log s' = s_log s ++ m /\ kind s s' t m /\ (good (s_log s) -> good (s_log s ++ m))).
  { intros s' m E H Hl. exists m. split; auto. split; [left; split; [apply dull_quiet; auto|auto]|]. intro G. apply good_dull; auto. }
  destruct (s_pc s t) as [|a r|a r|a r|clr|clr|clr [a|]|a|a|a|a|a|a|a|a|a tmp|a tmp] eqn:Hpc.
  - unfold call. destruct (s_gone s t); [apply (D s []); auto; rewrite app_nil_r; auto|]. destruct o as [|r|clr|].
    + destruct (s_own s t); [apply (D s []); auto; rewrite app_nil_r; auto|]. apply (D _ [ENew t]); auto.
    + destruct (s_own s t); [apply (D _ [EStart t r]); auto|]. apply (D _ [EStart t r; ENew t]); auto.
    + apply (D _ []); auto. cbn. rewrite app_nil_r. auto.
    + destruct (s_own s t); apply (D _ [ERelease t]); usimp; auto.
  - apply (D _ []); cbn; rewrite ?link_log, ?link_lock, ?app_nil_r; auto.
  - destruct (step_heap s L t a J1 J2) as (c & Ec); try (rewrite Hpc; (reflexivity || discriminate)). unfold acc. rewrite Ec. destruct (c_stop c) eqn:Es.
    + exists [EDropped t r]. split; [reflexivity|]. split; [left; split; reflexivity|]. intro G. apply good_snoc; auto. cbn. destruct (j_stop s L J2 a c Ec Es) as (v & Hv).
      assert (Hm : exists clr, mode (s_pc s v) = Some clr) by (destruct (s_pc s v); cbn in *; try discriminate; eauto). destruct Hm as (clr & Hm). destruct (J3 v clr Hm) as (l1 & l2 & W & V & R & El & Hq & _). exists l1, v, clr, l2. auto.
    + apply (D _ []); cbn; rewrite ?app_nil_r; auto.
  - destruct (step_heap s L t a J1 J2) as (c & Ec); try (rewrite Hpc; (reflexivity || discriminate)). unfold acc. rewrite Ec. exists [ESaved t r]. split; [cbn; usimp; reflexivity|]. split; [left; split; [reflexivity|cbn; usimp; reflexivity]|]. intro G. apply good_snoc; auto. cbn. rewrite <- (i_rel s J1 t). intro Hg. apply (i_idle s J1) in Hg. congruence.
  - assert (B : (lk = true -> s_lock s = None) -> exists m, s_log (w_log (w_lock (w_pc s t (Head clr)) (Some t)) [EBegin t clr]) = s_log s ++ m /\ kind s (w_log (w_lock (w_pc s t (Head clr)) (Some t)) [EBegin t clr]) t m /\ (good (s_log s) -> good (s_log s ++ m))).
    { intro Hl. exists [EBegin t clr]. split; [reflexivity|]. split; [right; left; exists clr; auto|]. intro G. apply good_snoc; auto. exact Logic.I. }
    destruct lk eqn:Elk, (s_lock s) as [u|] eqn:El; try (apply B; congruence). apply (D s []); auto. rewrite app_nil_r. auto.
  - apply (D _ []); cbn; rewrite ?app_nil_r; auto.
  - destruct clr; apply (D _ []); cbn; usimp; rewrite ?app_nil_r; auto.
  - assert (Hl : s_lock s = Some t) by (apply (j_lock s L J2 t); rewrite Hpc; reflexivity).
    replace (if clr then _ else _) with (w_log (w_lock (w_pc s t Idle) None) [EEnd t]) by (destruct clr; reflexivity). exists [EEnd t]. split; [reflexivity|]. split; [right; right; auto|]. intro G. apply good_snoc; auto.
    destruct (J3 t clr ltac:(rewrite Hpc; reflexivity)) as (l1 & l2 & W & V & R & El & Hq & EL & Hw & Hp & Hc). rewrite Hpc in *. cbn in Hp. assert (R = []) by (destruct R; [auto|discriminate]). subst R. exists l1, l2, clr. split; auto. split; auto. destruct clr.
    + split; intro u; destruct (Hc u) as (H1 & H2).
      * intro N. destruct H1 as [H1|[(x & _ & [])|H1]]; auto. contradiction.
      * intros A1 A2. destruct (H2 A1 A2) as [H|(b & _ & [[]|[]])]. auto.
    + intro u. destruct (Hc u) as (H1 & [(_ & H2)|(H2 & [(x & _ & [])|H3])]); auto. exists []. rewrite H2, H3. split; auto. exists (saved u l2). reflexivity.
  - pose proof (j_pc s L J2 t) as P. rewrite Hpc in P. cbn in P. destruct (in_heap s L a J2 P) as (c & Ec). unfold acc. rewrite Ec. apply (D _ (map (EOut (c_owner c)) (c_data c))); cbn; auto. apply dull_out.
  - apply (D _ []); cbn; usimp; rewrite ?app_nil_r; auto.
  - unfold acc. destruct (s_heap s a); apply (D _ []); cbn; rewrite ?app_nil_r; auto.
  - unfold acc. destruct (s_heap s a) as [c|]; [apply (D _ [EReset (c_owner c)]); cbn; usimp; auto|]. apply (D _ []); cbn; rewrite ?app_nil_r; auto.
  - apply (D _ []); cbn; usimp; rewrite ?app_nil_r; auto.
  - unfold acc. destruct (s_heap s a); apply (D _ []); cbn; rewrite ?app_nil_r; auto.
  - unfold acc. destruct (s_heap s a); apply (D _ []); cbn; rewrite ?app_nil_r; auto.
  - unfold acc. destruct (s_heap s a); apply (D _ []); cbn; rewrite ?app_nil_r; auto.
  - apply (D _ []); cbn; rewrite ?unl_log, ?unl_lock, ?app_nil_r; auto.
  - pose proof (j_pc s L J2 t) as P. rewrite Hpc in P. cbn in P. destruct P as (_ & (c & Ec & Er) & _). unfold acc. rewrite Ec. exists [EFree (c_owner c)]. split; [reflexivity|]. split; [left; split; reflexivity|]. intro G. apply good_snoc; auto. cbn. pose proof (i_heap s J1 a c Ec) as Eo. split.
    + apply (i_rel s J1). rewrite <- (i_ret s J1 a c Ec). auto.
    + intro H. apply (i_free s J1 _ a Eo) in H. congruence.
Qed.
Definition Inv (s : st) : Prop := I1 s /\ (exists L, I2 s L /\ I3 s L) /\ fin None (s_log s) = s_lock s /\ serial (s_log s) /\ good (s_log s).
Lemma Inv_init : Inv st_init.
Proof.
  split; [apply I1_init|]. split; [exists []; split; [apply I2_init|]; intros t clr H; discriminate|]. split; [reflexivity|]. split; [exact Logic.I|apply good_nil].
Qed.
Lemma Inv_step s x : Inv s -> (lk = true \/ serial (s_log (step lk s x))) -> Inv (step lk s x).
Proof.
  intros (J1 & (L & J2 & J3) & Hf & Hs & Hg) Hser. destruct x as [t o]. destruct (step_log s L t o J1 J2 J3) as (m & El & K & G).
  assert (Hs' : serial (s_log (step lk s (t, o)))).
  { destruct Hser as [Hlk|]; auto. rewrite El. apply serial_app. split; auto. rewrite Hf. destruct K as [(Q & _)|[(clr & -> & _ & H)|(-> & _ & H)]]; [apply serial_quiet; auto| |]; cbn; auto. }
  destruct (I2_step lk s L (t, o) J1 J2 Hf Hser) as (L' & J2' & HL). split; [apply I1_step; auto|]. split; [exists L'; split; auto; apply (I3_step lk s L L' (t, o)); auto|].
  split; [|split; [auto|rewrite El; auto]]. rewrite El, fin_app, Hf. destruct K as [(Q & H)|[(clr & -> & H & _)|(-> & H & _)]]; [rewrite fin_quiet by auto|..]; symmetry; exact H.
Qed.
Lemma log_grows s x : exists m, s_log (step lk s x) = s_log s ++ m.
Proof.
  destruct x as [t o]. unfold step. assert (Z : exists m, s_log s = s_log s ++ m) by (exists []; rewrite app_nil_r; auto).
  destruct (s_pc s t) as [|a r|a r|a r|clr|clr|clr [a|]|a|a|a|a|a|a|a|a|a tmp|a tmp]; unfold call, acc; repeat match goal with |- context [match ?x with _ => _ end] => destruct x end; cbn; usimp; rewrite ?link_log, ?unl_log; cbn; eauto.
Qed.
Lemma Inv_run sched : (lk = true \/ serial (s_log (run lk sched))) -> Inv (run lk sched).
Proof.
  unfold run. induction sched as [|x l IH] using rev_ind; intro H; [apply Inv_init|]. rewrite fold_left_app in *. cbn in *. apply Inv_step; auto. apply IH. destruct H as [H|H]; auto. right. destruct (log_grows (fold_left (step lk) l st_init) x) as (m & E). rewrite E in H. apply serial_app in H. apply H.
Qed.
End P.
Lemma mark_unique a a' t t' c c' b b' : quiet b -> quiet b' -> a ++ EBegin t c :: b = a' ++ EBegin t' c' :: b' -> a = a' /\ c = c' /\ b = b'.
Proof.
  intros Q Q' E. revert a' E. induction a as [|x a IH]; intros [|y a'] E; cbn in E.
  - injection E as -> -> ->. auto.
  - injection E as <- E. exfalso. subst b. apply quiet_app in Q. destruct Q as (_ & Q). cbn in Q. discriminate.
  - injection E as -> E. exfalso. subst b'. apply quiet_app in Q'. destruct Q' as (_ & Q'). cbn in Q'. discriminate.
  - injection E as -> E. destruct (IH a' E) as (-> & -> & ->). auto.
Qed.
(* ---- theorems ---- *)
(* with flush_lock (trace service), flushes and clears never overlap *)
Theorem C68_serial : forall sched, serial (s_log (run true sched)).
Proof. intro sched. destruct (Inv_run true sched (or_introl eq_refl)) as (_ & _ & _ & H & _). exact H. Qed.
(* no access to deleted buffers, no double deletion: always with flush_lock, and without it
   (aggregate service) as long as flushes and clears do not overlap *)
Theorem C68_memory : forall lk sched, lk = true \/ serial (s_log (run lk sched)) -> s_fault (run lk sched) = false.
Proof. intros lk sched H. destruct (Inv_run lk sched H) as (_ & (L & J & _) & _). apply (j_fault _ L J). Qed.
(* A flush writes, for every thread, exactly the records that were saved and not cleared before it
   began, each once and in order, possibly followed by records saved while it was running *)
Theorem C68_flush : forall lk sched a t b c, lk = true \/ serial (s_log (run lk sched)) ->
  s_log (run lk sched) = a ++ EBegin t false :: b ++ EEnd t :: c -> quiet b ->
  forall u, exists extra, written u b = content u a ++ extra /\ prefix extra (saved u b).
Proof.
  intros lk sched a t b c H E Q. destruct (Inv_run lk sched H) as (_ & _ & _ & _ & G). specialize (G (a ++ EBegin t false :: b) (EEnd t) c). rewrite E, <- app_assoc in G. specialize (G eq_refl). cbn in G.
  destruct G as (a' & b' & clr & E1 & Q1 & C). destruct (mark_unique _ _ _ _ _ _ _ _ Q Q1 E1) as (<- & <- & <-). exact C.
Qed.
(* in particular, if no records are saved meanwhile, exactly the contents *)
Theorem C68_flush_quiet : forall lk sched a t b c, lk = true \/ serial (s_log (run lk sched)) ->
  s_log (run lk sched) = a ++ EBegin t false :: b ++ EEnd t :: c -> quiet b -> (forall u, saved u b = []) ->
  forall u, written u b = content u a.
Proof.
  intros lk sched a t b c H E Q S u. destruct (C68_flush lk sched a t b c H E Q u) as (x & -> & (y & Hy)). rewrite S in Hy. symmetry in Hy. apply app_eq_nil in Hy. destruct Hy as (-> & _). apply app_nil_r.
Qed.
(* A clear empties every buffer that held records when it began, and deletes the buffers of all
   threads that had exited when it began *)
Theorem C68_clear : forall lk sched a t b c, lk = true \/ serial (s_log (run lk sched)) ->
  s_log (run lk sched) = a ++ EBegin t true :: b ++ EEnd t :: c -> quiet b ->
  (forall u, content u a <> [] -> In (EReset u) b) /\
  (forall u, In (ERelease u) a -> In (ENew u) a -> In (EFree u) (a ++ b)).
Proof.
  intros lk sched a t b c H E Q. destruct (Inv_run lk sched H) as (_ & _ & _ & _ & G). specialize (G (a ++ EBegin t true :: b) (EEnd t) c). rewrite E, <- app_assoc in G. specialize (G eq_refl). cbn in G.
  destruct G as (a' & b' & clr & E1 & Q1 & C). destruct (mark_unique _ _ _ _ _ _ _ _ Q Q1 E1) as (<- & <- & <-). exact C.
Qed.
(* Buffers are deleted once, and only after their thread has exited *)
Theorem C68_delete : forall lk sched a u b, lk = true \/ serial (s_log (run lk sched)) ->
  s_log (run lk sched) = a ++ EFree u :: b -> In (ERelease u) a /\ ~ In (EFree u) a /\ ~ In (EFree u) b.
Proof.
  intros lk sched a u b H E. destruct (Inv_run lk sched H) as (_ & _ & _ & _ & G). destruct (G _ _ _ E) as (G1 & G2). split; auto. split; auto. intro Hb. apply in_split in Hb. destruct Hb as (b1 & b2 & ->).
  change (a ++ EFree u :: b1 ++ EFree u :: b2) with (a ++ (EFree u :: b1) ++ EFree u :: b2) in E. rewrite app_assoc in E. destruct (G _ _ _ E) as (_ & G3). apply G3, in_app_iff. right. left. auto.
Qed.
(* A record is dropped only while a flush or clear is in progress *)
Theorem C68_drop : forall lk sched a t r b, lk = true \/ serial (s_log (run lk sched)) ->
  s_log (run lk sched) = a ++ EDropped t r :: b -> busy a.
Proof. intros lk sched a t r b H E. destruct (Inv_run lk sched H) as (_ & _ & _ & _ & G). exact (G _ _ _ E). Qed.

(* ---- every record is accounted for ---- *)
Lemma flat_snoc {X Y} (f : X -> list Y) l m : flat_map f (l ++ m) = flat_map f l ++ flat_map f m.
Proof. apply flat_map_app. Qed.
Definition acct (s : st) : Prop := (forall t, started t (s_log s) = handled t (s_log s) ++ pending (s_pc s t)) /\ s_dropped s = drops (s_log s).
Lemma drops_app l m : drops (l ++ m) = (drops l + drops m)%nat.
Proof. unfold drops. rewrite filter_app, app_length. reflexivity. Qed.
Definition flat (e : ev) : bool := match e with EStart _ _ | ESaved _ _ | EDropped _ _ => false | _ => true end.
Lemma flat_started t m : forallb flat m = true -> started t m = [].
Proof. unfold started. induction m as [|e m IH]; cbn; auto. intro H. apply andb_true_iff in H. destruct H as (H1 & H2). rewrite IH by auto. destruct e; cbn in *; auto; discriminate. Qed.
Lemma flat_handled t m : forallb flat m = true -> handled t m = [].
Proof. unfold handled. induction m as [|e m IH]; cbn; auto. intro H. apply andb_true_iff in H. destruct H as (H1 & H2). rewrite IH by auto. destruct e; cbn in *; auto; discriminate. Qed.
Lemma flat_drops m : forallb flat m = true -> drops m = O.
Proof. unfold drops. induction m as [|e m IH]; cbn; auto. intro H. apply andb_true_iff in H. destruct H as (H1 & H2). destruct e; cbn in *; auto; discriminate. Qed.
Lemma flat_outs o l : forallb flat (map (EOut o) l) = true.
Proof. induction l; cbn; auto. Qed.
(* a step of thread t that logs m and leaves thread t at p *)
Lemma acct_flat s s' t m p : acct s -> s_log s' = s_log s ++ m -> forallb flat m = true -> s_pc s' = set (s_pc s) t p -> pending p = pending (s_pc s t) -> s_dropped s' = s_dropped s -> acct s'.
Proof.
  intros (A1 & A2) El F Ep Hp Ed. split.
  - intro u. rewrite El, Ep. unfold started, handled. rewrite !flat_snoc. fold (started u (s_log s)) (started u m) (handled u (s_log s)) (handled u m). rewrite (flat_started u m F), (flat_handled u m F). rewrite !app_nil_r, A1. unfold set. destruct (N.eqb_spec u t) as [->|]; [rewrite Hp|]; reflexivity.
  - rewrite El, drops_app, (flat_drops m F). rewrite Ed, A2. lia.
Qed.
Lemma acct_gen s s' t m p : acct s -> s_log s' = s_log s ++ m -> s_pc s' = set (s_pc s) t p ->
  pending (s_pc s t) ++ started t m = handled t m ++ pending p -> (forall u, u <> t -> started u m = [] /\ handled u m = []) -> s_dropped s' = (s_dropped s + drops m)%nat -> acct s'.
Proof.
  intros (A1 & A2) El Ep Hp Ho Ed. split.
  - intro u. rewrite El, Ep. unfold started, handled. rewrite !flat_snoc. fold (started u (s_log s)) (started u m) (handled u (s_log s)) (handled u m). unfold set. rewrite A1. destruct (N.eqb_spec u t) as [->|Ne].
    + rewrite <- app_assoc, Hp, app_assoc. reflexivity.
    + destruct (Ho u Ne) as (-> & ->). rewrite !app_nil_r. reflexivity.
  - rewrite El, drops_app, Ed, A2. reflexivity.
Qed.
Lemma acct_same s s' : acct s -> s_log s' = s_log s -> s_pc s' = s_pc s -> s_dropped s' = s_dropped s -> acct s'.
Proof. unfold acct. intros A El Ep Ed. rewrite El, Ep, Ed. exact A. Qed.
Lemma acct_step lk s x : acct s -> acct (step lk s x).
Proof.
  destruct x as [t o]. intro A. unfold step. destruct (s_pc s t) as [|a r|a r|a r|clr|clr|clr [a|]|a|a|a|a|a|a|a|a|a tmp|a tmp] eqn:Hpc.
  - unfold call. destruct (s_gone s t); auto. destruct o as [|r|clr|].
    + destruct (s_own s t); auto. apply (acct_flat s _ t [ENew t] (Link (s_fresh s) None)); auto. rewrite Hpc. reflexivity.
    + destruct (s_own s t) as [a|].
      * apply (acct_gen s _ t [EStart t r] (Loaded a r)); auto; [rewrite Hpc; cbn; rewrite N.eqb_refl; reflexivity|..]; try (cbn; lia). intros u Ne. cbn. rewrite (proj2 (N.eqb_neq t u)) by auto. auto.
      * apply (acct_gen s _ t [EStart t r; ENew t] (Link (s_fresh s) (Some r))); auto; [rewrite Hpc; cbn; rewrite N.eqb_refl; reflexivity|..]; try (cbn; lia). intros u Ne. cbn. rewrite (proj2 (N.eqb_neq t u)) by auto. auto.
    + apply (acct_flat s _ t [] (Lock clr)); auto; [cbn; rewrite app_nil_r; auto|rewrite Hpc; reflexivity].
    + assert (B : acct (w_log (w_gone s t) [ERelease t])).
      { destruct A as (A1 & A2). split; cbn [s_log w_log w_gone s_pc s_dropped].
        - intro u. unfold started, handled. rewrite !flat_snoc. cbn. rewrite !app_nil_r. apply A1.
        - rewrite drops_app, A2. cbn. lia. }
      destruct (s_own s t) as [a|]; auto. apply (acct_same _ _ B); usimp; reflexivity.
  - apply (acct_flat s _ t [] (match r with Some n => Loaded a n | None => Idle end)); auto; cbn; rewrite ?link_log, ?link_pc, ?link_drop, ?app_nil_r; auto. rewrite Hpc. destruct r; reflexivity.
  - unfold acc. destruct (s_heap s a) as [c|]; [|apply (acct_same s); auto]. destruct (c_stop c).
    + apply (acct_gen s _ t [EDropped t r] Idle); auto; [rewrite Hpc; cbn; rewrite N.eqb_refl; reflexivity| |cbn; lia]. intros u Ne. cbn. rewrite (proj2 (N.eqb_neq t u)) by auto. auto.
    + apply (acct_flat s _ t [] (Save a r)); auto; [cbn; rewrite app_nil_r; auto|rewrite Hpc; reflexivity].
  - unfold acc. destruct (s_heap s a) as [c|]; [|apply (acct_same s); auto].
    apply (acct_gen s _ t [ESaved t r] Idle); auto; try (cbn; usimp; cbn; auto; lia); [rewrite Hpc; cbn; rewrite N.eqb_refl; reflexivity|]. intros u Ne. cbn. rewrite (proj2 (N.eqb_neq t u)) by auto. auto.
  - assert (B : acct (w_log (w_lock (w_pc s t (Head clr)) (Some t)) [EBegin t clr])) by (apply (acct_flat s _ t [EBegin t clr] (Head clr)); auto; rewrite Hpc; reflexivity).
    destruct lk, (s_lock s); auto.
  - apply (acct_flat s _ t [] (At clr (s_list s))); auto; [cbn; rewrite app_nil_r; auto|rewrite Hpc; reflexivity].
  - destruct clr; [apply (acct_flat s _ t [] (CReset a))|apply (acct_flat s _ t [] (FRead a))]; auto; cbn; usimp; rewrite ?app_nil_r, ?Hpc; auto.
  - destruct clr; apply (acct_flat s _ t [EEnd t] Idle); auto; rewrite Hpc; reflexivity.
  - unfold acc. destruct (s_heap s a) as [c|]; [|apply (acct_same s); auto]. apply (acct_flat s _ t (map (EOut (c_owner c)) (c_data c)) (FUnstop a)); auto; [apply flat_outs|rewrite Hpc; reflexivity].
  - apply (acct_flat s _ t [] (FNext a)); auto; cbn; usimp; rewrite ?app_nil_r, ?Hpc; auto.
  - unfold acc. destruct (s_heap s a) as [c|]; [|apply (acct_same s); auto]. apply (acct_flat s _ t [] (At false (c_next c))); auto; cbn; rewrite ?app_nil_r, ?Hpc; auto.
  - unfold acc. destruct (s_heap s a) as [c|]; [|apply (acct_same s); auto]. apply (acct_flat s _ t [EReset (c_owner c)] (CUnstop a)); auto; cbn; usimp; rewrite ?Hpc; auto.
  - apply (acct_flat s _ t [] (CTest a)); auto; cbn; usimp; rewrite ?app_nil_r, ?Hpc; auto.
  - unfold acc. destruct (s_heap s a) as [c|]; [|apply (acct_same s); auto]. apply (acct_flat s _ t [] (if c_ret c then CTmp a else CNext a)); auto; cbn; rewrite ?app_nil_r, ?Hpc; auto. destruct (c_ret c); auto.
  - unfold acc. destruct (s_heap s a) as [c|]; [|apply (acct_same s); auto]. apply (acct_flat s _ t [] (At true (c_next c))); auto; cbn; rewrite ?app_nil_r, ?Hpc; auto.
  - unfold acc. destruct (s_heap s a) as [c|]; [|apply (acct_same s); auto]. apply (acct_flat s _ t [] (CUnlink a (c_next c))); auto; cbn; rewrite ?app_nil_r, ?Hpc; auto.
  - apply (acct_flat s _ t [] (CDelete a tmp)); auto; cbn; rewrite ?unl_log, ?unl_pc, ?unl_drop, ?app_nil_r, ?Hpc; auto.
  - unfold acc. destruct (s_heap s a) as [c|]; [|apply (acct_same s); auto]. apply (acct_flat s _ t [EFree (c_owner c)] (At true tmp)); auto; cbn; rewrite ?Hpc; auto.
Qed.
(* Every record a thread hands over is saved or counted as dropped, in order: the records of its
   completed calls are exactly the saved and dropped ones, and the drop counter is their number *)
Theorem C68_account : forall lk sched,
  (forall t, started t (s_log (run lk sched)) = handled t (s_log (run lk sched)) ++ pending (s_pc (run lk sched) t)) /\
  s_dropped (run lk sched) = drops (s_log (run lk sched)).
Proof.
  intros lk sched. change (acct (run lk sched)). unfold run. induction sched as [|x l IH] using rev_ind; [split; reflexivity|]. rewrite fold_left_app. apply acct_step. exact IH.
Qed.

(* ---- examples ---- *)
Definition steps (t : N) (n : nat) : list (N * op) := repeat (t, OCreate) n.
(* thread t records r (first: links its buffer) *)
Definition rec_new (t r : N) : list (N * op) := (t, OProc r) :: steps t 3.
Definition rec_more (t r : N) : list (N * op) := (t, OProc r) :: steps t 2.
(* a flush or clear by thread t over n buffers, of which k are deleted *)
Definition flush_by (t : N) (n : nat) : list (N * op) := (t, OFlush false) :: steps t (4 * n + 3).
Definition clear_by (t : N) (n k : nat) : list (N * op) := (t, OFlush true) :: steps t (5 * n + 2 * k + 3).
(* threads 1 and 2 record, 1 exits, thread 3 flushes and clears; 2 records again, is flushed *)
Definition ex_sched : list (N * op) :=
  rec_new 1 10 ++ rec_new 2 20 ++ rec_more 1 11 ++ [(1, ORelease)] ++ flush_by 3 2 ++ clear_by 3 2 1 ++ rec_more 2 21 ++ flush_by 3 1.
Theorem C68_ex : s_log (run true ex_sched) =
  [EStart 1 10; ENew 1; ESaved 1 10; EStart 2 20; ENew 2; ESaved 2 20; EStart 1 11; ESaved 1 11; ERelease 1;
   EBegin 3 false; EOut 2 20; EOut 1 10; EOut 1 11; EEnd 3; EBegin 3 true; EReset 2; EReset 1; EFree 1; EEnd 3;
   EStart 2 21; ESaved 2 21; EBegin 3 false; EOut 2 21; EEnd 3] /\
  s_log (run false ex_sched) = s_log (run true ex_sched) /\ s_fault (run false ex_sched) = false.
Proof. vm_compute. repeat split. Qed.
(* a record that arrives while its buffer is being flushed is dropped, and counted *)
Theorem C68_ex_drop : exists sched, s_log (run true sched) =
  [EStart 1 10; ENew 1; ESaved 1 10; EBegin 2 false; EStart 1 11; EDropped 1 11; EOut 1 10; EEnd 2] /\ s_dropped (run true sched) = 1%nat.
Proof. exists (rec_new 1 10 ++ (2, OFlush false) :: steps 2 3 ++ [(1, OProc 11); (1, OCreate)] ++ steps 2 4). vm_compute. auto. Qed.
(* without flush_lock (Aggregate.cpp), two overlapping clears delete the buffer of an exited thread
   twice *)
Theorem C68_overlap_refuted : exists sched, s_fault (run false sched) = true.
Proof.
  exists (rec_new 1 10 ++ [(1, ORelease)] ++ (2, OFlush true) :: (3, OFlush true) :: steps 2 3 ++ steps 3 3 ++ steps 2 6 ++ [(3, OCreate)]).
  vm_compute. reflexivity.
Qed.
(* a record saved after the buffer was emptied and before the thread exited disappears with the
   buffer: it is never written and not counted as dropped *)
Theorem C68_lost_refuted : exists sched, s_log (run true sched) =
  [EStart 1 10; ENew 1; ESaved 1 10; EBegin 2 true; EReset 1; EStart 1 11; ESaved 1 11; ERelease 1; EFree 1; EEnd 2] /\
  s_dropped (run true sched) = O.
Proof.
  exists (rec_new 1 10 ++ (2, OFlush true) :: steps 2 5 ++ rec_more 1 11 ++ [(1, ORelease)] ++ steps 2 5). vm_compute. auto.
Qed.
(* a record saved between a flush and the clear that follows it is lost as well *)
Theorem C68_between_refuted : exists sched, s_log (run true sched) =
  [EStart 1 10; ENew 1; ESaved 1 10; EBegin 2 false; EOut 1 10; EEnd 2; EStart 1 11; ESaved 1 11; EBegin 2 true; EReset 1; EEnd 2] /\
  s_dropped (run true sched) = O.
Proof. exists (rec_new 1 10 ++ flush_by 2 1 ++ rec_more 1 11 ++ clear_by 2 1 0). vm_compute. auto. Qed.
(* the flag does not exclude concurrent use: thread 1 is about to save a record to the buffer that
   thread 2 is about to read (to empty) *)
Theorem C68_race_refuted : forall lk, (exists sched a, s_pc (run lk sched) 1 = Save a 11 /\ s_pc (run lk sched) 2 = FRead a) /\
  (exists sched a, s_pc (run lk sched) 1 = Save a 11 /\ s_pc (run lk sched) 2 = CReset a).
Proof.
  intro lk. split; [exists (rec_new 1 10 ++ [(1, OProc 11); (1, OCreate)] ++ (2, OFlush false) :: steps 2 3), 0|exists (rec_new 1 10 ++ [(1, OProc 11); (1, OCreate)] ++ (2, OFlush true) :: steps 2 3), 0]; destruct lk; vm_compute; auto.
Qed.
