From Verif Require Import Base TimerModel TimerSpec.
Open Scope N_scope.

Lemma trun_app : forall c l1 l2 s, trun c s (l1 ++ l2) =
  (fst (trun c s l1) ++ fst (trun c (snd (trun c s l1)) l2), snd (trun c (snd (trun c s l1)) l2)).
Proof.
  induction l1; intros l2 s; cbn [trun app].
  - cbn [fst snd]. destruct (trun c s l2); reflexivity.
  - destruct (tstep c s a) as [o s1]. rewrite IHl1. destruct (trun c s1 l1) as [os s2]. cbn [fst snd]. reflexivity.
Qed.
Lemma trun_snoc : forall c l e s, trun c s (l ++ [e]) =
  (fst (trun c s l) ++ [fst (tstep c (snd (trun c s l)) e)], snd (tstep c (snd (trun c s l)) e)).
Proof. intros. rewrite trun_app. cbn [trun]. destruct (tstep _ _ _); reflexivity. Qed.
Lemma trun_len : forall c l s, length (fst (trun c s l)) = length l.
Proof. induction l; intros; cbn [trun]; auto. destruct (tstep c s a). specialize (IHl t). destruct (trun c t l). cbn [fst] in *. cbn [length]. lia. Qed.
Lemma thread_outs_app : forall t l1 o1 l2 o2, length l1 = length o1 ->
  thread_outs t (l1 ++ l2) (o1 ++ o2) = thread_outs t l1 o1 ++ thread_outs t l2 o2.
Proof.
  induction l1; intros [|o o1] l2 o2 L; cbn [app thread_outs] in *; try discriminate; auto.
  rewrite IHl1 by (cbn in L; lia). destruct (Nat.eqb _ _); reflexivity.
Qed.
Lemma outs_snoc : forall c t l e, outs c t (l ++ [e]) =
  outs c t l ++ (if Nat.eqb (ev_thread e) t then [out_after c l e] else []).
Proof.
  intros. unfold outs. rewrite trun_snoc. cbn [fst]. rewrite thread_outs_app by (rewrite trun_len; auto).
  cbn [thread_outs]. reflexivity.
Qed.

(* timer stacks *)
Definition push (s : list N) (m : mark) : list N := match m with MB n => n :: s | ME _ => tl s end.
Definition stk (h : list mark) : list N := fold_left push h [].
Lemma stk_snoc : forall h m, stk (h ++ [m]) = push (stk h) m.
Proof. intros. unfold stk. rewrite fold_left_app. reflexivity. Qed.
Lemma bal_fold : forall h, balanced h -> forall s, fold_left push h s = s.
Proof.
  induction 1; intros s; cbn [fold_left push]; auto.
  rewrite fold_left_app. rewrite IHbalanced1. cbn [fold_left push tl]. apply IHbalanced2.
Qed.
Lemma bal_app : forall a, balanced a -> forall b, balanced b -> balanced (a ++ b).
Proof.
  induction 1; intros b B; cbn [app]; auto.
  rewrite <- app_assoc. cbn [app]. constructor; auto.
Qed.
Lemma open_stk : forall h b, open_begin h b -> exists r, stk h = b :: r.
Proof.
  intros h b (h1 & h2 & -> & B). unfold stk. rewrite fold_left_app. cbn [fold_left push].
  rewrite (bal_fold _ B). eauto.
Qed.
Lemma stk_layers : forall n h b r, (length h <= n)%nat -> stk h = b :: r ->
  exists h1 h2, h = h1 ++ MB b :: h2 /\ balanced h2 /\ stk h1 = r.
Proof.
  induction n; intros h b r L E.
  - destruct h; [discriminate|cbn in L; lia].
  - destruct h as [|m h'] using rev_ind; [discriminate|]. clear IHh'.
    rewrite app_length in L. cbn in L. rewrite stk_snoc in E. destruct m; cbn [push] in E.
    + injection E as -> E. exists h', []. split; [reflexivity|split; [constructor|auto]].
    + destruct (stk h') as [|x s] eqn:S; [discriminate|]. cbn [tl] in E. subst s.
      destruct (IHn h' x (b :: r) ltac:(lia) S) as (h1 & h2 & -> & B2 & S1).
      rewrite app_length in L. cbn in L.
      destruct (IHn h1 b r ltac:(lia) S1) as (g1 & g2 & -> & B3 & S2).
      exists g1, (g2 ++ MB x :: h2 ++ [ME time]). split; [|split].
      * rewrite <- !app_assoc. cbn [app]. reflexivity.
      * apply bal_app; auto. constructor; auto. constructor.
      * auto.
Qed.
Lemma stk_open : forall h b r, stk h = b :: r -> open_begin h b.
Proof. intros h b r E. destruct (stk_layers _ h b r (le_n _) E) as (h1 & h2 & -> & B & _). exists h1, h2. auto. Qed.

(* state after a history *)
Definition last_off (c : tcfg) (t : nat) (l : list tev) : N := last (timed_offsets c t l) 0.
Definition unmatched (c : tcfg) (e : tev) (l : list tev) : bool :=
  match e with
  | TSnap t false n (Some p) =>
      match attr_get p (tc_begin c), attr_get p (tc_end c) with
      | None, Some a => match stk (marks c t a l) with [] => true | _ => false end
      | _, _ => false
      end
  | _ => false
  end.
Record tinv (c : tcfg) (l : list tev) (s : tsvc) : Prop := mktinv {
  tv_known : forall t, known t l = match ts_info s t with Some _ => true | None => false end;
  tv_prev : forall t i, ts_info s t = Some i -> ti_prev i = last_off c t l;
  tv_none : forall t, ts_info s t = None -> timed_offsets c t l = [] /\ (forall a, marks c t a l = []);
  tv_stk : tc_incl c = true -> forall t i a, ts_info s t = Some i ->
           match ti_stack i a with Some st => st | None => [] end = stk (marks c t a l)
}.
Lemma known_snoc : forall t l e, known t (l ++ [e]) = known t l || announces t e.
Proof. intros. unfold known. rewrite existsb_app. cbn [existsb]. rewrite orb_false_r. reflexivity. Qed.
Lemma marks_snoc : forall c t a l e, marks c t a (l ++ [e]) = marks c t a l ++ mark_of c t a e.
Proof. intros. unfold marks. rewrite flat_map_app. cbn [flat_map]. rewrite app_nil_r. reflexivity. Qed.
Lemma timed_snoc : forall c t l e, timed_offsets c t (l ++ [e]) = timed_offsets c t l ++
  (if Nat.eqb (ev_thread e) t then match durations (out_after c l e) with [] => [] | _ => offsets (out_after c l e) end else []).
Proof.
  intros. unfold timed_offsets. rewrite outs_snoc, filter_app, flat_map_app. f_equal.
  destruct (Nat.eqb _ _); auto. cbn [filter]. destruct (durations _); cbn [flat_map]; auto. apply app_nil_r.
Qed.

(* the stack update of a known thread *)
Definition stk_of (f : N -> option (list N)) (a : N) : list N := match f a with Some st => st | None => [] end.
Definition evt (c : tcfg) (sg : bool) (info : option attr_path) (n : N) : option (N * mark) :=
  match (if tc_incl c && negb sg then info else None) with
  | None => None
  | Some p => match attr_get p (tc_begin c) with
              | Some id => Some (id, MB n)
              | None => match attr_get p (tc_end c) with Some id => Some (id, ME n) | None => None end
              end
  end.
Definition incl_out (c : tcfg) (sg : bool) (info : option attr_path) (n : N) (f : N -> option (list N)) : list tout :=
  match evt c sg info n with
  | Some (id, ME _) => match stk_of f id with b :: _ => [OInclusive (sub64 n b)] | [] => [] end
  | _ => []
  end.
Definition err_inc (c : tcfg) (sg : bool) (info : option attr_path) (n : N) (f : N -> option (list N)) : N :=
  match evt c sg info n with
  | Some (id, ME _) => match stk_of f id with _ :: _ => 0 | [] => 1 end
  | _ => 0
  end.
Lemma snap_spec : forall c s t sg n info,
  let r := snapshot_cb c s t sg n info in
  (forall u, u <> t -> ts_info (snd r) u = ts_info s u) /\
  match (match ts_info s t with Some i => Some i | None => if sg then None else Some ti_new end) with
  | None => fst r = [OOffset n] /\ ts_info (snd r) t = None /\ ts_errs (snd r) = ts_errs s
  | Some i =>
      fst r = [OOffset n; ODuration (sub64 n (ti_prev i))] ++ incl_out c sg info n (ti_stack i) /\
      ts_errs (snd r) = ts_errs s + err_inc c sg info n (ti_stack i) /\
      exists i', ts_info (snd r) t = Some i' /\ ti_prev i' = n /\
        forall a, stk_of (ti_stack i') a =
          match evt c sg info n with
          | Some (id, m) => if a =? id then push (stk_of (ti_stack i) a) m else stk_of (ti_stack i) a
          | None => stk_of (ti_stack i) a
          end
  end.
Proof.
  intros c s t sg n info r. subst r. unfold snapshot_cb, acquire.
  assert (X : forall i s1, ts_errs s1 = ts_errs s -> (forall u, u <> t -> ts_info s1 u = ts_info s u) ->
    let r := (let o := [OOffset n; ODuration (sub64 n (ti_prev i))] in
      let ti1 := mkti n (ti_stack i) in
      let s2 := set_info s1 t ti1 in
      match (if tc_incl c && negb sg then info else None) with
      | None => (o, s2)
      | Some p =>
          match attr_get p (tc_begin c) with
          | Some id =>
              let st := match ti_stack ti1 id with Some l => l | None => [] end in
              (o, set_info s2 t (mkti n (fun j => if j =? id then Some (n :: st) else ti_stack ti1 j)))
          | None =>
              match attr_get p (tc_end c) with
              | None => (o, s2)
              | Some id =>
                  match ti_stack ti1 id with
                  | Some (b :: r) =>
                      (o ++ [OInclusive (sub64 n b)],
                       set_info s2 t (mkti n (fun j => if j =? id then Some r else ti_stack ti1 j)))
                  | _ => (o, mkts (ts_info s2) (ts_errs s2 + 1))
                  end
              end
          end
      end) in
    (forall u, u <> t -> ts_info (snd r) u = ts_info s u) /\
      (fst r = [OOffset n; ODuration (sub64 n (ti_prev i))] ++ incl_out c sg info n (ti_stack i) /\
      ts_errs (snd r) = ts_errs s + err_inc c sg info n (ti_stack i) /\
      exists i', ts_info (snd r) t = Some i' /\ ti_prev i' = n /\
        forall a, stk_of (ti_stack i') a =
          match evt c sg info n with
          | Some (id, m) => if a =? id then push (stk_of (ti_stack i) a) m else stk_of (ti_stack i) a
          | None => stk_of (ti_stack i) a
          end)).
  { intros i s1 E1 E2. unfold incl_out, err_inc, evt. cbn [ti_stack].
    assert (NE : forall u, u <> t -> Nat.eqb u t = false) by (intros; apply Nat.eqb_neq; auto).
    destruct (if tc_incl c && negb sg then info else None) as [p|];
      [destruct (attr_get p (tc_begin c)) as [id|]; [|destruct (attr_get p (tc_end c)) as [id|]]|];
      cbn zeta; cbn [fst snd set_info ts_info ts_errs ti_stack ti_prev].
    - split; [intros u U; rewrite (NE u U); auto|]. split; [reflexivity|]. split; [lia|].
      rewrite Nat.eqb_refl. eexists; split; [reflexivity|]. split; [reflexivity|].
      intros a. unfold stk_of. cbn [ti_stack]. destruct (a =? id) eqn:E; auto. apply N.eqb_eq in E; subst. reflexivity.
    - unfold stk_of at 1 2. destruct (ti_stack i id) as [[|b r]|] eqn:Es;
        cbn [fst snd set_info ts_info ts_errs ti_stack ti_prev].
      + split; [intros u U; rewrite (NE u U); auto|]. split; [reflexivity|]. split; [lia|].
        rewrite Nat.eqb_refl. eexists; split; [reflexivity|]. split; [reflexivity|].
        intros a. unfold stk_of. cbn [ti_stack]. destruct (a =? id) eqn:E; auto. apply N.eqb_eq in E; subst. rewrite Es. reflexivity.
      + split; [intros u U; rewrite (NE u U); auto|]. split; [reflexivity|]. split; [lia|].
        rewrite Nat.eqb_refl. eexists; split; [reflexivity|]. split; [reflexivity|].
        intros a. unfold stk_of. cbn [ti_stack]. destruct (a =? id) eqn:E; auto. apply N.eqb_eq in E; subst. rewrite Es. reflexivity.
      + split; [intros u U; rewrite (NE u U); auto|]. split; [reflexivity|]. split; [lia|].
        rewrite Nat.eqb_refl. eexists; split; [reflexivity|]. split; [reflexivity|].
        intros a. unfold stk_of. cbn [ti_stack]. destruct (a =? id) eqn:E; auto. apply N.eqb_eq in E; subst. rewrite Es. reflexivity.
    - split; [intros u U; rewrite (NE u U); auto|]. split; [reflexivity|]. split; [lia|].
      rewrite Nat.eqb_refl. eexists; split; [reflexivity|]. split; [reflexivity|]. reflexivity.
    - split; [intros u U; rewrite (NE u U); auto|]. split; [reflexivity|]. split; [lia|].
      rewrite Nat.eqb_refl. eexists; split; [reflexivity|]. split; [reflexivity|]. reflexivity. }
  destruct (ts_info s t) as [i|] eqn:Ei.
  - apply X; auto.
  - destruct sg.
    + cbn [fst snd]. auto.
    + apply X.
      * reflexivity.
      * intros u U. unfold set_info. cbn [ts_info]. destruct (Nat.eqb u t) eqn:E; auto. apply Nat.eqb_eq in E. contradiction.
Qed.
Lemma evt_marks : forall c t sg n info a, tc_incl c = true ->
  mark_of c t a (TSnap t sg n info) = match evt c sg info n with Some (id, m) => if id =? a then [m] else [] | None => [] end.
Proof.
  intros. unfold evt, mark_of. rewrite H. destruct sg; cbn [andb negb]; auto. destruct info as [p|]; auto.
  rewrite Nat.eqb_refl. destruct (attr_get p (tc_begin c)); auto. destruct (attr_get p (tc_end c)); auto.
Qed.
Lemma mark_other : forall c t a e, ev_thread e <> t -> mark_of c t a e = [].
Proof.
  intros c t a [u|u sg n [p|]] H; cbn [mark_of ev_thread] in *; try destruct sg; auto.
  apply Nat.eqb_neq in H. rewrite H. reflexivity.
Qed.
Lemma dur_out : forall n d x, (exists b, x = [OInclusive b]) \/ x = [] ->
  durations ([OOffset n; ODuration d] ++ x) = [d] /\ offsets ([OOffset n; ODuration d] ++ x) = [n].
Proof. intros n d x [(b & ->)| ->]; auto. Qed.
Lemma incl_shape : forall c sg info n f, (exists b, incl_out c sg info n f = [OInclusive b]) \/ incl_out c sg info n f = [].
Proof. intros. unfold incl_out. destruct (evt _ _ _ _) as [[id [|]]|]; eauto. destruct (stk_of f id); eauto. Qed.
Lemma last_snoc : forall (l : list N) x d, last (l ++ [x]) d = x.
Proof. induction l; intros; auto. cbn [app]. destruct l; auto. change (last (a :: (n :: l) ++ [x]) d) with (last ((n :: l) ++ [x]) d). apply IHl. Qed.

Lemma reach : forall c l, tinv c l (snd (trun c ts_init l)).
Proof.
  intros c l. induction l as [|e l IH] using rev_ind.
  - constructor; cbn; intros; auto; try discriminate.
  - rewrite trun_snoc. cbn [snd]. pose proof (eq_refl : out_after c l e = fst (tstep c (snd (trun c ts_init l)) e)) as OA.
    pose proof (timed_snoc c) as TS. pose proof (fun t => TS t l e) as TS'. clear TS. rewrite OA in TS'. clear OA.
    set (s := snd (trun c ts_init l)) in *. clearbody s. destruct IH as [K P Nn S].
    destruct e as [t|t sg n info].
    + cbn [tstep snd] in *. unfold acquire in *.
      assert (D : forall u, timed_offsets c u (l ++ [TThread t]) = timed_offsets c u l).
      { intros u. rewrite TS'. cbn. destruct (Nat.eqb t u); apply app_nil_r. }
      assert (M : forall u a, marks c u a (l ++ [TThread t]) = marks c u a l).
      { intros. rewrite marks_snoc. cbn. apply app_nil_r. }
      destruct (ts_info s t) as [i|] eqn:E; cbn [fst snd].
      * constructor; intros.
        -- rewrite known_snoc, K. unfold announces. cbn [ev_thread]. rewrite andb_true_r.
           destruct (Nat.eqb t t0) eqn:Q; [|apply orb_false_r]. apply Nat.eqb_eq in Q; subst. rewrite E. reflexivity.
        -- unfold last_off. rewrite D. apply P; auto.
        -- rewrite D. destruct (Nn _ H) as (A & B). split; auto. intros; rewrite M; auto.
        -- rewrite M. auto.
      * constructor; intros.
        -- rewrite known_snoc, K. unfold announces, set_info. cbn [ev_thread ts_info]. rewrite andb_true_r.
           rewrite (Nat.eqb_sym t0 t). destruct (Nat.eqb t t0) eqn:Q; [apply orb_true_r|apply orb_false_r].
        -- unfold last_off. rewrite D. unfold set_info in H. cbn [ts_info] in H. destruct (Nat.eqb t0 t) eqn:Q; [|apply P; auto].
           apply Nat.eqb_eq in Q; subst. injection H as <-. rewrite (proj1 (Nn _ E)). reflexivity.
        -- unfold set_info in H. cbn [ts_info] in H. destruct (Nat.eqb t0 t) eqn:Q; [discriminate|].
           rewrite D. destruct (Nn _ H) as (A & B). split; auto. intros; rewrite M; auto.
        -- rewrite M. unfold set_info in H0. cbn [ts_info] in H0. destruct (Nat.eqb t0 t) eqn:Q; [|auto].
           apply Nat.eqb_eq in Q; subst. injection H0 as <-. rewrite (proj2 (Nn _ E)). reflexivity.
    + cbn [tstep] in *. pose proof (snap_spec c s t sg n info) as SP. cbn zeta in SP.
      destruct (snapshot_cb c s t sg n info) as [o s'] eqn:CB. cbn [fst snd] in *. destruct SP as (OT & SP).
      assert (DO : forall u, u <> t -> timed_offsets c u (l ++ [TSnap t sg n info]) = timed_offsets c u l).
      { intros u U. rewrite TS'. cbn [ev_thread]. destruct (Nat.eqb t u) eqn:Q; [apply Nat.eqb_eq in Q; congruence|apply app_nil_r]. }
      assert (MO : forall u a, u <> t -> marks c u a (l ++ [TSnap t sg n info]) = marks c u a l).
      { intros u a U. rewrite marks_snoc, mark_other by (cbn; auto). apply app_nil_r. }
      specialize (TS' t) as TT. cbn [ev_thread] in TT. rewrite Nat.eqb_refl in TT.
      assert (KO : forall u, known u (l ++ [TSnap t sg n info]) = known u l || (Nat.eqb t u && negb sg)).
      { intros. rewrite known_snoc. reflexivity. }
      destruct (match ts_info s t with Some i => Some i | None => if sg then None else Some ti_new end) as [i|] eqn:EI.
      * destruct SP as (EO & EE & i' & I1 & I2 & I3).
        assert (II : (ts_info s t = Some i) \/ (ts_info s t = None /\ sg = false /\ i = ti_new)).
        { destruct (ts_info s t); [left; congruence|]. destruct sg; [discriminate|]. right. split; auto. split; auto. congruence. }
        destruct (dur_out n (sub64 n (ti_prev i)) _ (incl_shape c sg info n (ti_stack i))) as (D1 & D2).
        rewrite <- EO in D1, D2. rewrite D1, D2 in TT.
        constructor; intros.
        -- rewrite KO. destruct (Nat.eq_dec t0 t) as [->|U].
           ++ rewrite I1, Nat.eqb_refl, K. destruct II as [->|(-> & -> & _)]; reflexivity.
           ++ rewrite OT by auto. assert (Nat.eqb t t0 = false) as -> by (apply Nat.eqb_neq; auto). rewrite K. cbn [andb]. apply orb_false_r.
        -- destruct (Nat.eq_dec t0 t) as [->|U].
           ++ rewrite I1 in H. injection H as <-. rewrite I2. unfold last_off. rewrite TT, last_snoc. reflexivity.
           ++ unfold last_off. rewrite DO by auto. rewrite OT in H by auto. apply P; auto.
        -- destruct (Nat.eq_dec t0 t) as [->|U]; [congruence|]. rewrite DO by auto. rewrite OT in H by auto.
           destruct (Nn _ H) as (A & B). split; auto. intros; rewrite MO; auto.
        -- destruct (Nat.eq_dec t0 t) as [->|U].
           ++ rewrite I1 in H0. injection H0 as <-. change (stk_of (ti_stack i') a = stk (marks c t a (l ++ [TSnap t sg n info]))).
              rewrite I3. rewrite marks_snoc, evt_marks by auto.
              assert (SI : stk_of (ti_stack i) a = stk (marks c t a l)).
              { destruct II as [II|(II & _ & ->)]; [apply (S H); auto|]. rewrite (proj2 (Nn _ II)). reflexivity. }
              rewrite SI. destruct (evt c sg info n) as [[id m]|].
              ** rewrite (N.eqb_sym id a). destruct (a =? id); [symmetry; apply stk_snoc|]. rewrite app_nil_r; auto.
              ** rewrite app_nil_r; auto.
           ++ rewrite MO by auto. rewrite OT in H0 by auto. apply (S H); auto.
      * destruct SP as (EO & I1 & EE). destruct (ts_info s t) eqn:E; [discriminate|]. destruct sg; [|discriminate].
        rewrite EO in TT. cbn in TT. rewrite app_nil_r in TT.
        assert (MT : forall a, marks c t a (l ++ [TSnap t true n info]) = marks c t a l).
        { intros. rewrite marks_snoc. cbn. apply app_nil_r. }
        constructor; intros.
        -- rewrite KO. cbn [negb]. rewrite andb_false_r, orb_false_r, K. destruct (Nat.eq_dec t0 t) as [->|U]; [rewrite E, I1; auto|rewrite OT; auto].
        -- destruct (Nat.eq_dec t0 t) as [->|U]; [congruence|]. unfold last_off. rewrite DO by auto. rewrite OT in H by auto. apply P; auto.
        -- destruct (Nat.eq_dec t0 t) as [->|U].
           ++ rewrite TT. destruct (Nn _ E) as (A & B). split; auto. intros; rewrite MT; auto.
           ++ rewrite DO by auto. rewrite OT in H by auto. destruct (Nn _ H) as (A & B). split; auto. intros; rewrite MO; auto.
        -- destruct (Nat.eq_dec t0 t) as [->|U]; [congruence|]. rewrite MO by auto. rewrite OT in H0 by auto. apply (S H); auto.
Qed.
