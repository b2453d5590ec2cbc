(* C68 proofs, part 3: flushes and clears in progress *)
From Verif Require Import Base BufModel BufSpec BufProofs BufProofs2.

Definition mode (p : pc) : option bool :=
  match p with
  | Head c | At c _ => Some c
  | FRead _ | FUnstop _ | FNext _ => Some false
  | CReset _ | CUnstop _ | CTest _ | CNext _ | CTmp _ | CUnlink _ _ | CDelete _ _ => Some true
  | _ => None
  end.
Lemma mode_inflush p : inflush p = true <-> exists c, mode p = Some c.
Proof. destruct p; cbn; split; try discriminate; eauto; intros (c & H); discriminate. Qed.
Definition is_head (p : pc) : Prop := match p with Head _ => True | _ => False end.
Definition del (p : pc) (b : N) : Prop := match p with CDelete a _ => a = b | _ => False end.
Definition pos (own : N -> option N) (l2 : list ev) (p : pc) (V R : list N) : Prop :=
  match p with
  | Head _ => V = []
  | At _ o => o = hd_or R None
  | FRead a | CReset a => exists R', R = a :: R'
  | CUnstop a | CTest a | CTmp a | CUnlink a _ => (exists R', R = a :: R') /\ exists u, own u = Some a /\ In (EReset u) l2
  | CDelete a tmp => tmp = hd_or R None
  | FUnstop a | FNext a | CNext a => exists V', V = V' ++ [a]
  | _ => False
  end.
Definition fl_ok (own : N -> option N) (l1 l2 : list ev) (V R : list N) (u : N) : Prop :=
  ((exists a, own u = Some a /\ In a V) /\ exists extra, written u l2 = content u l1 ++ extra /\ prefix extra (saved u l2)) \/
  (written u l2 = [] /\ ((exists a, own u = Some a /\ In a R) \/ content u l1 = [])).
Definition cl_ok (own : N -> option N) (l1 l2 : list ev) (p : pc) (R : list N) (u : N) : Prop :=
  (In (EReset u) l2 \/ (exists a, own u = Some a /\ In a R) \/ content u l1 = []) /\
  (In (ERelease u) l1 -> In (ENew u) l1 -> In (EFree u) (l1 ++ l2) \/ exists b, own u = Some b /\ (In b R \/ del p b)).
Definition FP (s : st) (L : list N) (t : N) (clr : bool) : Prop := exists l1 l2 W V R,
  s_log s = l1 ++ EBegin t clr :: l2 /\ quiet l2 /\ L = W ++ V ++ R /\ (is_head (s_pc s t) -> W = []) /\ pos (s_own s) l2 (s_pc s t) V R /\
  if clr then forall u, cl_ok (s_own s) l1 l2 (s_pc s t) R u
  else forall u, content u (s_log s) = content u l1 ++ saved u l2 /\ fl_ok (s_own s) l1 l2 V R u.
Definition I3 (s : st) (L : list N) : Prop := forall t clr, mode (s_pc s t) = Some clr -> FP s L t clr.

Lemma saved_app u a b : saved u (a ++ b) = saved u a ++ saved u b.
Proof. apply flat_map_app. Qed.
Lemma written_app u a b : written u (a ++ b) = written u a ++ written u b.
Proof. apply flat_map_app. Qed.
Lemma quiet_app a b : quiet (a ++ b) <-> quiet a /\ quiet b.
Proof. unfold quiet. rewrite forallb_app, andb_true_iff. tauto. Qed.
Lemma prefix_app e a b : prefix e a -> prefix e (a ++ b).
Proof. intros (c & ->). exists (c ++ b). rewrite app_assoc. reflexivity. Qed.
Lemma prefix_refl a : prefix a a. Proof. exists []. rewrite app_nil_r. reflexivity. Qed.
(* events of other threads while a flush or clear is in progress *)
Definition outer (e : ev) : bool := match e with EStart _ _ | ESaved _ _ | EDropped _ _ | ENew _ | ERelease _ => true | _ => false end.
Lemma outer_quiet m : forallb outer m = true -> quiet m.
Proof. intro H. unfold quiet. rewrite forallb_forall in *. intros e He. specialize (H e He). destruct e; cbn in *; congruence. Qed.
Lemma outer_written u m : forallb outer m = true -> written u m = [].
Proof. induction m as [|e m IH]; intro H; [reflexivity|]. cbn in H. apply andb_true_iff in H. destruct H as (H1 & H2). destruct e; try discriminate; cbn; apply IH; auto. Qed.
Lemma outer_content u l m : forallb outer m = true -> content u (l ++ m) = content u l ++ saved u m.
Proof.
  rewrite content_app. generalize (content u l). induction m as [|e m IH]; intros x H; [cbn; rewrite app_nil_r; reflexivity|]. cbn [forallb] in H. apply andb_true_iff in H. destruct H as (H1 & H2). destruct e as [| v r | | | | | | | |]; try discriminate; cbn [fold_left keep saved flat_map app]; try (apply IH; auto).
  destruct (N.eqb_spec v u); cbn [app]; [rewrite IH by auto; rewrite <- app_assoc; reflexivity|apply IH; auto].
Qed.
Lemma pos_mono own own' l2 m p V R : (forall u a, own u = Some a -> own' u = Some a) -> pos own l2 p V R -> pos own' (l2 ++ m) p V R.
Proof.
  intros H P. destruct p; cbn in *; auto; destruct P as (P1 & u & P2 & P3); split; auto; exists u; (split; [auto|apply in_app_iff; auto]).
Qed.
Lemma FP_other s s' L pre t clr m : FP s L t clr -> s_log s' = s_log s ++ m -> forallb outer m = true -> s_pc s' t = s_pc s t -> (forall u a, s_own s u = Some a -> s_own s' u = Some a) -> FP s' (pre ++ L) t clr.
Proof.
  intros (l1 & l2 & W & V & R & El & Hq & EL & Hw & Hp & Hc) El' Hm Ep Ho. 
  assert (Q : quiet (l2 ++ m)) by (apply quiet_app; split; [auto|apply outer_quiet; auto]). assert (El2 : s_log s' = l1 ++ EBegin t clr :: l2 ++ m) by (rewrite El', El, <- app_assoc; reflexivity).
  assert (K : forall R', (forall x, In x R -> In x R') -> (if clr then forall u, cl_ok (s_own s) l1 l2 (s_pc s t) R u
  else forall u, content u (s_log s) = content u l1 ++ saved u l2 /\ fl_ok (s_own s) l1 l2 V R u) -> (if clr then forall u, cl_ok (s_own s') l1 (l2 ++ m) (s_pc s t) R' u
  else forall u, content u (s_log s') = content u l1 ++ saved u (l2 ++ m) /\ fl_ok (s_own s') l1 (l2 ++ m) V R' u)).
  { intros R' HR H. destruct clr; intro u; specialize (H u).
    - destruct H as (H1 & H2). split.
      + destruct H1 as [H|[(a & H)|H]]; [left; apply in_app_iff; auto|right; left; exists a; destruct H; auto|auto].
      + intros A1 A2. destruct (H2 A1 A2) as [H|(b & Eb & [H|H])]; [left; rewrite !in_app_iff in *; tauto| |]; right; exists b; auto.
    - destruct H as (H1 & H2). split; [rewrite El', outer_content, saved_app, H1, app_assoc by auto; reflexivity|]. destruct H2 as [((a & A1 & A2) & extra & H2 & H3)|(H2 & H3)].
      + left. split; [eauto|]. exists extra. rewrite written_app, (outer_written u m Hm), app_nil_r, saved_app. split; auto. apply prefix_app; auto.
      + right. rewrite written_app, (outer_written u m Hm), app_nil_r. split; auto. destruct H3 as [(a & A1 & A2)|H3]; [left; exists a; auto|auto]. }
  destruct (s_pc s t) as [|a0 r0|a0 r0|a0 r0|c0|c0|c0 o0|a0|a0|a0|a0|a0|a0|a0|a0|a0 tmp|a0 tmp] eqn:Ec; try contradiction Hp.
  - cbn in Hw, Hp. specialize (Hw Logic.I). subst W V. cbn [app] in EL. subst L. exists l1, (l2 ++ m), [], [], (pre ++ R). split; [auto|]. split; [auto|]. split; [reflexivity|]. rewrite Ep. split; [auto|]. split; [reflexivity|].
    apply K; auto. intros x Hx. apply in_app_iff. auto.
  - exists l1, (l2 ++ m), (pre ++ W), V, R. split; [auto|]. split; [auto|]. split; [rewrite EL, <- app_assoc; reflexivity|]. rewrite Ep. split; [cbn; tauto|]. split; [apply (pos_mono (s_own s)); auto|]. apply K; auto.
  - exists l1, (l2 ++ m), (pre ++ W), V, R. split; [auto|]. split; [auto|]. split; [rewrite EL, <- app_assoc; reflexivity|]. rewrite Ep. split; [cbn; tauto|]. split; [apply (pos_mono (s_own s)); auto|]. apply K; auto.
  - exists l1, (l2 ++ m), (pre ++ W), V, R. split; [auto|]. split; [auto|]. split; [rewrite EL, <- app_assoc; reflexivity|]. rewrite Ep. split; [cbn; tauto|]. split; [apply (pos_mono (s_own s)); auto|]. apply K; auto.
  - exists l1, (l2 ++ m), (pre ++ W), V, R. split; [auto|]. split; [auto|]. split; [rewrite EL, <- app_assoc; reflexivity|]. rewrite Ep. split; [cbn; tauto|]. split; [apply (pos_mono (s_own s)); auto|]. apply K; auto.
  - exists l1, (l2 ++ m), (pre ++ W), V, R. split; [auto|]. split; [auto|]. split; [rewrite EL, <- app_assoc; reflexivity|]. rewrite Ep. split; [cbn; tauto|]. split; [apply (pos_mono (s_own s)); auto|]. apply K; auto.
  - exists l1, (l2 ++ m), (pre ++ W), V, R. split; [auto|]. split; [auto|]. split; [rewrite EL, <- app_assoc; reflexivity|]. rewrite Ep. split; [cbn; tauto|]. split; [apply (pos_mono (s_own s)); auto|]. apply K; auto.
  - exists l1, (l2 ++ m), (pre ++ W), V, R. split; [auto|]. split; [auto|]. split; [rewrite EL, <- app_assoc; reflexivity|]. rewrite Ep. split; [cbn; tauto|]. split; [apply (pos_mono (s_own s)); auto|]. apply K; auto.
  - exists l1, (l2 ++ m), (pre ++ W), V, R. split; [auto|]. split; [auto|]. split; [rewrite EL, <- app_assoc; reflexivity|]. rewrite Ep. split; [cbn; tauto|]. split; [apply (pos_mono (s_own s)); auto|]. apply K; auto.
  - exists l1, (l2 ++ m), (pre ++ W), V, R. split; [auto|]. split; [auto|]. split; [rewrite EL, <- app_assoc; reflexivity|]. rewrite Ep. split; [cbn; tauto|]. split; [apply (pos_mono (s_own s)); auto|]. apply K; auto.
  - exists l1, (l2 ++ m), (pre ++ W), V, R. split; [auto|]. split; [auto|]. split; [rewrite EL, <- app_assoc; reflexivity|]. rewrite Ep. split; [cbn; tauto|]. split; [apply (pos_mono (s_own s)); auto|]. apply K; auto.
  - exists l1, (l2 ++ m), (pre ++ W), V, R. split; [auto|]. split; [auto|]. split; [rewrite EL, <- app_assoc; reflexivity|]. rewrite Ep. split; [cbn; tauto|]. split; [apply (pos_mono (s_own s)); auto|]. apply K; auto.
Qed.
(* the beginning of a flush or clear *)
Lemma buffer_linked s L u : I1 s -> I2 s L -> s_lock s = None -> (exists a, s_own s u = Some a /\ In a L) \/ content u (s_log s) = [].
Proof.
  intros J1 J Hl. destruct (s_own s u) as [a|] eqn:Eo; [|right; apply (i_none s J1 u Eo)]. destruct (s_heap s a) as [c|] eqn:Ea; [|right; apply (i_freed s J1 u), (i_free s J1 u a Eo), Ea].
  destruct (j_own s L J u a c Eo Ea) as [H|[(r & H)|(v & tmp & H)]]; [eauto| |].
  - right. destruct (j_link s L J u a r H) as (_ & E). rewrite <- (owner_cell s a c u J1 Eo Ea). rewrite <- (i_data s J1 a c Ea). rewrite Ea in E. injection E as ->. reflexivity.
  - exfalso. assert (F : inflush (s_pc s v) = true) by (rewrite H; reflexivity). apply (j_lock s L J v) in F. congruence.
Qed.
Lemma FP_begin s L t clr : I1 s -> I2 s L -> s_lock s = None -> s_gone s t = false -> FP (w_log (w_lock (w_pc s t (Head clr)) (Some t)) [EBegin t clr]) L t clr.
Proof.
  intros J1 J Hl Hg. exists (s_log s), [], [], [], L. cbn. rewrite set_same. split; [reflexivity|]. split; [reflexivity|]. split; [reflexivity|]. split; [auto|]. split; [reflexivity|]. destruct clr; intro u.
  - split; [destruct (buffer_linked s L u J1 J Hl); auto|]. intros A1 A2. rewrite app_nil_r. apply (i_new s J1 u) in A2. destruct (s_own s u) as [a|] eqn:Eo; [|congruence].
    destruct (s_heap s a) as [c|] eqn:Ea; [|left; apply (i_free s J1 u a Eo), Ea]. right. exists a. split; auto. left. destruct (j_own s L J u a c Eo Ea) as [H|[(r & H)|(v & tmp & H)]]; auto.
    + exfalso. apply (i_rel s J1 u) in A1. apply (i_idle s J1) in A1. congruence.
    + exfalso. assert (F : inflush (s_pc s v) = true) by (rewrite H; reflexivity). apply (j_lock s L J v) in F. congruence.
  - split; [rewrite (content_id u (s_log s) [EBegin t false]) by reflexivity; cbn; rewrite app_nil_r; reflexivity|]. right. split; [reflexivity|]. apply buffer_linked; auto.
Qed.
Lemma nodup_split (A B C D : list N) a : NoDup (A ++ a :: B) -> A ++ a :: B = C ++ a :: D -> A = C /\ B = D.
Proof.
  revert C. induction A as [|x A IH]; intros [|y C] ND E; cbn in *.
  - injection E as ->. auto.
  - injection E as -> E. exfalso. inversion ND as [|? ? H1 H2]; subst. apply H1, in_app_iff. right. left. auto.
  - injection E as -> E. exfalso. inversion ND as [|? ? H1 H2]; subst. apply H1, in_app_iff. right. left. auto.
  - injection E as -> E. inversion ND; subst. destruct (IH C) as (-> & ->); auto.
Qed.
Lemma written_out u o l : written u (map (EOut o) l) = if o =? u then l else [].
Proof. induction l as [|r l IH]; cbn; [destruct (o =? u); reflexivity|]. change (flat_map _ (map (EOut o) l)) with (written u (map (EOut o) l)). rewrite IH. destruct (o =? u); reflexivity. Qed.
Lemma saved_out u o l : saved u (map (EOut o) l) = [].
Proof. induction l as [|r l IH]; cbn; auto. Qed.
Lemma quiet_out o l : quiet (map (EOut o) l).
Proof. unfold quiet. induction l; cbn; auto. Qed.
Section R.
Variable lk : bool.
(* the thread in flush or clear is alone *)
Lemma only_flusher s L t v clr : I2 s L -> inflush (s_pc s t) = true -> mode (s_pc s v) = Some clr -> v = t.
Proof. intros J H1 H2. assert (H3 : inflush (s_pc s v) = true) by (apply mode_inflush; eauto). apply (j_lock s L J) in H1, H3. congruence. Qed.
Lemma I3_same s s' L L' t p m pre : I3 s L -> s_log s' = s_log s ++ m -> forallb outer m = true -> s_pc s' = set (s_pc s) t p -> mode p = None -> (forall u a, s_own s u = Some a -> s_own s' u = Some a) -> L' = pre ++ L -> I3 s' L'.
Proof.
  intros J El Hm Ep Hp Ho -> v clr Hv. rewrite Ep in Hv. destruct (set_cases (s_pc s) t p v) as [(-> & Es)|(Hu & Es)]; rewrite Es in Hv; [congruence|]. apply (FP_other s s' L pre v clr m); auto. rewrite Ep, Es. reflexivity.
Qed.
Lemma I3_call s L t o : I1 s -> I3 s L -> s_pc s t = Idle -> I3 (call s t o) L.
Proof.
  intros J1 J Hi. unfold call. destruct (s_gone s t) eqn:G; auto.
  assert (HA : forall m r, forallb outer m = true -> s_own s t = None -> I3 (w_pc (alloc (w_log s m) t) t (Link (s_fresh s) r)) L).
  { intros m r Hm Ho. apply (I3_same s _ L L t (Link (s_fresh s) r) m []); cbn; auto. intros u a E. rewrite set_other; auto. congruence. }
  destruct o as [|r|clr|].
  - destruct (s_own s t) eqn:Ho; auto.
  - destruct (s_own s t) as [a|] eqn:Ho; auto. apply (I3_same s _ L L t (Loaded a r) [EStart t r] []); cbn; auto.
  - apply (I3_same s _ L L t (Lock clr) [] []); cbn; auto. rewrite app_nil_r. reflexivity.
  - set (s1 := w_log (w_gone s t) [ERelease t]). intros v clr. 
    assert (F : forall s', s' = match s_own s t with Some a => upd s1 a ret_c | None => s1 end -> s_pc s' = s_pc s /\ s_own s' = s_own s /\ s_log s' = s_log s ++ [ERelease t]) by (intros s' ->; destruct (s_own s t); usimp; auto).
    destruct (F _ eq_refl) as (F1 & F2 & F3). rewrite F1. intro Hv. apply (FP_other s _ L [] v clr [ERelease t]); auto; [rewrite F1; auto|rewrite F2; auto].
Qed.
Lemma I3_step s L L' x : I1 s -> I2 s L -> I2 (step lk s x) L' -> lchange (s_pc s (fst x)) L L' -> I3 s L -> fin None (s_log s) = s_lock s -> (lk = true \/ serial (s_log (step lk s x))) -> I3 (step lk s x) L'.
Proof.
  intros J1 J2 J2' HL J Hfin Hser. destruct x as [t o]. cbn [fst] in HL. unfold step in *. destruct (s_pc s t) as [|a r|a r|a r|clr|clr|clr [a|]|a|a|a|a|a|a|a|a|a tmp|a tmp] eqn:Hpc; cbn [lchange] in HL.
  - subst. apply I3_call; auto.
  - subst. apply (I3_same s _ L (a :: L) t (match r with Some n => Loaded a n | None => Idle end) [] [a]); cbn; rewrite ?link_log, ?link_pc, ?link_own, ?app_nil_r; auto. destruct r; auto.
  - subst. destruct (step_heap s L t a J1 J2) as (c & Ec); try (rewrite Hpc; (reflexivity || discriminate)). unfold acc. rewrite Ec. destruct (c_stop c).
    + apply (I3_same s _ L L t Idle [EDropped t r] []); cbn; auto.
    + apply (I3_same s _ L L t (Save a r) [] []); cbn; auto. rewrite app_nil_r. auto.
  - subst. destruct (step_heap s L t a J1 J2) as (c & Ec); try (rewrite Hpc; (reflexivity || discriminate)). unfold acc. rewrite Ec. apply (I3_same s _ L L t Idle [ESaved t r] []); cbn; usimp; auto.
  - assert (L' = L) by auto. subst L'.
    assert (HB : s_lock s = None -> I3 (w_log (w_lock (w_pc s t (Head clr)) (Some t)) [EBegin t clr]) L).
    { intros Hl v clr' Hv. cbn in Hv. destruct (set_cases (s_pc s) t (Head clr) v) as [(-> & Es)|(Hu & Es)]; rewrite Es in Hv.
      - cbn in Hv. injection Hv as <-. apply FP_begin; auto. apply busy_gone; auto. congruence.
      - exfalso. assert (H3 : inflush (s_pc s v) = true) by (apply mode_inflush; eauto). apply (j_lock s L J2) in H3. congruence. }
    destruct lk, (s_lock s) as [u|] eqn:El; auto. exfalso. destruct Hser as [|Hs]; [discriminate|]. cbn in Hs. apply serial_app in Hs. destruct Hs as (_ & Hs & _). congruence.
  - (* Head *) subst L'. intros v clr' Hv. cbn in Hv. assert (Hvt : v = t). { destruct (set_cases (s_pc s) t (At clr (s_list s)) v) as [(-> & Es)|(Hu & Es)]; auto. rewrite Es in Hv. apply (only_flusher s L t v clr'); auto. rewrite Hpc. reflexivity. }
    subst v. rewrite set_same in Hv. cbn in Hv. injection Hv as <-. destruct (J t clr ltac:(rewrite Hpc; reflexivity)) as (l1 & l2 & W & V & R & El & Hq & EL & Hw & Hp & Hc). rewrite Hpc in *. cbn in Hw, Hp. specialize (Hw Logic.I). subst W V.
    exists l1, l2, [], [], R. cbn. rewrite set_same. split; [auto|]. split; [auto|]. split; [auto|]. split; [tauto|]. split; [cbn; rewrite (j_head s L J2), EL; reflexivity|]. destruct clr; auto.
  - (* At Some *) destruct clr; cbn in HL; subst L'; intros v clr' Hv; cbn in Hv; rewrite upd_pc in Hv.
    + assert (Hvt : v = t). { destruct (set_cases (s_pc s) t (CReset a) v) as [(-> & Es)|(Hu & Es)]; auto. rewrite Es in Hv. apply (only_flusher s L t v clr'); auto. rewrite Hpc. reflexivity. }
      subst v. rewrite set_same in Hv. cbn in Hv. injection Hv as <-. destruct (J t true ltac:(rewrite Hpc; reflexivity)) as (l1 & l2 & W & V & R & El & Hq & EL & Hw & Hp & Hc). rewrite Hpc in *.
      exists l1, l2, W, V, R. cbn. usimp. rewrite set_same. split; [auto|]. split; [auto|]. split; [auto|]. split; [tauto|]. cbn in Hp. split; [destruct R as [|b R]; [discriminate|injection Hp as ->; cbn; eauto]|]. exact Hc.
    + assert (Hvt : v = t). { destruct (set_cases (s_pc s) t (FRead a) v) as [(-> & Es)|(Hu & Es)]; auto. rewrite Es in Hv. apply (only_flusher s L t v clr'); auto. rewrite Hpc. reflexivity. }
      subst v. rewrite set_same in Hv. cbn in Hv. injection Hv as <-. destruct (J t false ltac:(rewrite Hpc; reflexivity)) as (l1 & l2 & W & V & R & El & Hq & EL & Hw & Hp & Hc). rewrite Hpc in *.
      exists l1, l2, W, V, R. cbn. usimp. rewrite set_same. split; [auto|]. split; [auto|]. split; [auto|]. split; [tauto|]. cbn in Hp. split; [destruct R as [|b R]; [discriminate|injection Hp as ->; cbn; eauto]|]. exact Hc.
  - (* End *) intros v clr' Hv. assert (Hv' : mode (set (s_pc s) t Idle v) = Some clr') by (destruct clr; exact Hv). exfalso. destruct (set_cases (s_pc s) t Idle v) as [(-> & Es)|(Hu & Es)]; rewrite Es in Hv'; [discriminate|]. apply Hu, (only_flusher s L t v clr'); auto. rewrite Hpc. reflexivity.
  - (* FRead *) subst L'. pose proof (j_pc s L J2 t) as P. rewrite Hpc in P. cbn in P. destruct (in_heap s L a J2 P) as (c & Ec). unfold acc. rewrite Ec. intros v clr' Hv. cbn in Hv.
    assert (Hvt : v = t). { destruct (set_cases (s_pc s) t (FUnstop a) v) as [(-> & Es)|(Hu & Es)]; auto. rewrite Es in Hv. apply (only_flusher s L t v clr'); auto. rewrite Hpc. reflexivity. }
    subst v. rewrite set_same in Hv. cbn in Hv. injection Hv as <-. destruct (J t false ltac:(rewrite Hpc; reflexivity)) as (l1 & l2 & W & V & R & El & Hq & EL & Hw & Hp & Hc). rewrite Hpc in *. cbn in Hp. destruct Hp as (R' & ->).
    exists l1, (l2 ++ map (EOut (c_owner c)) (c_data c)), W, (V ++ [a]), R'. cbn. rewrite set_same. split; [rewrite El, <- app_assoc; reflexivity|]. split; [apply quiet_app; split; auto; apply quiet_out|]. split; [rewrite EL, <- !app_assoc; reflexivity|]. split; [tauto|]. split; [cbn; eauto|].
    intro u. destruct (Hc u) as (H1 & H2). pose proof (i_heap s J1 a c Ec) as Eo. split.
    { rewrite content_id by apply outs_id. rewrite saved_app, saved_out, app_nil_r. exact H1. }
    unfold fl_ok. rewrite written_app, saved_app, saved_out, app_nil_r, written_out. destruct (N.eqb_spec (c_owner c) u) as [<-|X].
    + left. split; [exists a; split; auto; apply in_app_iff; right; left; auto|]. exists (saved (c_owner c) l2). split; [|apply prefix_refl]. destruct H2 as [((b & B1 & B2) & _)|(H2 & _)].
      * exfalso. rewrite Eo in B1. injection B1 as <-. pose proof (j_nd s L J2) as ND. rewrite EL in ND. rewrite app_assoc in ND. apply NoDup_remove_2 in ND. apply ND. rewrite !in_app_iff. auto.
      * rewrite H2. cbn [app]. rewrite (i_data s J1 a c Ec). exact H1.
    + rewrite app_nil_r. destruct H2 as [((b & B1 & B2) & H2)|(H2 & H3)]; [left; split; [exists b; split; auto; apply in_app_iff; auto|auto]|]. right. split; auto. destruct H3 as [(b & B1 & [B2|B2])|H3]; auto.
      * subst b. exfalso. apply X. apply (i_inj s J1 _ _ a); auto.
      * left. eauto.
  - (* FUnstop *) subst L'. intros v clr' Hv; cbn in Hv; rewrite upd_pc in Hv. assert (Hvt : v = t). { destruct (set_cases (s_pc s) t (FNext a) v) as [(-> & Es)|(Hu & Es)]; auto. rewrite Es in Hv. apply (only_flusher s L t v clr'); auto. rewrite Hpc. reflexivity. }
    subst v. rewrite set_same in Hv. cbn in Hv. injection Hv as <-. destruct (J t false ltac:(rewrite Hpc; reflexivity)) as (l1 & l2 & W & V & R & El & Hq & EL & Hw & Hp & Hc). rewrite Hpc in *.
    exists l1, l2, W, V, R. cbn. usimp. rewrite set_same. split; [exact El|]. split; [exact Hq|]. split; [exact EL|]. split; [cbn; tauto|]. split; [exact Hp|exact Hc].
  - (* FNext *) subst L'. pose proof (j_pc s L J2 t) as P. rewrite Hpc in P. cbn in P. destruct (in_heap s L a J2 P) as (c & Ec). unfold acc. rewrite Ec. intros v clr' Hv. cbn in Hv.
    assert (Hvt : v = t). { destruct (set_cases (s_pc s) t (At false (c_next c)) v) as [(-> & Es)|(Hu & Es)]; auto. rewrite Es in Hv. apply (only_flusher s L t v clr'); auto. rewrite Hpc. reflexivity. }
    subst v. rewrite set_same in Hv. cbn in Hv. injection Hv as <-. destruct (J t false ltac:(rewrite Hpc; reflexivity)) as (l1 & l2 & W & V & R & El & Hq & EL & Hw & Hp & Hc). rewrite Hpc in *. cbn in Hp. destruct Hp as (V' & ->).
    exists l1, l2, W, (V' ++ [a]), R. cbn. rewrite set_same. split; [auto|]. split; [auto|]. split; [auto|]. split; [tauto|]. split; [|exact Hc]. cbn.
    pose proof (j_seg s L J2) as D. rewrite EL in D. rewrite <- !app_assoc in D. cbn [app] in D. rewrite app_assoc in D. destruct (dseg_split _ _ _ _ D) as (c1 & E1 & _ & E3). rewrite Ec in E1. injection E1 as <-. exact E3.
  - (* CReset *) subst L'. pose proof (j_pc s L J2 t) as P. rewrite Hpc in P. cbn in P. destruct (in_heap s L a J2 P) as (c & Ec). unfold acc. rewrite Ec. intros v clr' Hv. cbn in Hv. rewrite upd_pc in Hv.
    assert (Hvt : v = t). { destruct (set_cases (s_pc s) t (CUnstop a) v) as [(-> & Es)|(Hu & Es)]; auto. rewrite Es in Hv. apply (only_flusher s L t v clr'); auto. rewrite Hpc. reflexivity. }
    subst v. rewrite set_same in Hv. cbn in Hv. injection Hv as <-. destruct (J t true ltac:(rewrite Hpc; reflexivity)) as (l1 & l2 & W & V & R & El & Hq & EL & Hw & Hp & Hc). rewrite Hpc in *. cbn in Hp. destruct Hp as (R' & ->). pose proof (i_heap s J1 a c Ec) as Eo.
    exists l1, (l2 ++ [EReset (c_owner c)]), W, V, (a :: R'). cbn. usimp. rewrite set_same. split; [rewrite El, <- app_assoc; reflexivity|]. split; [apply quiet_app; split; auto; reflexivity|]. split; [auto|]. split; [tauto|]. split; [cbn; split; [eauto|]; exists (c_owner c); split; auto; apply in_app_iff; right; left; auto|].
    intro u. destruct (Hc u) as (H1 & H2). split; [destruct H1 as [H1|H1]; auto; left; apply in_app_iff; auto|]. intros A1 A2. destruct (H2 A1 A2) as [H|H]; auto. left. rewrite !in_app_iff in *. tauto.
  - (* CUnstop *) subst L'. intros v clr' Hv; cbn in Hv; rewrite upd_pc in Hv. assert (Hvt : v = t). { destruct (set_cases (s_pc s) t (CTest a) v) as [(-> & Es)|(Hu & Es)]; auto. rewrite Es in Hv. apply (only_flusher s L t v clr'); auto. rewrite Hpc. reflexivity. }
    subst v. rewrite set_same in Hv. cbn in Hv. injection Hv as <-. destruct (J t true ltac:(rewrite Hpc; reflexivity)) as (l1 & l2 & W & V & R & El & Hq & EL & Hw & Hp & Hc). rewrite Hpc in *.
    exists l1, l2, W, V, R. cbn. usimp. rewrite set_same. split; [exact El|]. split; [exact Hq|]. split; [exact EL|]. split; [cbn; tauto|]. split; [exact Hp|exact Hc].
  - (* CTest *) subst L'. pose proof (j_pc s L J2 t) as P. rewrite Hpc in P. cbn in P. destruct (in_heap s L a J2 P) as (c & Ec). unfold acc. rewrite Ec. intros v clr' Hv. cbn in Hv.
    assert (Hvt : v = t). { destruct (set_cases (s_pc s) t (if c_ret c then CTmp a else CNext a) v) as [(-> & Es)|(Hu & Es)]; auto. rewrite Es in Hv. apply (only_flusher s L t v clr'); auto. rewrite Hpc. reflexivity. }
    subst v. rewrite set_same in Hv. assert (clr' = true) by (destruct (c_ret c); cbn in Hv; congruence). subst clr'. clear Hv. destruct (J t true ltac:(rewrite Hpc; reflexivity)) as (l1 & l2 & W & V & R & El & Hq & EL & Hw & Hp & Hc). rewrite Hpc in *. cbn in Hp. destruct (c_ret c) eqn:Er.
    + exists l1, l2, W, V, R. cbn. rewrite set_same. split; [exact El|]. split; [exact Hq|]. split; [exact EL|]. split; [cbn; tauto|]. split; [exact Hp|exact Hc].
    + destruct Hp as ((R' & ->) & w & Ew & Hrs). exists l1, l2, W, (V ++ [a]), R'. cbn. rewrite set_same. split; [auto|]. split; [auto|]. split; [rewrite EL, <- !app_assoc; reflexivity|]. split; [tauto|]. split; [cbn; eauto|].
      intro u. destruct (Hc u) as (H1 & H2). split.
      * destruct H1 as [H1|[(b & B1 & [<-|B2])|H1]]; auto; [|right; left; eauto]. left. rewrite (i_inj s J1 u w a B1 Ew). exact Hrs.
      * intros A1 A2. destruct (H2 A1 A2) as [H|(b & B1 & [[<-|B2]|B2])]; auto; [|right; eauto|contradiction]. exfalso.
        pose proof (i_ret s J1 a c Ec) as Er'. rewrite Er in Er'. rewrite (owner_cell s a c u J1 B1 Ec) in Er'. assert (G : s_gone s u = true) by (apply (i_rel s J1 u); rewrite El; apply in_app_iff; auto). congruence.
  - (* CNext *) subst L'. pose proof (j_pc s L J2 t) as P. rewrite Hpc in P. cbn in P. destruct (in_heap s L a J2 P) as (c & Ec). unfold acc. rewrite Ec. intros v clr' Hv. cbn in Hv.
    assert (Hvt : v = t). { destruct (set_cases (s_pc s) t (At true (c_next c)) v) as [(-> & Es)|(Hu & Es)]; auto. rewrite Es in Hv. apply (only_flusher s L t v clr'); auto. rewrite Hpc. reflexivity. }
    subst v. rewrite set_same in Hv. cbn in Hv. injection Hv as <-. destruct (J t true ltac:(rewrite Hpc; reflexivity)) as (l1 & l2 & W & V & R & El & Hq & EL & Hw & Hp & Hc). rewrite Hpc in *. cbn in Hp. destruct Hp as (V' & ->).
    exists l1, l2, W, (V' ++ [a]), R. cbn. rewrite set_same. split; [auto|]. split; [auto|]. split; [auto|]. split; [tauto|]. split; [|exact Hc]. cbn.
    pose proof (j_seg s L J2) as D. rewrite EL in D. rewrite <- !app_assoc in D. cbn [app] in D. rewrite app_assoc in D. destruct (dseg_split _ _ _ _ D) as (c1 & E1 & _ & E3). rewrite Ec in E1. injection E1 as <-. exact E3.
  - (* CTmp *) subst L'. pose proof (j_pc s L J2 t) as P. rewrite Hpc in P. cbn in P. destruct P as (P & c & Ec & Er). unfold acc. rewrite Ec. intros v clr' Hv. cbn in Hv.
    assert (Hvt : v = t). { destruct (set_cases (s_pc s) t (CUnlink a (c_next c)) v) as [(-> & Es)|(Hu & Es)]; auto. rewrite Es in Hv. apply (only_flusher s L t v clr'); auto. rewrite Hpc. reflexivity. }
    subst v. rewrite set_same in Hv. cbn in Hv. injection Hv as <-. destruct (J t true ltac:(rewrite Hpc; reflexivity)) as (l1 & l2 & W & V & R & El & Hq & EL & Hw & Hp & Hc). rewrite Hpc in *. exists l1, l2, W, V, R. cbn. rewrite set_same. split; [exact El|]. split; [exact Hq|]. split; [exact EL|]. split; [cbn; tauto|]. split; [exact Hp|exact Hc].
  - (* CUnlink *) destruct HL as (A & B & EL1 & -> & Et). intros v clr' Hv. cbn in Hv. rewrite unl_pc in Hv.
    assert (Hvt : v = t). { destruct (set_cases (s_pc s) t (CDelete a tmp) v) as [(-> & Es)|(Hu & Es)]; auto. rewrite Es in Hv. apply (only_flusher s L t v clr'); auto. rewrite Hpc. reflexivity. }
    subst v. rewrite set_same in Hv. cbn in Hv. injection Hv as <-. destruct (J t true ltac:(rewrite Hpc; reflexivity)) as (l1 & l2 & W & V & R & El & Hq & EL & Hw & Hp & Hc). rewrite Hpc in *. cbn in Hp. destruct Hp as ((R' & ->) & w & Ew & Hrs).
    pose proof (j_nd s L J2) as ND. rewrite EL1 in ND. assert (ES : A ++ a :: B = (W ++ V) ++ a :: R') by (rewrite <- EL1, EL, app_assoc; reflexivity). destruct (nodup_split A B (W ++ V) R' a ND ES) as (-> & ->).
    exists l1, l2, W, V, R'. cbn. rewrite unl_log, unl_pc, unl_own, set_same. split; [auto|]. split; [auto|]. split; [rewrite app_assoc; reflexivity|]. split; [tauto|]. split; [cbn; auto|].
    intro u. destruct (Hc u) as (H1 & H2). split.
    + destruct H1 as [H1|[(b & B1 & [<-|B2])|H1]]; auto; [|right; left; eauto]. left. rewrite (i_inj s J1 u w a B1 Ew). exact Hrs.
    + intros A1 A2. destruct (H2 A1 A2) as [H|(b & B1 & [[<-|B2]|B2])]; auto; right; [exists a|exists b|contradiction]; cbn; auto.
  - (* CDelete *) subst L'. pose proof (j_pc s L J2 t) as P. rewrite Hpc in P. cbn in P. destruct P as (_ & (c & Ec & _) & _). unfold acc. rewrite Ec. intros v clr' Hv. cbn in Hv.
    assert (Hvt : v = t). { destruct (set_cases (s_pc s) t (At true tmp) v) as [(-> & Es)|(Hu & Es)]; auto. rewrite Es in Hv. apply (only_flusher s L t v clr'); auto. rewrite Hpc. reflexivity. }
    subst v. rewrite set_same in Hv. cbn in Hv. injection Hv as <-. destruct (J t true ltac:(rewrite Hpc; reflexivity)) as (l1 & l2 & W & V & R & El & Hq & EL & Hw & Hp & Hc). rewrite Hpc in *. cbn in Hp.
    exists l1, (l2 ++ [EFree (c_owner c)]), W, V, R. cbn. rewrite set_same. split; [rewrite El, <- app_assoc; reflexivity|]. split; [apply quiet_app; split; auto; reflexivity|]. split; [auto|]. split; [tauto|]. split; [exact Hp|].
    intro u. destruct (Hc u) as (H1 & H2). split; [destruct H1 as [H1|H1]; auto; left; apply in_app_iff; auto|]. intros A1 A2. destruct (H2 A1 A2) as [H|(b & B1 & [B2|B2])].
    + left. rewrite !in_app_iff in *. tauto.
    + right. eauto.
    + cbn in B2. subst b. left. rewrite <- (owner_cell s a c u J1 B1 Ec). rewrite !in_app_iff. cbn. auto.
Qed.
End R.
