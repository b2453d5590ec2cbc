(* C68 proofs, part 2: the list of buffers *)
From Verif Require Import Base BufModel BufSpec BufProofs.

Definition hd_or (L : list N) (n : option N) : option N := match L with [] => n | a :: _ => Some a end.
Definition last_or (p : option N) (L : list N) : option N := last (map Some L) p.
Fixpoint dseg (h : N -> option cell) (p : option N) (L : list N) (n : option N) : Prop :=
  match L with [] => True | a :: r => (exists c, h a = Some c /\ c_prev c = p /\ c_next c = hd_or r n) /\ dseg h (Some a) r n end.
Lemma last_or_cons p a L : last_or p (a :: L) = last_or (Some a) L.
Proof.
  unfold last_or. revert p a. induction L as [|b L IH]; intros p a; [reflexivity|].
  change (map Some (a :: b :: L)) with (Some a :: map Some (b :: L)). change (map Some (b :: L)) with (Some b :: map Some L) at 1. cbn [last]. specialize (IH (Some a) b). cbn [map] in *. 
  assert (E : forall q1 q2 : option N, last (Some b :: map Some L) q1 = last (Some b :: map Some L) q2). { clear. generalize (map Some L). intro l. revert b. intro b. generalize (Some b). induction l as [|x l IH]; intros y q1 q2; [reflexivity|]. cbn [last]. apply IH. }
  exact (E p (Some a)).
Qed.
Lemma dseg_app h p A B n : dseg h p (A ++ B) n <-> dseg h p A (hd_or B n) /\ dseg h (last_or p A) B n.
Proof.
  revert p. induction A as [|a A IH]; intro p; [cbn; tauto|]. cbn [app dseg]. rewrite IH, last_or_cons. assert (E : hd_or (A ++ B) n = hd_or A (hd_or B n)) by (destruct A; reflexivity). rewrite E. tauto.
Qed.
Definition ptr (c c' : cell) : Prop := c_next c' = c_next c /\ c_prev c' = c_prev c.
Lemma dseg_ext h h' p L n : (forall a c, In a L -> h a = Some c -> exists c', h' a = Some c' /\ ptr c c') -> dseg h p L n -> dseg h' p L n.
Proof.
  revert p. induction L as [|a L IH]; intros p H D; [exact D|]. destruct D as ((c & E1 & E2 & E3) & D). split.
  - destruct (H a c (or_introl eq_refl) E1) as (c' & F1 & (F2 & F3)). exists c'. rewrite F2, F3. auto.
  - apply IH; auto. intros b d Hb. apply H. right. auto.
Qed.
Lemma dseg_in h p L n a : dseg h p L n -> In a L -> exists c, h a = Some c /\ match c_next c with Some b => In b L \/ n = Some b | None => n = None end.
Proof.
  revert p. induction L as [|x L IH]; intros p D H; [contradiction|]. destruct D as ((c & E1 & E2 & E3) & D). destruct H as [->|H].
  - exists c. split; auto. rewrite E3. destruct L as [|y L]; cbn; [destruct n; auto|left; right; left; reflexivity].
  - destruct (IH _ D H) as (d & F1 & F2). exists d. split; auto. destruct (c_next d); auto. destruct F2; auto. left. right. auto.
Qed.

Definition inflush (p : pc) : bool :=
  match p with Idle | Link _ _ | Loaded _ _ | Save _ _ | Lock _ => false | _ => true end.
Definition stops (p : pc) : option N := match p with FRead a | FUnstop a | CReset a | CUnstop a => Some a | _ => None end.
Definition pcok (L : list N) (h : N -> option cell) (p : pc) : Prop :=
  match p with
  | At _ (Some a) | FRead a | FUnstop a | FNext a | CReset a | CUnstop a | CTest a | CNext a => In a L
  | CTmp a => In a L /\ exists c, h a = Some c /\ c_ret c = true
  | CUnlink a tmp => In a L /\ exists c, h a = Some c /\ c_ret c = true /\ c_next c = tmp
  | CDelete a tmp => ~ In a L /\ (exists c, h a = Some c /\ c_ret c = true) /\ match tmp with Some b => In b L | None => True end
  | _ => True
  end.
Definition fresh_cell (t : N) : cell := mkcell t false false None None [].
Record I2 (s : st) (L : list N) : Prop := {
  j_fault : s_fault s = false;
  j_head : s_list s = hd_or L None;
  j_seg : dseg (s_heap s) None L None;
  j_nd : NoDup L;
  j_lock : forall t, inflush (s_pc s t) = true <-> s_lock s = Some t;
  j_own : forall t a c, s_own s t = Some a -> s_heap s a = Some c -> In a L \/ (exists r, s_pc s t = Link a r) \/ (exists u tmp, s_pc s u = CDelete a tmp);
  j_link : forall t a r, s_pc s t = Link a r -> ~ In a L /\ s_heap s a = Some (fresh_cell t);
  j_pc : forall t, pcok L (s_heap s) (s_pc s t);
  j_stop : forall a c, s_heap s a = Some c -> c_stop c = true -> exists t, stops (s_pc s t) = Some a;
  j_freed : forall t a, s_own s t = Some a -> s_heap s a = None -> s_gone s t = true }.
Lemma I2_init : I2 st_init [].
Proof. constructor; cbn; try discriminate; auto; try constructor; discriminate. Qed.
Lemma in_heap s L a : I2 s L -> In a L -> exists c, s_heap s a = Some c.
Proof. intros J H. destruct (dseg_in _ _ _ _ _ (j_seg s L J) H) as (c & E & _). eauto. Qed.
Lemma in_next s L a c b : I2 s L -> In a L -> s_heap s a = Some c -> c_next c = Some b -> In b L.
Proof. intros J H E E1. destruct (dseg_in _ _ _ _ _ (j_seg s L J) H) as (d & F & G). rewrite E in F. injection F as <-. rewrite E1 in G. destruct G; congruence || auto. Qed.

Definition plainpc (p : pc) : Prop := match p with Link _ _ | CDelete _ _ => False | _ => True end.
Lemma pcok_ext L h h' p : (forall a c, h a = Some c -> exists c', h' a = Some c' /\ ptr c c' /\ (c_ret c = true -> c_ret c' = true)) -> pcok L h p -> pcok L h' p.
Proof.
  intros H P. destruct p; cbn in *; auto.
  - destruct P as (P1 & c & P2 & P3). split; auto. destruct (H a c P2) as (c' & E & _ & R). eauto.
  - destruct P as (P1 & c & P2 & P3 & P4). split; auto. destruct (H a c P2) as (c' & E & (E1 & _) & R). exists c'. rewrite E1. auto.
  - destruct P as (P1 & (c & P2 & P3) & P4). split; auto. split; auto. destruct (H a c P2) as (c' & E & _ & R). eauto.
Qed.
(* steps of thread t that keep the list and the pointers *)
Lemma I2_frame s s' L t p : I1 s -> I2 s L -> s_list s' = s_list s -> s_own s' = s_own s -> (forall u, s_gone s u = true -> s_gone s' u = true) -> s_fault s' = false ->
  s_pc s' = set (s_pc s) t p -> plainpc (s_pc s t) -> plainpc p ->
  hrel (fun _ c c' => ptr c c' /\ (c_ret c = true -> c_ret c' = true)) (s_heap s) (s_heap s') ->
  (forall u a r, u <> t -> s_pc s u = Link a r -> s_heap s' a = s_heap s a) ->
  (forall u, inflush (set (s_pc s) t p u) = true <-> s_lock s' = Some u) ->
  (forall a c, s_heap s' a = Some c -> c_stop c = true -> stops p = Some a \/ (stops (s_pc s t) <> Some a /\ exists c0, s_heap s a = Some c0 /\ c_stop c0 = true)) ->
  pcok L (s_heap s') p -> I2 s' L.
Proof.
  intros J1 J El Eo Eg Ef Ep Hp Hp' Hh Hl Hk Hs Hok.
  assert (Hf : forall a c, s_heap s a = Some c -> exists c', s_heap s' a = Some c' /\ ptr c c' /\ (c_ret c = true -> c_ret c' = true)).
  { intros a c E. specialize (Hh a). rewrite E in Hh. destruct (s_heap s' a) as [c'|]; [|contradiction]. exists c'. auto. }
  assert (Hb : forall a c', s_heap s' a = Some c' -> exists c, s_heap s a = Some c).
  { intros a c' E. specialize (Hh a). rewrite E in Hh. destruct (s_heap s a) as [c|]; [eauto|contradiction]. }
  constructor.
  - exact Ef.
  - rewrite El. apply (j_head s L J).
  - eapply dseg_ext; [|apply (j_seg s L J)]. intros a c _ E. destruct (Hf a c E) as (c' & E' & P & _). eauto.
  - apply (j_nd s L J).
  - intro u. rewrite Ep. apply Hk.
  - intros u a c'. rewrite Eo, Ep. intros E1 E2. destruct (Hb a c' E2) as (c & E3). destruct (j_own s L J u a c E1 E3) as [H|[(r & H)|(v & tmp & H)]]; auto.
    + right. left. exists r. rewrite set_other; auto. intros ->. rewrite H in Hp. exact Hp.
    + right. right. exists v, tmp. rewrite set_other; auto. intros ->. rewrite H in Hp. exact Hp.
  - intros u a r. rewrite Ep. destruct (set_cases (s_pc s) t p u) as [(-> & ->)|(Hu & ->)]; intro E; [rewrite E in Hp'; contradiction|]. rewrite (Hl u a r Hu E). apply (j_link s L J u a r E).
  - intro u. rewrite Ep. destruct (set_cases (s_pc s) t p u) as [(-> & ->)|(Hu & ->)]; auto. eapply pcok_ext; [exact Hf|apply (j_pc s L J u)].
  - intros a c E1 E2. rewrite Ep. destruct (Hs a c E1 E2) as [H|(H1 & c0 & E3 & E4)]; [exists t; rewrite set_same; auto|]. destruct (j_stop s L J a c0 E3 E4) as (u & H). exists u. rewrite set_other; auto. intros ->. contradiction.
  - intros u a. rewrite Eo. intros E1 E2. apply Eg. apply (j_freed s L J u a E1). destruct (s_heap s a) as [c|] eqn:E; auto. destruct (Hf a c E) as (c' & E' & _). congruence.
Qed.
(* the lock clause if the thread stays on its side of flush_lock *)
Lemma lock_same s L t p : I2 s L -> inflush p = inflush (s_pc s t) -> forall u, inflush (set (s_pc s) t p u) = true <-> s_lock s = Some u.
Proof. intros J H u. rewrite <- (j_lock s L J u). destruct (set_cases (s_pc s) t p u) as [(-> & ->)|(Hu & ->)]; [rewrite H; tauto|tauto]. Qed.
Lemma hrel_p h : hrel (fun _ c c' => ptr c c' /\ (c_ret c = true -> c_ret c' = true)) h h.
Proof. apply hrel_refl. unfold ptr. auto. Qed.
Lemma owner_cell s a c t : I1 s -> s_own s t = Some a -> s_heap s a = Some c -> c_owner c = t.
Proof. intros J Eo Ea. apply (i_inj s J _ _ a); auto. apply (i_heap s J a c Ea). Qed.
(* a linked cell is not one about to be linked *)
Lemma link_not_in s L u a r b : I2 s L -> s_pc s u = Link a r -> In b L -> b <> a.
Proof. intros J H Hb ->. apply (j_link s L J u a r H). auto. Qed.
(* local steps *)
Lemma I2_local s s' L t p : I1 s -> I2 s L -> s_list s' = s_list s -> s_own s' = s_own s -> s_gone s' = s_gone s -> s_fault s' = s_fault s -> s_lock s' = s_lock s -> s_heap s' = s_heap s ->
  s_pc s' = set (s_pc s) t p -> plainpc (s_pc s t) -> plainpc p -> inflush p = inflush (s_pc s t) ->
  (stops p = stops (s_pc s t) \/ stops (s_pc s t) = None) -> pcok L (s_heap s) p -> I2 s' L.
Proof.
  intros J1 J El Eo Eg Ef Ek Eh Ep Hp Hp' Hf Hs Hok. apply (I2_frame s s' L t p); auto.
  - intros u. rewrite Eg. auto.
  - rewrite Ef. apply (j_fault s L J).
  - rewrite Eh. apply hrel_p.
  - intros. rewrite Eh. reflexivity.
  - rewrite Ek. apply (lock_same s L t p J Hf).
  - rewrite Eh. intros a c E1 E2. destruct Hs as [Hs|Hs].
    + rewrite Hs. destruct (j_stop s L J a c E1 E2) as (u & Hu). destruct (N.eq_dec u t) as [->|X]; [auto|]. destruct (stops (s_pc s t)) as [b|] eqn:Eb; [|right; split; [discriminate|eauto]].
      destruct (N.eq_dec b a) as [->|Y]; [auto|]. right. split; [congruence|eauto].
    + right. rewrite Hs. split; [discriminate|eauto].
  - rewrite Eh. exact Hok.
Qed.
(* steps that set or clear the stop flag of a linked buffer *)
Lemma I2_flag s L t p a b : I1 s -> I2 s L -> In a L -> plainpc (s_pc s t) -> plainpc p -> inflush p = inflush (s_pc s t) ->
  (b = true -> stops p = Some a) -> (b = false -> stops p = None) -> (stops (s_pc s t) = None \/ stops (s_pc s t) = Some a) ->
  pcok L (s_heap s) p -> I2 (w_pc (upd s a (stop_c b)) t p) L.
Proof.
  intros J1 J Ha Hp Hp' Hf Hb1 Hb2 Hst Hok. destruct (in_heap s L a J Ha) as (c0 & E0).
  assert (Hh : hrel (fun _ c c' => ptr c c' /\ (c_ret c = true -> c_ret c' = true)) (s_heap s) (s_heap (upd s a (stop_c b)))) by (apply hrel_upd; unfold ptr; intros; cbn; auto).
  apply (I2_frame s _ L t p); cbn; usimp; auto.
  - rewrite upd_fault, E0, (j_fault s L J). reflexivity.
  - intros u x r Hu E. rewrite upd_heap. destruct (N.eqb_spec x a) as [->|X]; auto. exfalso. exact (link_not_in s L u a r a J E Ha eq_refl).
  - apply (lock_same s L t p J Hf).
  - intros x c. rewrite upd_heap. destruct (N.eqb_spec x a) as [->|X].
    + rewrite E0. cbn. intro E. injection E as <-. cbn. intro Eb. auto.
    + intros E1 E2. right. split; [destruct Hst as [Hst|Hst]; rewrite Hst; congruence|eauto].
  - eapply pcok_ext; [|exact Hok]. intros x c E. specialize (Hh x). rewrite E in Hh. destruct (s_heap (upd s a (stop_c b)) x) as [c'|]; [|contradiction]. eauto.
Qed.
(* ---- structural steps ---- *)
Lemma I2_alloc s L t r m : I1 s -> I2 s L -> s_own s t = None -> s_gone s t = false -> s_pc s t = Idle -> I2 (w_pc (alloc (w_log s m) t) t (Link (s_fresh s) r)) L.
Proof.
  intros J1 J Ho Hg Hi. set (a := s_fresh s). assert (Hfa : forall u, s_own s u <> Some a) by (intros u E; apply (i_lt s J1) in E; unfold a in E; lia).
  assert (Ha : s_heap s a = None). { destruct (s_heap s a) as [c|] eqn:E; auto. apply (i_heap s J1) in E. exfalso. eapply Hfa; eauto. }
  assert (HL : ~ In a L). { intro H. destruct (in_heap s L a J H) as (c & E). congruence. }
  assert (Hx : forall b c, s_heap s b = Some c -> set (s_heap s) a (Some (fresh_cell t)) b = Some c) by (intros b c E; rewrite set_other; auto; congruence).
  constructor; cbn; fold a; try apply J.
  - eapply dseg_ext; [|apply (j_seg s L J)]. intros b c _ E. exists c. split; [apply Hx; auto|unfold ptr; auto].
  - intro u. rewrite <- (j_lock s L J u). destruct (set_cases (s_pc s) t (Link a r) u) as [(-> & ->)|(Hu & ->)]; [rewrite Hi; cbn; tauto|tauto].
  - intros u b c. destruct (set_cases (s_own s) t (Some a) u) as [(-> & ->)|(Hu & ->)]; intros E1 E2.
    + injection E1 as <-. right. left. exists r. apply set_same.
    + assert (Hb : b <> a) by (intros ->; eapply Hfa; eauto). rewrite set_other in E2 by auto. destruct (j_own s L J u b c E1 E2) as [H|[(r' & H)|(v & tmp & H)]]; auto.
      * right. left. exists r'. rewrite set_other; auto.
      * right. right. exists v, tmp. rewrite set_other; auto. congruence.
  - intros u b r'. destruct (set_cases (s_pc s) t (Link a r) u) as [(-> & ->)|(Hu & ->)]; intro E.
    + injection E as <- <-. split; auto. apply set_same.
    + destruct (j_link s L J u b r' E) as (E1 & E2). split; auto.
  - intro u. destruct (set_cases (s_pc s) t (Link a r) u) as [(-> & ->)|(Hu & ->)]; [exact Logic.I|]. eapply pcok_ext; [|apply (j_pc s L J u)]. intros b c E. exists c. split; [apply Hx; auto|unfold ptr; auto].
  - intros b c. destruct (set_cases (s_heap s) a (Some (mkcell t false false None None [])) b) as [(-> & ->)|(Hb & ->)]; intros E1 E2; [injection E1 as <-; discriminate|].
    destruct (j_stop s L J b c E1 E2) as (u & Hu). exists u. rewrite set_other; auto. intros ->. rewrite Hi in Hu. discriminate.
  - intros u b. destruct (set_cases (s_own s) t (Some a) u) as [(-> & ->)|(Hu & ->)]; intros E1 E2; [injection E1 as <-; rewrite set_same in E2; discriminate|].
    apply (j_freed s L J u b E1). rewrite set_other in E2; auto. intros ->. eapply Hfa; eauto.
Qed.
Lemma link_heap s L a t : I2 s L -> ~ In a L -> s_heap s a = Some (fresh_cell t) -> forall b,
  s_heap (link s a) b = if b =? a then Some (next_c (s_list s) (fresh_cell t)) else match s_list s with Some h => if b =? h then option_map (prev_c (Some a)) (s_heap s h) else s_heap s b | None => s_heap s b end.
Proof.
  intros J Ha E b. unfold link. cbn [w_list s_heap]. rewrite upd_heap, !upd_opt_heap, uo_list. destruct (N.eqb_spec b a) as [->|X]; auto.
  rewrite (j_head s L J). destruct L as [|h L]; cbn; [rewrite E; reflexivity|]. destruct (N.eqb_spec a h) as [->|Y]; [exfalso; apply Ha; left; auto|]. rewrite E. reflexivity.
Qed.
Lemma I2_link s L t a r : I1 s -> I2 s L -> s_pc s t = Link a r -> I2 (w_pc (link s a) t (match r with Some n => Loaded a n | None => Idle end)) (a :: L).
Proof.
  intros J1 J Hpc. destruct (j_link s L J t a r Hpc) as (Ha & Ea). pose proof (link_heap s L a t J Ha Ea) as Hh. set (p := match r with Some n => Loaded a n | None => Idle end).
  assert (Hp : plainpc p /\ inflush p = false /\ stops p = None /\ forall M h, pcok M h p) by (unfold p; destruct r; cbn; auto). destruct Hp as (Hp1 & Hp2 & Hp3 & Hp4).
  assert (Fc : forall b c, s_heap s b = Some c -> b <> a -> exists c', s_heap (link s a) b = Some c' /\ c_next c' = c_next c /\ c_ret c' = c_ret c /\ c_stop c' = c_stop c /\ (s_list s <> Some b -> c' = c)).
  { intros b c E X. rewrite Hh. destruct (N.eqb_spec b a) as [|_]; [contradiction|]. destruct (s_list s) as [h|]; [|exists c; auto]. destruct (N.eqb_spec b h) as [->|Y]; [rewrite E; exists (prev_c (Some a) c); cbn; repeat split; auto; congruence|exists c; auto]. }
  assert (Fb : forall b c', s_heap (link s a) b = Some c' -> b <> a -> exists c, s_heap s b = Some c /\ c_stop c = c_stop c').
  { intros b c' E X. rewrite Hh in E. destruct (N.eqb_spec b a) as [|_]; [contradiction|]. destruct (s_list s) as [h|]; [|eauto]. destruct (N.eqb_spec b h) as [->|Y]; [|eauto]. destruct (s_heap s h) as [c|]; [|discriminate]. cbn in E. injection E as <-. exists c. auto. }
  constructor; cbn; rewrite ?link_pc, ?link_lock, ?link_own, ?link_gone.
  - unfold link. cbn. rewrite upd_fault, upd_opt_heap. assert (Ef : s_fault (upd_opt s (s_list s) (prev_c (Some a))) = false).
    { rewrite (j_head s L J). destruct L as [|h L]; cbn; [apply (j_fault s [] J)|]. unfold upd_opt. rewrite upd_fault, (j_fault s _ J). destruct (in_heap s (h :: L) h J (or_introl eq_refl)) as (c & ->). reflexivity. }
    rewrite Ef. cbn [orb]. destruct (s_list s) as [h|]; [destruct (N.eqb_spec a h) as [->|]|]; rewrite Ea; reflexivity.
  - reflexivity.
  - split; [exists (next_c (s_list s) (fresh_cell t)); rewrite Hh, N.eqb_refl; cbn; rewrite (j_head s L J); destruct L; auto|].
    pose proof (j_seg s L J) as D. destruct L as [|h L]; [exact Logic.I|]. assert (Eh : s_list s = Some h) by apply (j_head s _ J). destruct D as ((c & E1 & E2 & E3) & D). split.
    + exists (prev_c (Some a) c). rewrite Hh, Eh, N.eqb_refl, E1. destruct (N.eqb_spec h a) as [->|X]; [exfalso; apply Ha; left; auto|]. cbn. auto.
    + eapply dseg_ext; [|exact D]. intros b d Hb E. pose proof (j_nd s _ J) as ND. inversion ND as [|? ? N1 N2]; subst. exists d. split; [|unfold ptr; auto]. rewrite Hh, Eh. destruct (N.eqb_spec b a) as [->|X]; [exfalso; apply Ha; right; auto|]. destruct (N.eqb_spec b h) as [->|Y]; [contradiction|auto].
  - constructor; [auto|apply (j_nd s L J)].
  - apply (lock_same s L t p J). rewrite Hpc, Hp2. reflexivity.
  - intros u b c' E1 E2. destruct (N.eq_dec b a) as [->|X]; [left; left; auto|]. destruct (Fb b c' E2 X) as (c & E3 & _). destruct (j_own s L J u b c E1 E3) as [H|[(r' & H)|(v & tmp & H)]]; [left; right; auto| |].
    + right. left. exists r'. rewrite set_other; auto. intros ->. congruence.
    + right. right. exists v, tmp. rewrite set_other; auto. congruence.
  - intros u b r'. destruct (set_cases (s_pc s) t p u) as [(-> & ->)|(Hu & ->)]; intro E; [rewrite E in Hp1; contradiction|].
    destruct (j_link s L J u b r' E) as (E1 & E2). assert (X : b <> a). { intros ->. rewrite Ea in E2. injection E2 as E2. congruence. }
    split; [intros [H|H]; congruence || contradiction|]. destruct (Fc b _ E2 X) as (c' & E3 & _ & _ & _ & E4). rewrite E3. f_equal. apply E4. rewrite (j_head s L J). destruct L as [|h L]; [discriminate|]. cbn. intro Q. injection Q as ->. apply E1. left. auto.
  - intro u. destruct (set_cases (s_pc s) t p u) as [(-> & ->)|(Hu & ->)]; [apply Hp4|]. pose proof (j_pc s L J u) as P. destruct (s_pc s u) as [| | | | | |clr [x|]| | | | | | | |x|x tmp|x tmp]; cbn in *; auto.
    + destruct P as (P1 & c & P2 & P3). split; auto. assert (X : x <> a) by (intros ->; contradiction). destruct (Fc x c P2 X) as (c' & E1 & E2 & E3 & _). exists c'. rewrite E3. auto.
    + destruct P as (P1 & c & P2 & P3 & P4). split; auto. assert (X : x <> a) by (intros ->; contradiction). destruct (Fc x c P2 X) as (c' & E1 & E2 & E3 & _). exists c'. rewrite E2, E3. auto.
    + destruct P as (P1 & (c & P2 & P3) & P4). assert (X : x <> a) by (intros ->; rewrite Ea in P2; injection P2 as <-; discriminate). split; [intros [H|H]; congruence || contradiction|]. destruct (Fc x c P2 X) as (c' & E1 & E2 & E3 & _).
      split; [exists c'; rewrite E3; auto|]. destruct tmp; auto.
  - intros b c' E1 E2. destruct (N.eq_dec b a) as [->|X].
    + rewrite Hh, N.eqb_refl in E1. injection E1 as <-. discriminate.
    + destruct (Fb b c' E1 X) as (c & E3 & E4). destruct (j_stop s L J b c E3 ltac:(congruence)) as (u & Hu). exists u. rewrite set_other; auto. intros ->. rewrite Hpc in Hu. discriminate.
  - intros u b E1 E2. apply (j_freed s L J u b E1). destruct (s_heap s b) as [c|] eqn:E; auto. exfalso. pose proof (link_core s a b) as K. rewrite E, E2 in K. exact K.
Qed.
Definition unl (p n : option N) (x : N) (d : cell) : cell :=
  (if oeqb p (Some x) then next_c n else fun c => c) ((if oeqb n (Some x) then prev_c p else fun c => c) d).
Lemma unlink_heap s a tmp c : s_heap s a = Some c -> forall x, s_heap (unlink s a tmp) x = option_map (unl (c_prev c) (c_next c) x) (s_heap s x).
Proof.
  intros E x. unfold unlink, acc. rewrite E. set (s1 := upd_opt s _ _). set (s2 := upd_opt s1 _ _). replace (s_heap (if oeqb (s_list s2) (Some a) then w_list s2 tmp else s2)) with (s_heap s2) by (destruct (oeqb _ _); reflexivity).
  assert (H1 : forall y, s_heap s1 y = option_map (if oeqb (c_next c) (Some y) then prev_c (c_prev c) else fun c => c) (s_heap s y)).
  { intro y. unfold s1. rewrite upd_opt_heap. destruct (c_next c) as [n|]; cbn; [|destruct (s_heap s y); reflexivity]. rewrite (N.eqb_sym n y). destruct (N.eqb_spec y n) as [->|]; [reflexivity|destruct (s_heap s y); reflexivity]. }
  unfold s2. rewrite upd_opt_heap. unfold unl. destruct (c_prev c) as [p|]; cbn [oeqb]; [|rewrite H1; destruct (s_heap s x); reflexivity].
  rewrite (N.eqb_sym p x). destruct (N.eqb_spec x p) as [->|]; rewrite H1; [destruct (s_heap s p)|destruct (s_heap s x)]; reflexivity.
Qed.
Lemma unlink_fault s L a tmp c : I2 s L -> In a L -> s_heap s a = Some c -> (forall b, c_prev c = Some b -> In b L) -> s_fault (unlink s a tmp) = false.
Proof.
  intros J Ha E Hpv. unfold unlink, acc. rewrite E. set (s1 := upd_opt s _ _). set (s2 := upd_opt s1 _ _). replace (s_fault (if oeqb (s_list s2) (Some a) then w_list s2 tmp else s2)) with (s_fault s2) by (destruct (oeqb _ _); reflexivity).
  assert (F1 : s_fault s1 = false). { unfold s1. destruct (c_next c) as [n|] eqn:En; [|apply (j_fault s L J)]. unfold upd_opt. rewrite upd_fault, (j_fault s L J). destruct (in_heap s L n J (in_next s L a c n J Ha E En)) as (d & ->). reflexivity. }
  unfold s2. destruct (c_prev c) as [p|] eqn:Ep; [|exact F1]. unfold upd_opt. rewrite upd_fault, F1. destruct (in_heap s L p J (Hpv p eq_refl)) as (d & Ed). unfold s1. rewrite upd_opt_heap. destruct (c_next c) as [n|]; [|rewrite Ed; reflexivity].
  destruct (N.eqb_spec p n) as [->|]; rewrite Ed; reflexivity.
Qed.
Lemma last_or_snoc p L b : last_or p (L ++ [b]) = Some b.
Proof. unfold last_or. rewrite map_app. cbn. apply last_last. Qed.
Lemma last_or_in L b : last_or None L = Some b -> In b L.
Proof. destruct L as [|x L] using rev_ind; [discriminate|]. rewrite last_or_snoc. intro E. injection E as ->. apply in_app_iff. right. left. auto. Qed.
Lemma dseg_split h A a B : dseg h None (A ++ a :: B) None -> exists c, h a = Some c /\ c_prev c = last_or None A /\ c_next c = hd_or B None.
Proof. rewrite dseg_app. intros (_ & H & _). exact H. Qed.
Lemma unlink_seg h h' A a B c : NoDup (A ++ a :: B) -> dseg h None (A ++ a :: B) None -> h a = Some c -> (forall x, h' x = option_map (unl (c_prev c) (c_next c) x) (h x)) -> dseg h' None (A ++ B) None.
Proof.
  intros ND D E Hh. destruct (dseg_split h A a B D) as (c1 & E1 & Ep & En). rewrite E in E1. injection E1 as <-. rewrite Ep, En in Hh. rewrite dseg_app in D. destruct D as (D1 & _ & D2). cbn [hd_or] in D1. apply dseg_app. split.
  - destruct A as [|b A _] using rev_ind; [exact Logic.I|]. rewrite last_or_snoc in Hh. rewrite dseg_app in D1. destruct D1 as (D0 & (d & F1 & F2 & F3) & _). apply dseg_app. split.
    + cbn [hd_or] in *. eapply dseg_ext; [|exact D0]. intros x d' Hx Ex. exists d'. split; [|unfold ptr; auto]. rewrite Hh, Ex. cbn. unfold unl. cbn [oeqb].
      rewrite <- app_assoc in ND. cbn [app] in ND. assert (X : x <> b). { intros ->. apply NoDup_remove_2 in ND. apply ND, in_app_iff. left. auto. }
      destruct (N.eqb_spec b x); [congruence|]. destruct B as [|y B]; cbn [hd_or oeqb]; auto. destruct (N.eqb_spec y x) as [->|]; auto. exfalso.
      apply in_split in Hx. destruct Hx as (A1 & A2 & ->). rewrite <- app_assoc in ND. cbn [app] in ND. apply NoDup_remove_2 in ND. apply ND. rewrite !in_app_iff. right. right. cbn. auto.
    + split; [|exact Logic.I]. exists (unl (Some b) (hd_or B None) b d). rewrite Hh, F1. cbn [option_map]. split; auto. unfold unl. cbn [oeqb]. rewrite N.eqb_refl. cbn [hd_or] in *. split; [|reflexivity].
      cbn. destruct B as [|y B]; cbn [hd_or oeqb]; auto. destruct (N.eqb_spec y b) as [->|]; auto. exfalso. rewrite <- app_assoc in ND. cbn [app] in ND. apply NoDup_remove_2 in ND. apply ND. rewrite in_app_iff. cbn. auto.
  - destruct B as [|b B]; [exact Logic.I|]. cbn [hd_or] in Hh. destruct D2 as ((d & F1 & F2 & F3) & D2).
    assert (HA : forall x, In x (b :: B) -> oeqb (last_or None A) (Some x) = false).
    { intros x Hx. destruct (last_or None A) as [y|] eqn:Ey; [|reflexivity]. cbn. destruct (N.eqb_spec y x) as [->|]; auto. exfalso. apply last_or_in in Ey. apply in_split in Ey. destruct Ey as (A1 & A2 & ->). rewrite <- app_assoc in ND. cbn [app] in ND. apply NoDup_remove_2 in ND. apply ND. rewrite !in_app_iff. right. right. right. exact Hx. }
    split.
    + exists (unl (last_or None A) (Some b) b d). rewrite Hh, F1. split; auto. unfold unl. rewrite HA by (left; auto). cbn [oeqb]. rewrite N.eqb_refl. cbn. auto.
    + eapply dseg_ext; [|exact D2]. intros x d' Hx Ex. exists d'. split; [|unfold ptr; auto]. rewrite Hh, Ex. cbn [option_map]. unfold unl. rewrite HA by (right; auto). cbn [oeqb]. destruct (N.eqb_spec b x) as [->|]; auto. exfalso. apply NoDup_remove_1 in ND. apply NoDup_remove_2 in ND. apply ND, in_app_iff. right. auto.
Qed.
Lemma I2_unlink s L t a tmp : I1 s -> I2 s L -> s_pc s t = CUnlink a tmp -> exists L', I2 (w_pc (unlink s a tmp) t (CDelete a tmp)) L' /\ exists A B, L = A ++ a :: B /\ L' = A ++ B /\ tmp = hd_or B None.
Proof.
  intros J1 J Hpc. pose proof (j_pc s L J t) as P. rewrite Hpc in P. cbn in P. destruct P as (Ha & c & Ec & Er & En). pose proof (in_split _ _ Ha) as (A & B & EL). exists (A ++ B).
  assert (EB : tmp = hd_or B None /\ c_prev c = last_or None A). { destruct (dseg_split (s_heap s) A a B) as (c1 & E1 & E2 & E3); [rewrite <- EL; apply (j_seg s L J)|]. rewrite Ec in E1. injection E1 as <-. split; congruence. }
  destruct EB as (EB & EP). split; [|exists A, B; auto]. pose proof (unlink_heap s a tmp c Ec) as Hh. pose proof (j_nd s L J) as ND. rewrite EL in ND.
  assert (Hlk : s_lock s = Some t) by (apply (j_lock s L J t); rewrite Hpc; reflexivity).
  assert (Hpv : forall b, c_prev c = Some b -> In b L) by (intros b E; rewrite EP in E; apply last_or_in in E; rewrite EL; apply in_app_iff; auto).
  assert (Hoth : forall u, u <> t -> inflush (s_pc s u) = false). { intros u Hu. destruct (inflush (s_pc s u)) eqn:E; auto. apply (j_lock s L J u) in E. congruence. }
  assert (HaL : ~ In a (A ++ B)) by (apply NoDup_remove_2 in ND; auto).
  assert (Hc : forall x d, s_heap s x = Some d -> exists d', s_heap (unlink s a tmp) x = Some d' /\ c_ret d' = c_ret d /\ c_stop d' = c_stop d).
  { intros x d E. rewrite Hh, E. cbn. eexists. split; [reflexivity|]. unfold unl. destruct (oeqb _ _), (oeqb _ _); cbn; auto. }
  assert (Hb : forall x d', s_heap (unlink s a tmp) x = Some d' -> exists d, s_heap s x = Some d /\ c_stop d = c_stop d').
  { intros x d' E. rewrite Hh in E. destruct (s_heap s x) as [d|]; [|discriminate]. cbn in E. injection E as <-. exists d. split; auto. unfold unl. destruct (oeqb _ _), (oeqb _ _); cbn; auto. }
  constructor; cbn; rewrite ?unl_pc, ?unl_lock, ?unl_own, ?unl_gone.
  - apply (unlink_fault s L a tmp c J Ha Ec Hpv).
  - assert (E : s_list (unlink s a tmp) = if oeqb (s_list s) (Some a) then tmp else s_list s). { unfold unlink, acc. rewrite Ec. rewrite !uo_list. destruct (oeqb (s_list s) (Some a)); cbn; usimp; reflexivity. }
    rewrite E, (j_head s L J), EL. destruct A as [|x A]; cbn; [rewrite N.eqb_refl; auto|]. destruct (N.eqb_spec x a) as [->|]; auto. exfalso. apply HaL. left. auto.
  - apply (unlink_seg (s_heap s) _ A a B c ND); auto. rewrite <- EL. apply (j_seg s L J).
  - apply NoDup_remove_1 in ND. auto.
  - apply (lock_same s L t _ J). rewrite Hpc. reflexivity.
  - intros u x d' E1 E2. destruct (N.eq_dec x a) as [->|X]; [right; right; exists t, tmp; apply set_same|]. destruct (Hb x d' E2) as (d & E3 & _). destruct (j_own s L J u x d E1 E3) as [H|[(r' & H)|(v & tmp' & H)]].
    + left. rewrite EL in H. rewrite in_app_iff in *. destruct H as [H|[H|H]]; auto. congruence.
    + right. left. exists r'. rewrite set_other; auto. intros ->. congruence.
    + right. right. exists v, tmp'. rewrite set_other; auto. intros ->. congruence.
  - intros u x r. destruct (set_cases (s_pc s) t (CDelete a tmp) u) as [(-> & ->)|(Hu & ->)]; intro E; [discriminate|]. destruct (j_link s L J u x r E) as (E1 & E2). split; [intro H; apply E1; rewrite EL; rewrite in_app_iff in *; cbn; tauto|].
    rewrite Hh, E2. cbn. f_equal. unfold unl. assert (Q1 : oeqb (c_prev c) (Some x) = false) by (destruct (c_prev c) as [y|] eqn:Ey; cbn; auto; destruct (N.eqb_spec y x) as [->|]; auto; exfalso; apply E1, Hpv; auto).
    assert (Q2 : oeqb (c_next c) (Some x) = false) by (destruct (c_next c) as [y|] eqn:Ey; cbn; auto; destruct (N.eqb_spec y x) as [->|]; auto; exfalso; apply E1, (in_next s L a c x J Ha Ec Ey)). rewrite Q1, Q2. reflexivity.
  - intro u. destruct (set_cases (s_pc s) t (CDelete a tmp) u) as [(-> & ->)|(Hu & ->)].
    + cbn. split; auto. split; [destruct (Hc a c Ec) as (d' & F1 & F2 & _); exists d'; rewrite F2; auto|]. rewrite EB. destruct B as [|b B]; cbn; auto. apply in_app_iff. right. left. auto.
    + specialize (Hoth u Hu). destruct (s_pc s u); cbn in *; auto; discriminate.
  - intros x d' E1 E2. destruct (Hb x d' E1) as (d & E3 & E4). destruct (j_stop s L J x d E3 ltac:(congruence)) as (u & Hu). exists u. rewrite set_other; auto. intros ->. rewrite Hpc in Hu. discriminate.
  - intros u x E1 E2. apply (j_freed s L J u x E1). destruct (s_heap s x) as [d|] eqn:E; auto. destruct (Hc x d E) as (d' & F & _). congruence.
Qed.
Lemma I2_delete s L t a tmp c : I1 s -> I2 s L -> s_pc s t = CDelete a tmp -> s_heap s a = Some c ->
  I2 (w_log (w_pc (w_heap s (set (s_heap s) a None)) t (At true tmp)) [EFree (c_owner c)]) L.
Proof.
  intros J1 J Hpc Ec. pose proof (j_pc s L J t) as P. rewrite Hpc in P. cbn in P. destruct P as (Ha & (c1 & Ec1 & Er) & Ht). rewrite Ec in Ec1. injection Ec1 as <-.
  assert (Hlk : s_lock s = Some t) by (apply (j_lock s L J t); rewrite Hpc; reflexivity).
  assert (Hoth : forall u, u <> t -> inflush (s_pc s u) = false). { intros u Hu. destruct (inflush (s_pc s u)) eqn:E; auto. apply (j_lock s L J u) in E. congruence. }
  assert (Hh : forall b d, set (s_heap s) a None b = Some d -> b <> a /\ s_heap s b = Some d) by (intros b d; destruct (set_cases (s_heap s) a None b) as [(-> & ->)|(Hb & ->)]; [discriminate|auto]).
  constructor; cbn; try apply J.
  - eapply dseg_ext; [|apply (j_seg s L J)]. intros b d Hb E. exists d. split; [rewrite set_other; auto; intros ->; contradiction|unfold ptr; auto].
  - apply (lock_same s L t _ J). rewrite Hpc. reflexivity.
  - intros u b d E1 E2. apply Hh in E2. destruct E2 as (X & E2). destruct (j_own s L J u b d E1 E2) as [H|[(r' & H)|(v & tmp' & H)]]; auto.
    + right. left. exists r'. rewrite set_other; auto. intros ->. congruence.
    + right. right. exists v, tmp'. rewrite set_other; auto. intros ->. congruence.
  - intros u b r. destruct (set_cases (s_pc s) t (At true tmp) u) as [(-> & ->)|(Hu & ->)]; intro E; [discriminate|]. destruct (j_link s L J u b r E) as (E1 & E2). split; auto. rewrite set_other; auto. intros ->. rewrite Ec in E2. injection E2 as ->. discriminate.
  - intro u. destruct (set_cases (s_pc s) t (At true tmp) u) as [(-> & ->)|(Hu & ->)]; [cbn; destruct tmp; auto|]. specialize (Hoth u Hu). destruct (s_pc s u); cbn in *; auto; discriminate.
  - intros b d E1 E2. apply Hh in E1. destruct E1 as (X & E1). destruct (j_stop s L J b d E1 E2) as (u & Hu). exists u. rewrite set_other; auto. intros ->. rewrite Hpc in Hu. discriminate.
  - intros u b E1 E2. destruct (set_cases (s_heap s) a None b) as [(-> & Es)|(Hb & Es)]; rewrite Es in E2; [|apply (j_freed s L J u b E1 E2)].
    rewrite <- (owner_cell s a c u J1 E1 Ec). rewrite <- (i_ret s J1 a c Ec). auto.
Qed.
(* ---- steps ---- *)
Definition fin1 (o : option N) (e : ev) : option N := match e with EBegin t _ => Some t | EEnd _ => None | _ => o end.
Definition fin (o : option N) (l : list ev) : option N := fold_left fin1 l o.
Lemma serial_app o a b : serial_from o (a ++ b) <-> serial_from o a /\ serial_from (fin o a) b.
Proof. revert o. induction a as [|e a IH]; intro o; [cbn; tauto|]. unfold fin. cbn [app fold_left]. destruct e; cbn [serial_from fin1]; rewrite IH; unfold fin; tauto. Qed.
Lemma fin_app o a b : fin o (a ++ b) = fin (fin o a) b.
Proof. apply fold_left_app. Qed.
Definition lchange (p : pc) (L L' : list N) : Prop :=
  match p with
  | Link a _ => L' = a :: L
  | CUnlink a tmp => exists A B, L = A ++ a :: B /\ L' = A ++ B /\ tmp = hd_or B None
  | _ => L' = L
  end.
Section Q.
Variable lk : bool.
Lemma call_idle_pc s t o : s_pc s t = Idle -> s_gone s t = true -> call s t o = s.
Proof. intros _ H. unfold call. rewrite H. reflexivity. Qed.
Lemma I2_call s L t o : I1 s -> I2 s L -> s_pc s t = Idle -> I2 (call s t o) L.
Proof.
  intros J1 J Hi. unfold call. destruct (s_gone s t) eqn:G; auto. destruct o as [|r|clr|].
  - destruct (s_own s t) eqn:Ho; auto. apply I2_alloc; auto.
  - destruct (s_own s t) as [a|] eqn:Ho; [|apply I2_alloc; auto]. apply (I2_local s _ L t (Loaded a r)); cbn; rewrite ?Hi; cbn; auto.
  - apply (I2_local s _ L t (Lock clr)); cbn; rewrite ?Hi; cbn; auto.
  - set (s1 := w_log (w_gone s t) [ERelease t]). assert (J' : forall s', s' = (match s_own s t with Some a => upd s1 a ret_c | None => s1 end) -> I2 s' L); [|apply J'; reflexivity]. intros s' ->.
    assert (Hset : forall u, set (s_pc s) t Idle u = s_pc s u) by (intro u; destruct (set_cases (s_pc s) t Idle u) as [(-> & ->)|(_ & ->)]; auto).
    assert (HH : hrel (fun _ c c' => ptr c c' /\ (c_ret c = true -> c_ret c' = true) /\ c_stop c' = c_stop c) (s_heap s) (s_heap (match s_own s t with Some a => upd s1 a ret_c | None => s1 end))).
    { destruct (s_own s t) as [a|]; [change (s_heap s) with (s_heap s1); apply hrel_upd|apply hrel_refl]; unfold ptr; cbn; auto. }
    set (s' := match s_own s t with Some a => upd s1 a ret_c | None => s1 end) in *.
    assert (Fp : s_pc s' = s_pc s) by (unfold s'; destruct (s_own s t); usimp; reflexivity).
    constructor.
    + unfold s'. destruct (s_own s t) as [a|] eqn:Ho; [|apply J]. rewrite upd_fault. cbn. rewrite (j_fault s L J). destruct (s_heap s a) eqn:E; auto. pose proof (j_freed s L J t a Ho E). congruence.
    + replace (s_list s') with (s_list s) by (unfold s'; destruct (s_own s t); usimp; reflexivity). apply J.
    + eapply dseg_ext; [|apply (j_seg s L J)]. intros a c _ E. specialize (HH a). rewrite E in HH. destruct (s_heap s' a) as [c'|]; [|contradiction]. exists c'. split; [auto|apply HH].
    + apply J.
    + intro u. rewrite Fp. replace (s_lock s') with (s_lock s) by (unfold s'; destruct (s_own s t); usimp; reflexivity). apply J.
    + intros u a c'. rewrite Fp. replace (s_own s') with (s_own s) by (unfold s'; destruct (s_own s t); usimp; reflexivity). intros E1 E2. specialize (HH a). rewrite E2 in HH. destruct (s_heap s a) as [c|] eqn:E; [|contradiction]. apply (j_own s L J u a c E1 E).
    + intros u a r. rewrite Fp. intro E. destruct (j_link s L J u a r E) as (E1 & E2). split; auto. unfold s'. destruct (s_own s t) as [b|] eqn:Ho; [|exact E2]. rewrite upd_heap. destruct (N.eqb_spec a b) as [->|]; [|exact E2]. exfalso.
      assert (Eo : s_own s u = Some b) by (apply (i_pc s J1 u b); rewrite E; reflexivity). rewrite (i_inj s J1 u t b Eo Ho) in E. congruence.
    + intro u. rewrite Fp. eapply pcok_ext; [|apply (j_pc s L J u)]. intros a c E. specialize (HH a). rewrite E in HH. destruct (s_heap s' a) as [c'|]; [|contradiction]. exists c'. split; [auto|]. destruct HH as (H1 & H2 & _). auto.
    + intros a c' E1 E2. rewrite Fp. specialize (HH a). rewrite E1 in HH. destruct (s_heap s a) as [c|] eqn:E; [|contradiction]. destruct HH as (_ & _ & H3). apply (j_stop s L J a c E). congruence.
    + intros u a. replace (s_own s') with (s_own s) by (unfold s'; destruct (s_own s t); usimp; reflexivity). replace (s_gone s') with (set (s_gone s) t true) by (unfold s'; destruct (s_own s t); usimp; reflexivity).
      intros E1 E2. destruct (set_cases (s_gone s) t true u) as [(-> & ->)|(_ & ->)]; auto. apply (j_freed s L J u a E1). specialize (HH a). rewrite E2 in HH. destruct (s_heap s a); [contradiction|auto].
Qed.
Lemma step_heap s L t a : I1 s -> I2 s L -> owns_pc (s_pc s t) = Some a -> s_pc s t <> Idle -> exists c, s_heap s a = Some c.
Proof.
  intros J1 J H Hi. pose proof (i_pc s J1 t a H) as Eo. destruct (s_heap s a) as [c|] eqn:E; eauto. pose proof (j_freed s L J t a Eo E) as G. apply (i_idle s J1) in G. contradiction.
Qed.
Lemma I2_step s L x : I1 s -> I2 s L -> fin None (s_log s) = s_lock s -> (lk = true \/ serial (s_log (step lk s x))) ->
  exists L', I2 (step lk s x) L' /\ lchange (s_pc s (fst x)) L L'.
Proof.
  intros J1 J Hfin Hser. destruct x as [t o]. cbn [fst]. unfold step in *. destruct (s_pc s t) as [|a r|a r|a r|clr|clr|clr [a|]|a|a|a|a|a|a|a|a|a tmp|a tmp] eqn:Hpc; cbn [lchange].
  - exists L. split; auto. apply I2_call; auto.
  - exists (a :: L). split; auto. apply I2_link; auto.
  - exists L. split; auto. destruct (step_heap s L t a J1 J) as (c & Ec); try (rewrite Hpc; (reflexivity || discriminate)). unfold acc. rewrite Ec. destruct (c_stop c).
    + apply (I2_local s _ L t Idle); cbn; rewrite ?Hpc; cbn; auto.
    + apply (I2_local s _ L t (Save a r)); cbn; rewrite ?Hpc; cbn; auto.
  - exists L. split; auto. destruct (step_heap s L t a J1 J) as (c & Ec); try (rewrite Hpc; (reflexivity || discriminate)). unfold acc. rewrite Ec.
    apply (I2_frame s _ L t Idle); cbn; usimp; rewrite ?Hpc; cbn; auto.
    + rewrite upd_fault. cbn. rewrite Ec, (j_fault s L J). reflexivity.
    + change (s_heap s) with (s_heap (w_pc s t Idle)). apply hrel_upd; unfold ptr; cbn; auto.
    + intros u b r' Hu E. rewrite upd_heap. cbn. destruct (N.eqb_spec b a) as [->|]; auto. exfalso. apply Hu. apply (i_inj s J1 u t a); apply (i_pc s J1); [rewrite E|rewrite Hpc]; reflexivity.
    + apply (lock_same s L t Idle J). rewrite Hpc. reflexivity.
    + intros b d. rewrite upd_heap. cbn. destruct (N.eqb_spec b a) as [->|]; intros E1 E2; right; (split; [discriminate|]); [|eauto]. rewrite Ec in E1. cbn in E1. injection E1 as <-. cbn in E2. eauto.
  - assert (HB : s_lock s = None -> I2 (w_log (w_lock (w_pc s t (Head clr)) (Some t)) [EBegin t clr]) L).
    { intro Hl. assert (Hn : forall u, inflush (s_pc s u) = false) by (intro u; destruct (inflush (s_pc s u)) eqn:E; auto; apply (j_lock s L J u) in E; congruence).
      apply (I2_frame s _ L t (Head clr)); cbn; rewrite ?Hpc; cbn; auto; [apply (j_fault s L J)|apply hrel_p| |].
      - intro u. destruct (set_cases (s_pc s) t (Head clr) u) as [(-> & ->)|(Hu & ->)]; cbn; [tauto|]. rewrite Hn. split; [discriminate|congruence].
      - intros b d E1 E2. right. split; [discriminate|eauto]. }
    exists L. destruct lk, (s_lock s) as [u|] eqn:El; (split; [|reflexivity]); auto. exfalso. destruct Hser as [|Hs]; [discriminate|]. cbn in Hs. apply serial_app in Hs. destruct Hs as (_ & Hs & _). congruence.
  - exists L. split; auto. apply (I2_local s _ L t (At clr (s_list s))); cbn; rewrite ?Hpc; cbn; auto. rewrite (j_head s L J). destruct L; cbn; auto.
  - pose proof (j_pc s L J t) as P. rewrite Hpc in P. cbn in P. exists L. destruct clr; (split; [|reflexivity]); (apply I2_flag; rewrite ?Hpc; cbn; auto; discriminate).
  - exists L. assert (Hl : s_lock s = Some t) by (apply (j_lock s L J t); rewrite Hpc; reflexivity). split; [|destruct clr; reflexivity]. replace (if clr then _ else _) with (w_log (w_lock (w_pc s t Idle) None) [EEnd t]) by (destruct clr; reflexivity).
    apply (I2_frame s _ L t Idle); cbn; rewrite ?Hpc; cbn; auto; [apply (j_fault s L J)|apply hrel_p| |].
    + intro u. destruct (set_cases (s_pc s) t Idle u) as [(-> & ->)|(Hu & ->)]; cbn; [split; discriminate|]. destruct (inflush (s_pc s u)) eqn:E; [apply (j_lock s L J u) in E; congruence|split; discriminate].
    + intros b d E1 E2. right. split; [discriminate|eauto].
  - pose proof (j_pc s L J t) as P. rewrite Hpc in P. cbn in P. destruct (in_heap s L a J P) as (c & Ec). exists L. split; auto. unfold acc. rewrite Ec. apply (I2_local s _ L t (FUnstop a)); cbn; rewrite ?Hpc; cbn; auto.
  - pose proof (j_pc s L J t) as P. rewrite Hpc in P. cbn in P. exists L. split; auto. apply I2_flag; rewrite ?Hpc; cbn; auto; discriminate.
  - pose proof (j_pc s L J t) as P. rewrite Hpc in P. cbn in P. destruct (in_heap s L a J P) as (c & Ec). exists L. split; auto. unfold acc. rewrite Ec. apply (I2_local s _ L t (At false (c_next c))); cbn; rewrite ?Hpc; cbn; auto. destruct (c_next c) as [b|] eqn:En; auto. apply (in_next s L a c b J P Ec En).
  - pose proof (j_pc s L J t) as P. rewrite Hpc in P. cbn in P. destruct (in_heap s L a J P) as (c & Ec). exists L. split; auto. unfold acc. rewrite Ec.
    apply (I2_frame s _ L t (CUnstop a)); cbn; usimp; rewrite ?Hpc; cbn; auto.
    + rewrite upd_fault, Ec, (j_fault s L J). reflexivity.
    + apply hrel_upd; unfold ptr; cbn; auto.
    + intros u b r' Hu E. rewrite upd_heap. destruct (N.eqb_spec b a) as [->|]; auto. exfalso. exact (link_not_in s L u a r' a J E P eq_refl).
    + apply (lock_same s L t _ J). rewrite Hpc. reflexivity.
    + intros b d. rewrite upd_heap. destruct (N.eqb_spec b a) as [->|X]; intros E1 E2; auto. right. split; [congruence|eauto].
  - pose proof (j_pc s L J t) as P. rewrite Hpc in P. cbn in P. exists L. split; auto. apply I2_flag; rewrite ?Hpc; cbn; auto; discriminate.
  - pose proof (j_pc s L J t) as P. rewrite Hpc in P. cbn in P. destruct (in_heap s L a J P) as (c & Ec). exists L. split; auto. unfold acc. rewrite Ec. apply (I2_local s _ L t (if c_ret c then CTmp a else CNext a)); cbn; rewrite ?Hpc; cbn; auto; destruct (c_ret c) eqn:Er; cbn; auto. split; eauto.
  - pose proof (j_pc s L J t) as P. rewrite Hpc in P. cbn in P. destruct (in_heap s L a J P) as (c & Ec). exists L. split; auto. unfold acc. rewrite Ec. apply (I2_local s _ L t (At true (c_next c))); cbn; rewrite ?Hpc; cbn; auto. destruct (c_next c) as [b|] eqn:En; auto. apply (in_next s L a c b J P Ec En).
  - pose proof (j_pc s L J t) as P. rewrite Hpc in P. cbn in P. destruct P as (P & c & Ec & Er). exists L. split; auto. unfold acc. rewrite Ec. apply (I2_local s _ L t (CUnlink a (c_next c))); cbn; rewrite ?Hpc; cbn; eauto.
  - destruct (I2_unlink s L t a tmp J1 J Hpc) as (L' & H1 & H2). exists L'. auto.
  - pose proof (j_pc s L J t) as P. rewrite Hpc in P. cbn in P. destruct P as (_ & (c & Ec & _) & _). exists L. split; auto. unfold acc. rewrite Ec. apply I2_delete; auto.
Qed.
End Q.
