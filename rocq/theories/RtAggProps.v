(* C37, C38: the runtime aggregation database *)
From Verif Require Import Base VariantModel VariantSpec ArithModel ArithSpec ArithProofs ArithProps RtAggModel RtAggSpec RtAggProofs RtAggProofs2 RtAggProofs3 RtAggProofs4.
Open Scope nat_scope.

Lemma rep_fresh sk : Rep (adb_init sk) [RRef sk] 0%N [].
Proof. apply rep_init; reflexivity. Qed.
Lemma caps_fresh sk : 4096 <= d_ecap (adb_init sk) /\ 16384 <= d_kcap (adb_init sk) /\ 16384 <= d_ncap (adb_init sk).
Proof. unfold adb_init. cbn [d_ecap d_kcap d_ncap]. auto. Qed.
Lemma num_dropped_rep d k0 c0 gs : Rep d k0 c0 gs -> num_dropped d = c0.
Proof. intro R. unfold num_dropped. pose proof (rp_0 _ _ _ _ R) as H. destruct (d_ents d); [discriminate|]. cbn in H. inversion H. reflexivity. Qed.
Definition keys_fit (h : list snap) : Prop := Forall (fun s => length (full_key s) <= MAXKEY) h.
Definition attrs_known (info : ainfo) (h : list snap) : Prop := Forall (fun s => length (i_aggr (s_info s)) <= length (i_res info)) h.
Definition small (h : list snap) : Prop := (N.of_nat (length h) < 4294967296)%N.

Lemma pick_forall {A} (P : A -> Prop) b h fl : Forall P h -> Forall P (pick b h fl).
Proof. rewrite !Forall_forall. intros H x Hx. apply H. eapply pick_in; eauto. Qed.
Lemma pick_small b h fl : length fl = length h -> small h -> small (pick b h fl).
Proof. unfold small. intros L H. assert (X := pick_len h fl L). destruct b; lia. Qed.
(* the general form: groups are the classes of cls *)
Lemma flush_general m sk h d info : growing h -> attrs_known info h -> small h -> arun m (adb_init sk) h = Some d ->
  exists fl, length fl = length h /\ drops_ok m (cls m) key16 16384 1 h fl /\
    num_dropped d = N.of_nat (length (pick false h fl)) /\
    aflush d info = option_map (app (skip_rec info sk (length (pick false h fl))))
      (reports (cls m) key16 info (pick true h fl) (firsts (cls m) (pick true h fl)) (if length (pick false h fl) =? 0 then 0%N else 1%N)) /\
    exists gs, hinv m (pick true h fl) gs /\ gflush info gs (if length (pick false h fl) =? 0 then 0%N else 1%N) = reports (cls m) key16 info (pick true h fl) (firsts (cls m) (pick true h fl)) (if length (pick false h fl) =? 0 then 0%N else 1%N).
Proof.
  intros Hg Ha Hs Hr. destruct (caps_fresh sk) as (C1 & C2 & C3).
  destruct (history m _ _ (rep_fresh sk) C1 C2 C3 h d Hg Hr) as (fl & gs & L & R & HI & _ & Hd). cbn [length] in Hd.
  assert (Hsf := pick_small false h fl L Hs). assert (Hst := pick_small true h fl L Hs). unfold small in *.
  rewrite wrap64_id in R by (unfold u64_ok, W64; lia).
  assert (HG : forall slot, gflush info gs slot = reports (cls m) key16 info (pick true h fl) (firsts (cls m) (pick true h fl)) slot).
  { intro slot. apply gflush_reports; auto; [intros f Hf; eapply firsts_in; eauto|apply pick_forall; exact Ha]. }
  exists fl. split; auto. split; auto. split; [eapply num_dropped_rep; eauto|]. split; [|exists gs; auto].
  destruct (Nat.eqb_spec (length (pick false h fl)) 0) as [E|E].
  - rewrite E in *. rewrite (aflush_groups d _ _ gs info R eq_refl). rewrite HG. unfold skip_rec. cbn [Nat.eqb]. destruct (reports _ _ _ _ _ _); reflexivity.
  - rewrite (aflush_groups_skip d sk _ gs info R) by lia. rewrite HG. unfold skip_rec. destruct (Nat.eqb_spec (length (pick false h fl)) 0); [contradiction|]. destruct (reports _ _ _ _ _ _); reflexivity.
Qed.

(* For every history of snapshots (keys of at most 16 entries) the flushed data are: one record per
   aggregation key, in order of first appearance, with the number of snapshots that have this key and
   the statistics of their metric values; preceded by a record counting the skipped snapshots, if any.
   A snapshot is skipped only inside a signal handler, for a key not seen before, when a buffer is full. *)
Theorem C37_aggregation m sk h d info : growing h -> keys_fit h -> attrs_known info h -> small h ->
  arun m (adb_init sk) h = Some d ->
  exists fl, length fl = length h /\
    (let kept := pick true h fl in let n := length (pick false h fl) in
     num_dropped d = N.of_nat n /\
     aflush d info = option_map (app (skip_rec info sk n))
       (reports (same_key m) full_key info kept (firsts (same_key m) kept) (if n =? 0 then 0%N else 1%N))) /\
    (forall i s, nth_error h i = Some s -> nth_error fl i = Some false ->
       s_alloc s = false /\
       let before := pick true (firstn i h) (firstn i fl) in
       existsb (same_key m s) before = false /\ full m (same_key m) full_key 16384 1 before s).
Proof.
  intros Hg Hk Ha Hs Hr. destruct (flush_general m sk h d info Hg Ha Hs Hr) as (fl & L & Hd & Hn & Hf & _).
  unfold keys_fit in Hk. rewrite Forall_forall in Hk.
  assert (Hc : forall s t, In s h -> In t h -> cls m s t = same_key m s t) by (intros s t Is It; apply cls_same; auto).
  assert (Hk16 : forall s, In s h -> key16 s = full_key s) by (intros s Is; unfold key16; apply firstn_all2; auto).
  assert (Hin : forall b x, In x (pick b h fl) -> In x h) by (intros; eapply pick_in; eauto).
  exists fl. split; auto. cbv zeta. split.
  - split; auto. rewrite Hf. f_equal.
    rewrite (firsts_ext (cls m) (same_key m)) by (intros; apply Hc; eapply Hin; eauto).
    apply reports_ext; [intros f Hff; eapply firsts_in; eauto|intros; apply Hc; eapply Hin; eauto|intros; apply Hk16; eapply Hin; eauto].
  - intros i s Hi Hfl. destruct (Hd i s Hi Hfl) as (A & B & C). split; auto.
    assert (Hin' : forall x, In x (pick true (firstn i h) (firstn i fl)) -> In x h). { intros x Hx. apply pick_in in Hx. rewrite <- (firstn_skipn i h). apply in_or_app. auto. }
    assert (Is : In s h) by (eapply nth_error_In; eauto).
    split.
    + rewrite <- B. clear -Hc Hin' Is. induction (pick true (firstn i h) (firstn i fl)) as [|y l IH]; cbn; auto. rewrite (Hc s y) by (auto; apply Hin'; left; auto). f_equal. apply IH. intros x Hx. apply Hin'. right; auto.
    + unfold full in *. cbv zeta in *. rewrite (firsts_ext (cls m) (same_key m)) in C by (intros; apply Hc; apply Hin'; auto). rewrite (Hk16 s Is) in C.
      assert (E : map (fun f => length (key16 f)) (firsts (same_key m) (pick true (firstn i h) (firstn i fl))) = map (fun f => length (full_key f)) (firsts (same_key m) (pick true (firstn i h) (firstn i fl)))).
      { apply map_ext_in. intros f Hff. rewrite Hk16; auto. apply Hin'. eapply firsts_in; eauto. }
      rewrite E in C. exact C.
Qed.

(* outside of signal handlers nothing is skipped *)
Lemma pick_all {A} (h : list A) : forall fl, length fl = length h -> (forall i x, nth_error h i = Some x -> nth_error fl i <> Some false) -> pick true h fl = h /\ pick false h fl = [].
Proof.
  induction h as [|x h IH]; intros [|f fl] L H; cbn in L; try discriminate; auto. cbn [pick].
  destruct (IH fl ltac:(lia)) as (P1 & P2). { intros i y Hi. apply (H (S i) y). auto. }
  assert (f = true) by (destruct f; auto; exfalso; apply (H 0 x); auto). subst f. cbn. rewrite P1, P2. auto.
Qed.
Theorem C37_no_skips m sk h d info : growing h -> keys_fit h -> attrs_known info h -> small h -> Forall (fun s => s_alloc s = true) h ->
  arun m (adb_init sk) h = Some d ->
  num_dropped d = 0%N /\ aflush d info = reports (same_key m) full_key info h (firsts (same_key m) h) 0%N.
Proof.
  intros Hg Hk Ha Hs Hal Hr. destruct (C37_aggregation m sk h d info Hg Hk Ha Hs Hr) as (fl & L & (Hn & Hf) & Hd).
  destruct (pick_all h fl L) as (P1 & P2).
  { intros i x Hi Hfl. destruct (Hd i x Hi Hfl) as (A & _). rewrite Forall_forall in Hal. rewrite Hal in A by (eapply nth_error_In; eauto). discriminate. }
  cbv zeta in *. rewrite P1, P2 in *. cbn [length Nat.eqb N.of_nat] in *. split; auto. rewrite Hf. destruct (reports _ _ _ _ _ _); reflexivity.
Qed.

(* ---- the meaning of the statistics ---- *)
Lemma minmaxsum_mms l : forall s, minmaxsum l s = mms l s.
Proof. induction l as [|v l IH]; intro s; cbn; auto. Qed.
Theorem C37_statistics m t vals v vs amin amax asum aavg : Forall2 (built m) vals (v :: vs) -> Forall (numeric t) (v :: vs) ->
  sums_safe v vs -> sums_numbers v vs -> (N.of_nat (length vals) < 4294967296)%N ->
  exists mn mx sm avg vmn vmx, stat vals (amin, amax, asum, aavg) = Some [RImm amin mn; RImm amax mx; RImm asum sm; RImm aavg avg] /\
    built m mn vmn /\ built m mx vmx /\ built m sm (fold_left vadd vs v) /\ built m avg (vdiv (fold_left vadd vs v) (N.of_nat (length vals))) /\
    In vmn (v :: vs) /\ In vmx (v :: vs) /\ (forall w, In w (v :: vs) -> le vmn w /\ le w vmx).
Proof.
  intros F Nu Hs Hn Hl. destruct (C46_minmaxsum m t vals v vs F Nu Hs Hn) as (mn & mx & sm & vmn & vmx & E & B1 & B2 & B3 & I1 & I2 & Hb).
  destruct vals as [|c cs]; [inversion F|]. destruct (C46_div m sm _ (N.of_nat (length (c :: cs))) B3 ltac:(cbn [length] in *; lia)) as (avg & Ed & Bd).
  exists mn, mx, sm, avg, vmn, vmx. split; [|auto 10].
  unfold stat. rewrite minmaxsum_mms, E, Ed. reflexivity.
Qed.

(* ---- conservation, for keys of every length ---- *)
Lemma flush_kerns_some ks : forall attrs mem res, kerns_ok ks attrs mem -> length attrs <= length res -> exists l, flush_kerns ks res = Some l.
Proof.
  induction ks as [|k q IH]; intros attrs mem res H L; inversion H as [|k1 a q1 r H1 H2]; subst; cbn [flush_kerns]; [eauto|].
  destruct res as [|x res]; [cbn in L; lia|]. cbn [length] in L. destruct (IH r mem res H2 ltac:(lia)) as (l & El).
  destruct (N.eqb_spec (k_cnt k) 0) as [|Hz]; [eauto|]. destruct x as [[[amin amax] asum] aavg]. rewrite El.
  assert (Hd : exists avg, cv_div (k_sum k) (k_cnt k) = Some avg).
  { unfold cv_div. destruct H1 as (_ & E2). assert (Hlt : (k_cnt k < 4294967296)%N) by (rewrite E2; apply N.mod_lt; discriminate). rewrite N.mod_small by auto.
    destruct (N.eqb_spec (k_cnt k) 0); [contradiction|]. destruct (N.eqb (vtype (k_sum k)) T_DOUBLE); [eauto|]. destruct (N.eqb (vtype (k_sum k)) T_INT); [eauto|]. destruct (N.eqb (vtype (k_sum k)) T_UINT); eauto. }
  destruct Hd as (avg & ->). eauto.
Qed.
Definition nsum (l : list N) : N := fold_right N.add 0%N l.
(* the count and key of a flushed record *)
Definition rec_is (info : ainfo) (key : list rent) (c : N) (r : list rent) : Prop :=
  exists st slot, r = key ++ st ++ [RImm (i_count info) (make_uint c); RImm (i_slot info) (make_uint slot)].
Lemma filter_len_sum (P : snap -> snap -> bool) h : forall fs,
  (forall s, In s h -> exists! i, exists f, nth_error fs i = Some f /\ P f s = true) ->
  nsum (map (fun f => N.of_nat (length (filter (P f) h))) fs) = N.of_nat (length h).
Proof.
  induction h as [|s h IH]; intros fs H.
  - cbn [filter length]. clear H. induction fs; cbn; auto.
  - assert (E : nsum (map (fun f => N.of_nat (length (filter (P f) (s :: h)))) fs) = (nsum (map (fun f => if P f s then 1 else 0) fs) + nsum (map (fun f => N.of_nat (length (filter (P f) h))) fs))%N).
    { clear. induction fs as [|f fs IHf]; cbn [map nsum fold_right] in *; [lia|]. unfold nsum in *. rewrite IHf. cbn [filter]. destruct (P f s); cbn [length]; lia. }
    rewrite E, IH by (intros; apply H; right; auto). cbn [length].
    destruct (H s (or_introl eq_refl)) as (i & (f & Hf & Hp) & Hu).
    assert (E1 : nsum (map (fun f => if P f s then 1 else 0) fs)%N = 1%N).
    { clear -Hf Hp Hu. revert i Hf Hu. induction fs as [|x fs IH]; intros [|i] Hf Hu; cbn in Hf; try discriminate; cbn [map nsum fold_right].
      - inversion Hf; subst x. rewrite Hp. assert (Z : nsum (map (fun f => if P f s then 1 else 0) fs)%N = 0%N).
        { assert (Hn : forall g, In g fs -> P g s = false). { intros g Hg. destruct (P g s) eqn:Eg; auto. apply In_nth_error in Hg as (j & Hj). assert (0 = S j) by (apply Hu; exists g; auto). discriminate. }
          clear -Hn. induction fs as [|y fs IH]; cbn; auto. rewrite Hn by (left; auto). apply IH. intros; apply Hn; right; auto. }
        unfold nsum in Z. rewrite Z. reflexivity.
      - assert (Hx : P x s = false). { destruct (P x s) eqn:Ex; auto. assert (S i = 0) by (apply Hu; exists x; auto). discriminate. }
        rewrite Hx. unfold nsum in IH. rewrite (IH i Hf); [reflexivity|]. intros j (g & Hg & Hgp). assert (S i = S j) by (apply Hu; exists g; auto). lia. }
    rewrite E1. lia.
Qed.
Lemma firsts_exists_unique m h s : In s h -> exists! i, exists f, nth_error (firsts (cls m) h) i = Some f /\ cls m f s = true.
Proof.
  intro H. destruct (firsts_cover (cls m) (cls_refl m) h s H) as (f & Hf & Hc). apply In_nth_error in Hf as (i & Hi). exists i. split; [exists f; split; auto; apply cls_sym; auto|].
  intros j (g & Hg & Hgc). refine (firsts_distinct (cls m) (cls_refl m) (cls_sym m) (cls_trans m) h i j f g Hi Hg _). apply cls_sym. eapply cls_trans; eauto. 
Qed.
Lemma reports_recs m ks info fs gs : forall slot, Forall2 (grp_ok m ks) fs gs -> attrs_known info ks -> (forall f, In f fs -> In f ks) -> small ks ->
  exists l, reports (cls m) key16 info ks fs slot = Some l /\
    Forall2 (fun f r => rec_is info (key16 f) (N.of_nat (length (filter (cls m f) ks))) r) fs l.
Proof.
  intros slot H. revert slot. induction H as [|f g fs gs H HF IH]; intros slot Ha Hin Hs; cbn [reports]; [exists []; auto|].
  destruct (IH (slot + 1)%N Ha ltac:(intros x Hx; apply Hin; right; auto) Hs) as (l & El & Hl). rewrite El.
  destruct H as (_ & _ & _ & Eks). unfold attrs_known in Ha. rewrite Forall_forall in Ha. pose proof (Ha f (Hin f (or_introl eq_refl))) as Lf.
  destruct (flush_kerns_some _ _ _ (i_res info) Eks Lf) as (st & Est).
  assert (Lm : length (filter (cls m f) ks) <= length ks). { clear. induction ks; cbn; auto. destruct (cls m f a); cbn; lia. }
  unfold small in Hs. rewrite (flush_kerns_stats _ _ _ (i_res info) Eks Lf) in Est by lia.
  unfold report. rewrite Est. eexists. split; [reflexivity|]. constructor; auto. exists st, slot. reflexivity.
Qed.
(* for every history: flush succeeds, every snapshot is counted exactly once, and it is counted in a
   record whose key consists of the first (at most 16) entries of its key, or in the skipped record *)
Theorem C37_conservation m sk h d info : growing h -> attrs_known info h -> small h -> arun m (adb_init sk) h = Some d ->
  exists recs keys counts fl, aflush d info = Some recs /\ length fl = length h /\
    Forall2 (fun kc r => rec_is info (fst kc) (snd kc) r) (combine keys counts) (skipn (length (skip_rec info sk (length (pick false h fl)))) recs) /\
    firstn (length (skip_rec info sk (length (pick false h fl)))) recs = skip_rec info sk (length (pick false h fl)) /\
    (num_dropped d + nsum counts = N.of_nat (length h))%N /\ length keys = length counts /\
    (forall s, In s (pick true h fl) -> exists k, In k keys /\ key_eqb m (firstn MAXKEY (full_key s)) k = true).
Proof.
  intros Hg Ha Hs Hr. destruct (flush_general m sk h d info Hg Ha Hs Hr) as (fl & L & Hd & Hn & Hf & gs & HI & HG).
  set (kept := pick true h fl) in *. set (nd := length (pick false h fl)) in *.
  assert (Hst := pick_small true h fl L Hs). fold kept in Hst.
  destruct (reports_recs m kept info (firsts (cls m) kept) gs (if nd =? 0 then 0%N else 1%N) HI (pick_forall _ true h fl Ha) ltac:(intros f X; eapply firsts_in; eauto) Hst) as (l & El & Hl).
  rewrite El in Hf. cbn [option_map] in Hf.
  exists (skip_rec info sk nd ++ l), (map key16 (firsts (cls m) kept)), (map (fun f => N.of_nat (length (filter (cls m f) kept))) (firsts (cls m) kept)), fl. fold nd. fold kept.
  split; auto. split; auto. split.
  { rewrite skipn_app_exact. clear -Hl. induction Hl as [|f r fs l H HF IH]; cbn; constructor; auto. }
  split; [apply firstn_app_exact|]. split.
  { rewrite (filter_len_sum (cls m) kept) by (intros; apply firsts_exists_unique; auto). rewrite Hn. assert (X := pick_len h fl L). fold kept nd in X. lia. }
  split; [rewrite !map_length; auto|].
  intros s Hin. destruct (firsts_cover (cls m) (cls_refl m) kept s Hin) as (f & A & B). exists (key16 f). split; [apply in_map; auto|]. unfold cls in B. apply andb_true_iff in B as (B & _). exact B.
Qed.
Print Assumptions C37_aggregation.
Print Assumptions C37_conservation.
