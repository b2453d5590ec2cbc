From Verif Require Import Base AlStModel AlStSpec AlStProofs AlStProofs2 AlStProofs3.
From Coq Require Import Lia Permutation.
Open Scope Z_scope.

(* ---------- flush ---------- *)
Lemma flush_recs_ok m : Forall (fun e => 0 < ri_cnt (snd e)) m ->
  flush_recs m = Some (map (fun e => let r := snd e in mkarec (ri_path r) (ri_hwm r) (ri_cnt r) (ri_max r) (Z.quot (ri_tot r) (ri_cnt r))) m).
Proof.
  induction 1 as [|[k r] m H F IH]; [reflexivity|]. cbn [flush_recs map snd] in *. destruct (Z.eqb_spec (ri_cnt r) 0) as [E|_]; [lia|]. rewrite IH. reflexivity.
Qed.
Lemma zsum_nonneg l : Forall (fun x => 0 <= x) l -> 0 <= zsum l.
Proof. induction 1 as [|x l H _ IH]; [cbn; lia|]. change (zsum (x :: l)) with (x + zsum l). lia. Qed.
Lemma blog_size s : inv s -> Forall (fun e => 0 <= ae_size e) (a_blog s).
Proof. intros []. rewrite i_pb in i_size. apply Forall_app in i_size. apply i_size. Qed.
Lemma clog_size s : inv s -> Forall (fun e => 0 <= ae_size e) (a_clog s).
Proof. intros []. rewrite i_pc in i_size. apply Forall_app in i_size. apply i_size. Qed.
Lemma sizes_nonneg (f : aev -> bool) l : Forall (fun e => 0 <= ae_size e) l -> Forall (fun x => 0 <= x) (map ae_size (filter f l)).
Proof. intro H. apply Forall_forall. intros x Hx. apply in_map_iff in Hx as (e & <- & He). apply filter_In in He as [He _]. rewrite Forall_forall in H. exact (H e He). Qed.
Lemma filter_filter' {A} (f g : A -> bool) l : filter f (filter g l) = filter (fun x => g x && f x) l.
Proof. induction l as [|x l IH]; [reflexivity|]. cbn [filter]. destruct (g x); cbn [filter andb]; [destruct (f x); rewrite IH; reflexivity|exact IH]. Qed.

Theorem C75_flush n l s : al_run n l s ->
  exists recs, al_step s AFlush = Some (mkal (a_alloc s) (a_reg s) (a_act s) (a_hwm s) (a_pc s) (a_alog s) (a_blog s) (a_clog s) (a_out s ++ [OFlush recs])) /\
    flush_ok (a_blog s) recs.
Proof.
  intro H. pose proof (inv_run n l s H) as Hi. pose proof (blog_size s Hi) as Fb. destruct Hi.
  assert (Hent : forall k r, In (k, r) (a_reg s) -> reg_of k (a_blog s) = Some r).
  { intros k r Hk. rewrite <- i_reg. apply mfind_nodup; assumption. }
  assert (Hcnt : forall k e, In e (a_blog s) -> ae_path e = k -> 0 < Z.of_nat (length (filter is_alloc (filter (at_path k) (a_blog s))))).
  { intros k e He Ek. destruct (i_fst e He) as (e' & H1 & H2 & H3). destruct (filter is_alloc (filter (at_path k) (a_blog s))) eqn:E; [|cbn [length]; lia].
    assert (In e' []) as []. rewrite <- E. apply filter_In. split; [apply filter_In; split; [exact H1|]|unfold is_alloc; rewrite H2; reflexivity]. unfold at_path. apply N.eqb_eq. congruence. }
  assert (Hrec : forall k r, In (k, r) (a_reg s) -> 0 < ri_cnt r /\ region_record (a_blog s) k (mkarec (ri_path r) (ri_hwm r) (ri_cnt r) (ri_max r) (Z.quot (ri_tot r) (ri_cnt r)))).
  { intros k r Hk. apply Hent in Hk. unfold reg_of in Hk. destruct (filter (at_path k) (a_blog s)) as [|x y] eqn:E; [discriminate|]. rewrite <- E in Hk.
    assert (Hx : In x (filter (at_path k) (a_blog s))) by (rewrite E; left; reflexivity). apply filter_In in Hx as [Hx1 Hx2]. unfold at_path in Hx2. apply N.eqb_eq in Hx2.
    pose proof (Hcnt k x Hx1 Hx2) as Hc. cbv zeta in Hk. injection Hk as <-. cbn [ri_cnt ri_path ri_hwm ri_max ri_tot]. split; [exact Hc|].
    unfold region_record. cbv zeta. cbn [ar_path ar_tally ar_count ar_max ar_avg]. split; [reflexivity|]. split; [reflexivity|]. split; [exact Hc|]. split; [reflexivity|]. split; [|reflexivity].
    apply Z.quot_div_nonneg; [|exact Hc]. apply zsum_nonneg. rewrite filter_filter'. apply sizes_nonneg. exact Fb. }
  eexists. split.
  - cbn [al_step]. rewrite flush_recs_ok; [reflexivity|]. apply Forall_forall. intros [k r] Hk. apply (Hrec k r Hk).
  - split; [|split].
    + rewrite map_map. cbn [ar_path]. apply (NoDup_map_inv (fun o => match o with Some p => p | None => 0%N end)). rewrite map_map.
      rewrite (map_ext_in _ fst); [exact i_rkeys|]. intros [k r] Hk. cbn [snd fst]. destruct (Hrec k r Hk) as (_ & E & _). cbn [ar_path] in E. rewrite E. reflexivity.
    + intros r Hr. apply in_map_iff in Hr as ([k x] & <- & Hk). exists k. apply (Hrec k x Hk).
    + intros e He. destruct (mfind (a_reg s) (ae_path e)) as [r|] eqn:E.
      * apply mfind_in in E. eexists. split; [apply in_map_iff; exists (ae_path e, r); split; [reflexivity|exact E]|]. apply (Hrec _ r E).
      * exfalso. rewrite i_reg in E. unfold reg_of in E. destruct (filter (at_path (ae_path e)) (a_blog s)) eqn:Ef; [|discriminate].
        assert (In e []) as []. rewrite <- Ef. apply filter_In. split; [exact He|]. unfold at_path. apply N.eqb_refl.
Qed.

(* ---------- high water mark ---------- *)
Lemma hwm_step s0 s e s' d : al_step s e = Some s' -> e <> ASnap -> a_clog s = a_clog s0 ++ d -> a_act s = zsum (map delta (a_clog s)) -> inv s ->
  a_hwm s = peak (zsum (map delta (a_clog s0))) (map delta d) ->
  exists d', a_clog s' = a_clog s0 ++ d' /\ a_hwm s' = peak (zsum (map delta (a_clog s0))) (map delta d').
Proof.
  intros H Hn Hc Ha Hi Hh. destruct e as [i a sz p|i a|i| |]; cbn [al_step] in H; [| | |congruence|].
  - destruct (nth_error (a_pc s) i) as [x|]; [|discriminate]. destruct x; try discriminate. destruct p; injection H as <-; exists d; split; assumption.
  - destruct (nth_error (a_pc s) i) as [x|]; [|discriminate]. destruct x; try discriminate. destruct (mfind (a_alloc s) a) as [[sz p]|]; injection H as <-; exists d; split; assumption.
  - destruct (nth_error (a_pc s) i) as [x|] eqn:En; [|discriminate]. destruct x as [|a sz p|a sz p|a sz p|a sz p]; try discriminate; injection H as <-; cbn [a_clog a_hwm].
    + exists d. split; assumption.
    + exists (d ++ [mkaev i false a sz p]). rewrite app_assoc, <- Hc. split; [reflexivity|]. rewrite map_app. cbn [map]. rewrite peak_app. change (delta (mkaev i false a sz p)) with sz.
      rewrite Hh, Ha, Hc, map_app, zsum_app. reflexivity.
    + exists d. split; assumption.
    + exists (d ++ [mkaev i true a sz p]). rewrite app_assoc, <- Hc. split; [reflexivity|]. rewrite map_app. cbn [map]. rewrite peak_app. change (delta (mkaev i true a sz p)) with (- sz).
      assert (Hs : 0 <= sz).
      { destruct Hi. assert (F : Forall (fun e => 0 <= ae_size e) (a_clog s ++ pends pcc 0 (a_pc s))) by (rewrite <- i_pc; exact i_size). apply Forall_app in F as [_ F].
        destruct (pends_split pcc (a_pc s) i 0%nat _ En) as (rest & P1 & _). rewrite P1 in F. apply Forall_app in F as [F _]. inversion F; assumption. }
      destruct (peak_ge (map delta d) (zsum (map delta (a_clog s0)))) as [G1 G2]. rewrite Hh. lia.
  - destruct (flush_recs (a_reg s)); [|discriminate]. injection H as <-. exists d. split; assumption.
Qed.
Lemma run_steps n l0 s0 l s : al_run n l0 s0 -> al_steps s0 l s -> al_run n (l0 ++ l) s.
Proof.
  intros H0 H. revert l0 H0. induction H as [s|s e s1 l s2 Hd He _ IH]; intros l0 H0; [rewrite app_nil_r; exact H0|].
  replace (l0 ++ e :: l) with ((l0 ++ [e]) ++ l) by (rewrite <- app_assoc; reflexivity). apply IH. exact (alr_step n l0 s e s1 H0 Hd He).
Qed.
Lemma hwm_steps s0 s l s2 : al_steps s l s2 -> inv s -> ~ In ASnap l -> forall d, a_clog s = a_clog s0 ++ d -> a_hwm s = peak (zsum (map delta (a_clog s0))) (map delta d) ->
  exists d', a_clog s2 = a_clog s0 ++ d' /\ a_hwm s2 = peak (zsum (map delta (a_clog s0))) (map delta d').
Proof.
  induction 1 as [s|s e s1 l s2 Hd He _ IH]; intros Hi Hn d Hc Hh; [exists d; split; assumption|].
  destruct (hwm_step s0 s e s1 d He) as (d' & H1 & H2); [intros ->; apply Hn; left; reflexivity|exact Hc|apply (i_act s Hi)|exact Hi|exact Hh|].
  apply (IH (inv_step s e s1 Hi Hd He)) with (d := d'); [intro; apply Hn; right; assumption|exact H1|exact H2].
Qed.
(* s1 is the beginning of the run or just after a snapshot *)
Theorem C75_highwater n l0 s1 l s2 : al_run n l0 s1 -> (s1 = al_init n \/ exists l' s0, al_run n l' s0 /\ al_step s0 ASnap = Some s1) -> al_steps s1 l s2 -> ~ In ASnap l ->
  exists d s3, a_clog s2 = a_clog s1 ++ d /\ al_step s2 ASnap = Some s3 /\
    a_out s3 = a_out s2 ++ [OSnap (peak (zsum (map delta (a_clog s1))) (map delta d))] /\ a_clog s3 = a_clog s2 /\ a_alloc s3 = a_alloc s2 /\ a_reg s3 = a_reg s2 /\ a_act s3 = a_act s2.
Proof.
  intros H0 H1 Hs Hn. pose proof (inv_run n l0 s1 H0) as Hi.
  assert (Hh : a_hwm s1 = peak (zsum (map delta (a_clog s1))) []).
  { cbn [peak]. rewrite <- (i_act s1 Hi). destruct H1 as [->|(l' & s0 & _ & E)]; [reflexivity|]. cbn [al_step] in E. injection E as <-. reflexivity. }
  destruct (hwm_steps s1 s1 l s2 Hs Hi Hn [] (eq_sym (app_nil_r _)) Hh) as (d & E1 & E2). exists d. eexists. split; [exact E1|]. split; [reflexivity|].
  cbn [a_out a_clog a_alloc a_reg a_act]. rewrite E2. repeat split.
Qed.

(* ---------- calls ---------- *)
Theorem C75_calls n l s : al_run n l s ->
  a_alog s = call_log l /\ matched (call_log l) /\ (forall a, mfind (a_alloc s) a = live (call_log l) a) /\
  (forall i, exists t1 t2, filter (by_thread i) (call_log l) = filter (by_thread i) (a_blog s) ++ t1 /\ filter (by_thread i) (call_log l) = filter (by_thread i) (a_clog s) ++ t2 /\ (length t1 <= length t2 <= 1)%nat) /\
  (quiet s -> Permutation (call_log l) (a_blog s) /\ Permutation (call_log l) (a_clog s) /\
     forall i, filter (by_thread i) (a_blog s) = filter (by_thread i) (call_log l) /\ filter (by_thread i) (a_clog s) = filter (by_thread i) (call_log l)).
Proof.
  intro H. assert (E : a_alog s = call_log l).
  { induction H as [|l s e s' Hr IH Hd He]; [reflexivity|]. unfold call_log in *. rewrite fold_left_app. cbn [fold_left]. rewrite <- IH. clear IH.
    pose proof (i_live s (inv_run n l s Hr)) as Hl. destruct e as [i a sz p|i a|i| |]; cbn [al_step] in He; cbn [call_step].
    - destruct (nth_error (a_pc s) i) as [x|]; [|discriminate]. destruct x; try discriminate. destruct p; injection He as <-; reflexivity.
    - destruct (nth_error (a_pc s) i) as [x|]; [|discriminate]. destruct x; try discriminate. rewrite <- Hl. destruct (mfind (a_alloc s) a) as [[sz p]|]; injection He as <-; reflexivity.
    - destruct (nth_error (a_pc s) i) as [x|]; [|discriminate]. destruct x; try discriminate; injection He as <-; reflexivity.
    - injection He as <-. reflexivity.
    - destruct (flush_recs (a_reg s)); [|discriminate]. injection He as <-. reflexivity. }
  rewrite <- E. pose proof (inv_run n l s H) as Hi. destruct Hi. split; [reflexivity|]. split; [exact i_match|]. split; [exact i_live|]. split.
  - intro i. specialize (i_thb i). specialize (i_thc i). do 2 eexists. split; [exact i_thb|]. split; [exact i_thc|]. destruct (nth_error (a_pc s) i) as [pc|]; [destruct pc|]; cbn [pb pcc length]; lia.
  - intro Q. rewrite (pends_idle pb) in i_pb by (exact Q || reflexivity). rewrite (pends_idle pcc) in i_pc by (exact Q || reflexivity). rewrite app_nil_r in i_pb, i_pc.
    split; [exact i_pb|]. split; [exact i_pc|]. intro i.
    assert (N1 : forall f : nat -> apc -> list aev, f i Idle = [] -> match nth_error (a_pc s) i with Some pc => f i pc | None => [] end = []).
    { intros f Hf. destruct (nth_error (a_pc s) i) as [pc|] eqn:En; [|reflexivity]. unfold quiet in Q. rewrite Forall_forall in Q. rewrite (Q pc (nth_error_In _ _ En)). exact Hf. }
    specialize (i_thb i). specialize (i_thc i). rewrite (N1 pb eq_refl), app_nil_r in i_thb. rewrite (N1 pcc eq_refl), app_nil_r in i_thc. split; congruence.
Qed.

(* ---------- balance ---------- *)
Lemma zsum_filter {B} (f : B -> Z) (w : B -> bool) l : zsum (map f (filter w l)) = zsum (map (fun e => if w e then f e else 0) l).
Proof. unfold zsum. induction l as [|x l IH]; [reflexivity|]. cbn [filter map fold_right]. destruct (w x); cbn [map fold_right]; lia. Qed.
Theorem C75_balance n l s : al_run n l s -> quiet s ->
  a_act s = bytes_live (a_alloc s) /\
  (forall p, bytes_at p (a_alloc s) = match mfind (a_reg s) p with Some r => ri_cur r | None => 0 end).
Proof.
  intros H Q. destruct (C75_calls n l s H) as (E & _ & _ & _ & HQ). specialize (HQ Q). rewrite <- E in HQ. destruct HQ as (P1 & P2 & _). pose proof (inv_run n l s H) as Hi. destruct Hi. split.
  - rewrite i_act. specialize (i_bal (fun _ => true)). cbn iota in i_bal. unfold bytes_live. rewrite <- i_bal. apply zsum_perm, Permutation_map. symmetry. exact P2.
  - intro p. rewrite i_reg. unfold bytes_at. rewrite zsum_filter. specialize (i_bal (fun q => N.eqb q p)). cbn beta in i_bal. rewrite <- i_bal.
    rewrite (zsum_perm _ _ (Permutation_map _ P1)). change (map (fun e => if N.eqb (ae_path e) p then delta e else 0) (a_blog s)) with (map (fun e => if at_path p e then delta e else 0) (a_blog s)).
    rewrite <- zsum_filter. unfold reg_of. destruct (filter (at_path p) (a_blog s)); reflexivity.
Qed.

(* ---------- bounds ---------- *)
Lemma pends_nodup (f : nat -> apc -> list aev) l : (forall i pc, f i pc = [] \/ exists e, f i pc = [e] /\ pc_addr pc = Some (ae_addr e)) ->
  (forall i j x y a, nth_error l i = Some x -> nth_error l j = Some y -> pc_addr x = Some a -> pc_addr y = Some a -> i = j) -> forall k, NoDup (map ae_addr (pends f k l)).
Proof.
  intro Hf. induction l as [|x l IH]; intros Hu k; [constructor|]. cbn [pends].
  assert (IH' : NoDup (map ae_addr (pends f (S k) l))). { apply IH. intros i j y z a Hy Hz Ey Ez. pose proof (Hu (S i) (S j) y z a Hy Hz Ey Ez). congruence. }
  destruct (Hf k x) as [->|(e & -> & Ea)]; [exact IH'|]. cbn [app map]. constructor; [|exact IH'].
  intro Hc. apply in_map_iff in Hc as (e' & Ee & He). apply pends_in in He as (i & pc & Hn & Hi). destruct (Hf (S k + i)%nat pc) as [E0|(e2 & E2 & Ea2)]; [rewrite E0 in Hi; destruct Hi|].
  rewrite E2 in Hi. destruct Hi as [->|[]]. assert (O = S i); [|discriminate]. apply (Hu O (S i) x pc (ae_addr e)); [reflexivity|exact Hn|exact Ea|]. rewrite <- Ee. exact Ea2.
Qed.
Definition ent (e : aev) : N * (Z * N) := (ae_addr e, (ae_size e, ae_path e)).
Lemma nodup_map_filter {A B} (f : A -> B) (g : A -> bool) l : NoDup (map f l) -> NoDup (map f (filter g l)).
Proof.
  induction l as [|x l IH]; cbn [map filter]; intro H; [constructor|]. inversion H as [|? ? H1 H2]; subst. destruct (g x); [|apply IH, H2]. cbn [map]. constructor; [|apply IH, H2].
  intro Hc. apply H1. apply in_map_iff in Hc as (y & Hy & Hi). apply filter_In in Hi as [Hi _]. rewrite <- Hy. apply in_map, Hi.
Qed.
(* the sum over a log is not negative *)
Lemma log_nonneg s (f : nat -> apc -> list aev) log w : inv s -> Permutation (a_alog s) (log ++ pends f 0 (a_pc s)) ->
  (forall i pc, f i pc = [] \/ f i pc = pcc i pc) -> 0 <= zsum (map (fun e => if w (ae_path e) : bool then delta e else 0) log).
Proof.
  intros Hi HP Hf. destruct Hi.
  assert (Hf' : forall i pc, f i pc = [] \/ exists e, f i pc = [e] /\ pc_addr pc = Some (ae_addr e)).
  { intros i pc. destruct (Hf i pc) as [->|E]; [left; reflexivity|]. rewrite E. destruct pc; [left; reflexivity| | | |]; right; eexists; (split; [reflexivity|reflexivity]). }
  pose proof (pends_nodup f (a_pc s) Hf' i_uniq 0%nat) as Hnd.
  pose proof (i_bal w) as Hb. rewrite (zsum_perm _ _ (Permutation_map _ HP)), map_app, zsum_app in Hb.
  set (pend := pends f 0 (a_pc s)) in *.
  assert (Fp : Forall (fun e => 0 <= ae_size e) pend). { rewrite HP in i_size. apply Forall_app in i_size. apply i_size. }
  assert (Fa : forall e, In e (a_alloc s) -> 0 <= fst (snd e)).
  { intros [a [z q]] He. apply (mfind_nodup _ _ _ i_keys) in He. rewrite i_live in He. unfold live in He. destruct (find (fun e => N.eqb (ae_addr e) a) (rev (a_alog s))) as [e|] eqn:E; [|discriminate].
    apply find_some in E as [E _]. apply in_rev in E. rewrite Forall_forall in i_size. specialize (i_size e E). destruct (ae_free e); [discriminate|]. injection He as <- _. exact i_size. }
  assert (H1 : zsum (map (fun e => if w (ae_path e) then delta e else 0) pend) <= zsum (map (fun e => if w (snd (snd e)) then Z.max 0 (fst (snd e)) else 0) (map ent (filter is_alloc pend)))).
  { clear -Fp. induction Fp as [|e l He _ IH]; [cbn; lia|]. cbn [map filter]. unfold is_alloc at 1. change (zsum ((if w (ae_path e) then delta e else 0) :: map (fun e => if w (ae_path e) then delta e else 0) l)) with ((if w (ae_path e) then delta e else 0) + zsum (map (fun e => if w (ae_path e) then delta e else 0) l)).
    unfold delta at 1. destruct (ae_free e); cbn [negb].
    - destruct (w (ae_path e)); lia.
    - cbn [map]. change (snd (snd (ent e))) with (ae_path e). change (fst (snd (ent e))) with (ae_size e). match goal with |- _ <= zsum (?x :: ?r) => change (zsum (x :: r)) with (x + zsum r) end. destruct (w (ae_path e)); lia. }
  assert (H2 : zsum (map (fun e => if w (snd (snd e)) then Z.max 0 (fst (snd e)) else 0) (map ent (filter is_alloc pend))) <= zsum (map (fun e => if w (snd (snd e)) then Z.max 0 (fst (snd e)) else 0) (a_alloc s))).
  { apply zsum_sub.
    - intro x. destruct (w (snd (snd x))); lia.
    - apply (NoDup_map_inv fst). rewrite map_map. change (fun x => fst (ent x)) with ae_addr. apply nodup_map_filter, Hnd.
    - intros x Hx. apply in_map_iff in Hx as (e & <- & He). apply filter_In in He as [He Hal]. unfold pend in He. apply pends_in in He as (i & pc & Hn & Hin). cbn [Nat.add] in Hin.
      destruct (Hf i pc) as [E0|E0]; rewrite E0 in Hin; [destruct Hin|]. unfold is_alloc in Hal.
      destruct pc as [|a z q|a z q|a z q|a z q]; cbn [pcc] in Hin; [destruct Hin| | | |]; (destruct Hin as [<-|[]]); try discriminate; unfold ent; cbn [ae_addr ae_size ae_path]; apply mfind_in; apply (i_T i); auto. }
  assert (H3 : zsum (map (fun e => if w (snd (snd e)) then Z.max 0 (fst (snd e)) else 0) (a_alloc s)) = zsum (map (fun e => if w (snd (snd e)) then fst (snd e) else 0) (a_alloc s))).
  { f_equal. apply map_ext_in. intros e He. specialize (Fa e He). destruct (w (snd (snd e))); lia. }
  lia.
Qed.
Lemma delta_le (w : aev -> bool) l : Forall (fun e => 0 <= ae_size e) l -> zsum (map delta (filter w l)) <= all_bytes l.
Proof.
  unfold all_bytes. induction 1 as [|e l He _ IH]; [cbn; lia|]. cbn [filter]. unfold is_alloc at 1. destruct (ae_free e) eqn:Ef; cbn [negb]; destruct (w e); cbn [map];
    repeat match goal with |- context [zsum (?x :: ?r)] => change (zsum (x :: r)) with (x + zsum r) end; assert (Ed : delta e = if ae_free e then - ae_size e else ae_size e) by reflexivity; rewrite Ef in Ed; lia.
Qed.
Lemma peak_le l : Forall (fun e => 0 <= ae_size e) l -> forall x, peak x (map delta l) <= x + all_bytes l.
Proof.
  unfold all_bytes. induction 1 as [|e l He F IH]; intro x; cbn [map peak filter]; [cbn; lia|]. specialize (IH (x + delta e)). unfold is_alloc at 1. assert (Ed : delta e = if ae_free e then - ae_size e else ae_size e) by reflexivity.
  pose proof (zsum_nonneg _ (sizes_nonneg is_alloc l F)). destruct (ae_free e); cbn [negb map]; [|match goal with |- context [zsum (?y :: ?r)] => change (zsum (y :: r)) with (y + zsum r) end]; lia.
Qed.
Lemma all_bytes_app l1 l2 : all_bytes (l1 ++ l2) = all_bytes l1 + all_bytes l2.
Proof. unfold all_bytes. rewrite filter_app, map_app, zsum_app. reflexivity. Qed.
Lemma perm_filter {A} (f : A -> bool) l1 l2 : Permutation l1 l2 -> Permutation (filter f l1) (filter f l2).
Proof.
  induction 1 as [|x a b _ IH|x y a|a b c _ IH1 _ IH2]; cbn [filter].
  - constructor.
  - destruct (f x); [constructor|]; exact IH.
  - destruct (f x), (f y); try reflexivity. apply perm_swap.
  - etransitivity; eassumption.
Qed.
Lemma all_bytes_perm l1 l2 : Permutation l1 l2 -> all_bytes l1 = all_bytes l2.
Proof. intro H. unfold all_bytes. apply zsum_perm, Permutation_map, perm_filter, H. Qed.
Lemma all_bytes_nonneg l : Forall (fun e => 0 <= ae_size e) l -> 0 <= all_bytes l.
Proof. intro H. apply zsum_nonneg, sizes_nonneg, H. Qed.
Lemma all_bytes_part l a b : Forall (fun e => 0 <= ae_size e) l -> Permutation l (a ++ b) -> 0 <= all_bytes a <= all_bytes l.
Proof.
  intros F P. rewrite P in F. apply Forall_app in F as [Fa Fb]. rewrite (all_bytes_perm _ _ P), all_bytes_app. pose proof (all_bytes_nonneg a Fa). pose proof (all_bytes_nonneg b Fb). lia.
Qed.
Lemma all_bytes_filter w l : Forall (fun e => 0 <= ae_size e) l -> all_bytes (filter w l) <= all_bytes l.
Proof.
  induction 1 as [|e l He F IH]; [reflexivity|]. unfold all_bytes in *. cbn [filter]. destruct (w e); cbn [filter]; destruct (is_alloc e); cbn [map];
    repeat match goal with |- context [zsum (?x :: ?r)] => change (zsum (x :: r)) with (x + zsum r) end; lia.
Qed.
Lemma zmax_le l : Forall (fun x => 0 <= x) l -> 0 <= zmax l <= zsum l.
Proof. induction 1 as [|x l H F IH]; [cbn; lia|]. change (zsum (x :: l)) with (x + zsum l). change (zmax (x :: l)) with (Z.max x (zmax l)). pose proof (zsum_nonneg l F). lia. Qed.
Lemma act_bounds s : inv s -> 0 <= a_act s <= all_bytes (a_alog s).
Proof.
  intro Hi. pose proof (log_nonneg s pcc (a_clog s) (fun _ => true) Hi (i_pc s Hi) (fun i pc => or_intror eq_refl)) as H. cbn iota in H. pose proof (clog_size s Hi) as F. destruct Hi.
  destruct (all_bytes_part _ _ _ i_size i_pc) as [_ H2]. rewrite i_act. split; [exact H|]. etransitivity; [|exact H2]. pose proof (delta_le (fun _ => true) _ F) as H3.
  replace (filter (fun _ => true) (a_clog s)) with (a_clog s) in H3; [exact H3|]. clear. induction (a_clog s) as [|x l IH]; [reflexivity|]. cbn [filter]. rewrite <- IH. reflexivity.
Qed.

Lemma hwm_bounds n l s : al_run n l s -> a_act s <= a_hwm s <= all_bytes (a_alog s).
Proof.
  induction 1 as [|l s e s' Hr IH Hd He]; [cbn; lia|]. pose proof (inv_run n l s Hr) as Hi. pose proof (inv_step s e s' Hi Hd He) as Hi'. pose proof (act_bounds s Hi) as B. pose proof (act_bounds s' Hi') as B'.
  destruct e as [i a sz p|i a|i| |]; cbn [al_step] in He.
  - destruct (nth_error (a_pc s) i) as [x|]; [|discriminate]. destruct x; try discriminate. destruct p as [p|]; [|congruence]. assert (E : a_alog s' = a_alog s ++ [mkaev i false a sz p] /\ a_act s' = a_act s /\ a_hwm s' = a_hwm s) by (injection He as <-; repeat split).
    destruct E as (-> & -> & ->). rewrite all_bytes_app. destruct Hd as [Hd _]. assert (all_bytes [mkaev i false a sz p] = sz + 0) by reflexivity. lia.
  - destruct (nth_error (a_pc s) i) as [x|]; [|discriminate]. destruct x; try discriminate. destruct (mfind (a_alloc s) a) as [[sz p]|]; [|congruence].
    assert (E : a_alog s' = a_alog s ++ [mkaev i true a sz p] /\ a_act s' = a_act s /\ a_hwm s' = a_hwm s) by (injection He as <-; repeat split).
    destruct E as (-> & -> & ->). rewrite all_bytes_app. assert (all_bytes [mkaev i true a sz p] = 0) by reflexivity. lia.
  - destruct (nth_error (a_pc s) i) as [x|] eqn:En; [|discriminate]. destruct x as [|a sz p|a sz p|a sz p|a sz p]; try discriminate.
    + assert (E : a_alog s' = a_alog s /\ a_act s' = a_act s /\ a_hwm s' = a_hwm s) by (injection He as <-; repeat split). destruct E as (-> & -> & ->). exact IH.
    + assert (E : a_alog s' = a_alog s /\ a_act s' = a_act s + sz /\ a_hwm s' = Z.max (a_hwm s) (a_act s + sz)) by (injection He as <-; repeat split). destruct E as (E1 & E2 & E3). rewrite E1, E2 in *. rewrite E3. lia.
    + assert (E : a_alog s' = a_alog s /\ a_act s' = a_act s /\ a_hwm s' = a_hwm s) by (injection He as <-; repeat split). destruct E as (-> & -> & ->). exact IH.
    + assert (Hs : 0 <= sz).
      { destruct Hi. assert (F : Forall (fun e => 0 <= ae_size e) (a_clog s ++ pends pcc 0 (a_pc s))) by (rewrite <- i_pc; exact i_size). apply Forall_app in F as [_ F].
        destruct (pends_split pcc (a_pc s) i 0%nat _ En) as (rest & P1 & _). rewrite P1 in F. apply Forall_app in F as [F _]. inversion F; assumption. }
      assert (E : a_alog s' = a_alog s /\ a_act s' = a_act s - sz /\ a_hwm s' = a_hwm s) by (injection He as <-; repeat split). destruct E as (-> & -> & ->). lia.
  - injection He as <-. cbn [a_act a_hwm a_alog] in *. lia.
  - destruct (flush_recs (a_reg s)); [|discriminate]. injection He as <-. exact IH.
Qed.
(* all values stay between 0 and the sum of all allocated sizes: uint64_t arithmetic neither wraps nor overflows *)
Theorem C75_bounds n l s : al_run n l s ->
  0 <= a_act s <= all_bytes (call_log l) /\ a_act s <= a_hwm s <= all_bytes (call_log l) /\
  forall p r, mfind (a_reg s) p = Some r -> 0 <= ri_cur r <= ri_hwm r /\ ri_hwm r <= ri_tot r /\ 0 <= ri_max r <= ri_tot r /\ ri_tot r <= all_bytes (call_log l) /\ 0 < ri_cnt r <= Z.of_nat (length (call_log l)).
Proof.
  intro H. rewrite <- (proj1 (C75_calls n l s H)). pose proof (inv_run n l s H) as Hi. split; [exact (act_bounds s Hi)|]. split; [exact (hwm_bounds n l s H)|].
  intros p r Hr. pose proof (blog_size s Hi) as F. pose proof (log_nonneg s pb (a_blog s) (fun q => N.eqb q p) Hi (i_pb s Hi)) as Hc.
  assert (Hf : forall i pc, pb i pc = [] \/ pb i pc = pcc i pc) by (intros i pc; destruct pc; auto). specialize (Hc Hf).
  change (map (fun e => if N.eqb (ae_path e) p then delta e else 0) (a_blog s)) with (map (fun e => if at_path p e then delta e else 0) (a_blog s)) in Hc. rewrite <- zsum_filter in Hc. change (fun e => N.eqb (ae_path e) p) with (at_path p) in Hc.
  destruct Hi. destruct (all_bytes_part _ _ _ i_size i_pb) as [_ Hle]. rewrite i_reg in Hr. unfold reg_of in Hr. destruct (filter (at_path p) (a_blog s)) as [|x y] eqn:Ef; [discriminate|]. rewrite <- Ef in *.
  assert (Hx : In x (a_blog s) /\ at_path p x = true). { apply filter_In. rewrite Ef. left. reflexivity. } clear Ef. destruct Hx as [Hx1 Hx2].
  cbv zeta in Hr. injection Hr as <-. cbn [ri_cur ri_hwm ri_tot ri_max ri_cnt].
  assert (Fp : Forall (fun e => 0 <= ae_size e) (filter (at_path p) (a_blog s))). { apply Forall_forall. intros e He. apply filter_In in He as [He _]. rewrite Forall_forall in F. exact (F e He). }
  destruct (peak_ge (map delta (filter (at_path p) (a_blog s))) 0) as [G1 G2]. pose proof (peak_le _ Fp 0) as G3. pose proof (all_bytes_filter (at_path p) (a_blog s) F) as G4.
  unfold all_bytes at 1 in G3. unfold all_bytes at 1 in G4. pose proof (zmax_le _ (sizes_nonneg is_alloc _ Fp)) as G5.
  split; [lia|]. split; [lia|]. split; [exact G5|]. split; [lia|]. split.
  - destruct (i_fst x Hx1) as (e' & H1 & H2 & H3). destruct (filter is_alloc (filter (at_path p) (a_blog s))) eqn:E; [|cbn [length]; lia].
    assert (In e' []) as []. rewrite <- E. apply filter_In. split; [apply filter_In; split; [exact H1|]|unfold is_alloc; rewrite H2; reflexivity]. unfold at_path in *. rewrite H3. exact Hx2.
  - apply Permutation_length in i_pb. rewrite app_length in i_pb. assert (L : forall (f : aev -> bool) l0, (length (filter f l0) <= length l0)%nat).
    { clear. intros f l0. induction l0 as [|z l0 IH]; [reflexivity|]. cbn [filter]. destruct (f z); cbn [length]; lia. }
    pose proof (L is_alloc (filter (at_path p) (a_blog s))). pose proof (L (at_path p) (a_blog s)). lia.
Qed.

(* ---------- what the discipline is needed for ---------- *)
Fixpoint al_go (s : alst) (l : list astep) : option alst := match l with [] => Some s | e :: r => match al_step s e with Some s' => al_go s' r | None => None end end.
(* an address that is tracked twice (without a free in between): the bytes of the first one never leave the total *)
Definition rt_l : list astep := [ATrack 0 10%N 8 (Some 1%N); ACont 0; ACont 0; ATrack 0 10%N 16 (Some 1%N); ACont 0; ACont 0; AUntrack 0 10%N; ACont 0; ACont 0].
Definition rt_s : alst := Eval vm_compute in match al_go (al_init 1) rt_l with Some s => s | None => al_init 1 end.
Theorem C75_retracked_refuted : ~ forall l s, al_go (al_init 1) l = Some s -> quiet s -> a_act s = bytes_live (a_alloc s).
Proof.
  intro H. assert (E : al_go (al_init 1) rt_l = Some rt_s) by (vm_compute; reflexivity). assert (Q : quiet rt_s) by (repeat constructor). specialize (H rt_l rt_s E Q). vm_compute in H. discriminate H.
Qed.
(* a free that overtakes the allocation in another thread: the flush divides by zero *)
Definition ov_l : list astep := [ATrack 0 10%N 8 (Some 1%N); AUntrack 1 10%N; ACont 1].
Definition ov_s : alst := Eval vm_compute in match al_go (al_init 2) ov_l with Some s => s | None => al_init 2 end.
Theorem C75_overtaken_refuted : ~ forall l s, al_go (al_init 2) l = Some s -> al_step s AFlush <> None.
Proof.
  intro H. assert (E : al_go (al_init 2) ov_l = Some ov_s) by (vm_compute; reflexivity). apply (H ov_l ov_s E). vm_compute. reflexivity.
Qed.
(* an allocation outside of any region is not counted *)
Theorem C75_no_region s i a sz : nth_error (a_pc s) i = Some Idle -> al_step s (ATrack i a sz None) = Some s.
Proof. intro H. cbn [al_step]. rewrite H. reflexivity. Qed.

(* an example: two threads, two regions; snapshots in between *)
Definition ex_al : list astep :=
  [ATrack 0 10%N 100 (Some 1%N); ATrack 1 20%N 50 (Some 2%N); ACont 1; ACont 0; ACont 0; ACont 1; ASnap; AUntrack 1 10%N; ATrack 0 30%N 30 (Some 1%N); ACont 1; ACont 1; ACont 0; ACont 0; ASnap; ASnap; AUntrack 0 77%N; AFlush].
Definition disc_b (s : alst) (e : astep) : bool :=
  let nb a := forallb (fun pc => match pc with Idle => true | T2 b _ _ | T3 b _ _ | U2 b _ _ | U3 b _ _ => negb (N.eqb a b) end) (a_pc s) in
  match e with ATrack _ a sz _ => (0 <=? sz) && (match mfind (a_alloc s) a with None => true | _ => false end) && nb a | AUntrack _ a => nb a | _ => true end.
Lemma disc_ok s e : disc_b s e = true -> disciplined s e.
Proof.
  assert (NB : forall a, forallb (fun pc => match pc with Idle => true | T2 b _ _ | T3 b _ _ | U2 b _ _ | U3 b _ _ => negb (N.eqb a b) end) (a_pc s) = true -> ~ busy s a).
  { intros a H (i & z & q & Hb). rewrite forallb_forall in H. destruct Hb as [Hb|[Hb|[Hb|Hb]]]; apply nth_error_In in Hb; specialize (H _ Hb); cbn in H; rewrite N.eqb_refl in H; discriminate. }
  destruct e as [i a z p|i a|i| |]; cbn [disc_b disciplined]; try (intros; exact Logic.I); [|apply NB].
  intro H. apply andb_prop in H as [H H3]. apply andb_prop in H as [H1 H2]. split; [apply Z.leb_le, H1|]. split; [destruct (mfind (a_alloc s) a); [discriminate|reflexivity]|apply NB, H3].
Qed.
Fixpoint go_b (s : alst) (l : list astep) : option alst := match l with [] => Some s | e :: r => if disc_b s e then match al_step s e with Some s' => go_b s' r | None => None end else None end.
Lemma go_b_run n l : forall l0 s0 s, al_run n l0 s0 -> go_b s0 l = Some s -> al_run n (l0 ++ l) s.
Proof.
  induction l as [|e l IH]; intros l0 s0 s H E; cbn [go_b] in E; [injection E as <-; rewrite app_nil_r; exact H|].
  destruct (disc_b s0 e) eqn:Ed; [|discriminate]. destruct (al_step s0 e) as [s1|] eqn:Es; [|discriminate].
  replace (l0 ++ e :: l) with ((l0 ++ [e]) ++ l) by (rewrite <- app_assoc; reflexivity). apply (IH _ s1); [|exact E]. exact (alr_step n l0 s0 e s1 H (disc_ok s0 e Ed) Es).
Qed.
Definition ex_s : alst := Eval vm_compute in match go_b (al_init 2) ex_al with Some s => s | None => al_init 2 end.
Theorem C75_example : exists s, al_run 2 ex_al s /\ quiet s /\ a_out s = [OSnap 150; OSnap 150; OSnap 80; OFlush [mkarec (Some 2%N) 50 1 50 50; mkarec (Some 1%N) 100 2 100 65]] /\
  a_act s = 80 /\ call_log ex_al <> a_blog s.
Proof.
  exists ex_s. assert (E : go_b (al_init 2) ex_al = Some ex_s) by (vm_compute; reflexivity). split; [exact (go_b_run 2 ex_al [] (al_init 2) ex_s (alr_init 2) E)|].
  split; [repeat constructor|]. split; [vm_compute; reflexivity|]. split; [reflexivity|]. clear E. vm_compute. intro Hd. discriminate Hd.
Qed.
