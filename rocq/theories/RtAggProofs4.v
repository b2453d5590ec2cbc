(* The state after a history, and what flush reports *)
From Verif Require Import Base VariantModel ArithModel RtAggModel RtAggSpec RtAggProofs RtAggProofs2 RtAggProofs3.
Open Scope nat_scope.

Lemma pick_snoc {A} b (h : list A) : forall fl s f, length fl = length h ->
  pick b (h ++ [s]) (fl ++ [f]) = pick b h fl ++ (if Bool.eqb f b then [s] else []).
Proof.
  induction h as [|x h IH]; intros [|g fl] s f L; cbn in L; try discriminate; cbn [app pick].
  - destruct (Bool.eqb f b); auto.
  - destruct (Bool.eqb g b); cbn [app]; rewrite IH by lia; auto.
Qed.
Lemma pick_in {A} b (h : list A) : forall fl x, In x (pick b h fl) -> In x h.
Proof. induction h as [|y h IH]; intros [|g fl] x; cbn [pick]; try (intros []). destruct (Bool.eqb g b); cbn; intros H; [destruct H as [->|H]; auto; right; eauto|right; eauto]. Qed.
Lemma pick_len {A} (h : list A) : forall fl, length fl = length h -> length (pick true h fl) + length (pick false h fl) = length h.
Proof. induction h as [|y h IH]; intros [|g fl] L; cbn in L |- *; try discriminate; auto. destruct g; cbn; specialize (IH fl ltac:(lia)); lia. Qed.
Lemma growing_snoc h s : growing (h ++ [s]) -> growing h /\ Forall (fun t => prefix (i_aggr (s_info t)) (i_aggr (s_info s))) h.
Proof.
  induction h as [|x h IH]; cbn; auto. intros (A & B). apply Forall_app in A as (A1 & A2). apply IH in B as (B1 & B2). split; [split; auto|]. constructor; auto. inversion A2; auto.
Qed.
Definition sumn (l : list nat) : nat := fold_right Nat.add 0 l.
(* no room for another entry: kept are the snapshots processed so far *)
Definition full (m : memory) (same : snap -> snap -> bool) (key : snap -> list rent) (n0 k0 : nat) (kept : list snap) (s : snap) : Prop :=
  let fs := firsts same kept in
  n0 <= sumn (map (fun f => length (i_aggr (s_info f))) fs) + length (i_aggr (s_info s)) \/
  n0 <= k0 + sumn (map (fun f => length (key f)) fs) + length (key s) \/
  4096 <= length fs + 2.
Definition drops_ok (m : memory) (same : snap -> snap -> bool) (key : snap -> list rent) (n0 k0 : nat) (h : list snap) (fl : list bool) : Prop :=
  forall i s, nth_error h i = Some s -> nth_error fl i = Some false ->
    s_alloc s = false /\ existsb (same s) (pick true (firstn i h) (firstn i fl)) = false /\ full m same key n0 k0 (pick true (firstn i h) (firstn i fl)) s.
Lemma concat_len {A B} (f : A -> list B) l : length (concat (map f l)) = sumn (map (fun x => length (f x)) l).
Proof. induction l; cbn; auto. rewrite app_length. auto. Qed.
Lemma hinv_lens m ks gs : hinv m ks gs -> length gs = length (firsts (cls m) ks) /\ klen gs = sumn (map (fun f => length (key16 f)) (firsts (cls m) ks)) /\
  nlen gs = sumn (map (fun f => length (i_aggr (s_info f))) (firsts (cls m) ks)).
Proof.
  unfold hinv, klen, nlen. intro H. rewrite !concat_len. induction H as [|f g fs gs H HF IH]; cbn [length map sumn fold_right]; auto.
  destruct IH as (A & B & C). destruct H as (E1 & _ & _ & E2). apply F2_len in E2. unfold sumn in *. rewrite E1. split; [lia|]. split; lia.
Qed.
Lemma drops_snoc m same key n0 k0 h fl s f : length fl = length h -> drops_ok m same key n0 k0 h fl ->
  (f = false -> s_alloc s = false /\ existsb (same s) (pick true h fl) = false /\ full m same key n0 k0 (pick true h fl) s) ->
  drops_ok m same key n0 k0 (h ++ [s]) (fl ++ [f]).
Proof.
  intros L Hd Hf i x Hx Hb. destruct (Nat.lt_ge_cases i (length h)) as [Li|Li].
  - rewrite nth_error_app1 in Hx by auto. rewrite nth_error_app1 in Hb by lia. rewrite !firstn_app. replace (i - length h) with 0 by lia. replace (i - length fl) with 0 by lia. cbn [firstn]. rewrite !app_nil_r. apply Hd; auto.
  - rewrite nth_error_app2 in Hx by auto. rewrite nth_error_app2 in Hb by lia. destruct (i - length h) as [|q] eqn:Eq; cbn in Hx; [|destruct q; discriminate].
    replace (i - length fl) with 0 in Hb by lia. cbn in Hb. inversion Hx; inversion Hb; subst x f. assert (i = length h) by lia. subst i.
    assert (X1 : firstn (length h) (h ++ [s]) = h) by (rewrite firstn_app, Nat.sub_diag, firstn_all; cbn; apply app_nil_r).
    assert (X2 : firstn (length h) (fl ++ [false]) = fl) by (rewrite <- L, firstn_app, Nat.sub_diag, firstn_all; cbn; apply app_nil_r).
    rewrite X1, X2. apply Hf; auto.
Qed.

Theorem history m d0 k0 : Rep d0 k0 0%N [] -> 4096 <= d_ecap d0 -> 16384 <= d_kcap d0 -> 16384 <= d_ncap d0 ->
  forall h d, growing h -> arun m d0 h = Some d ->
  exists fl gs, length fl = length h /\ Rep d k0 (wrap64 (N.of_nat (length (pick false h fl)))) gs /\ hinv m (pick true h fl) gs /\ caps_le d0 d /\
    drops_ok m (cls m) key16 16384 (length k0) h fl.
Proof.
  intros R0 Ce Ck Cn. induction h as [|s h IH] using rev_ind; intros d Hg Hr.
  - cbn in Hr. inversion Hr; subst d. exists [], []. split; auto. split; [exact R0|]. split; [constructor|]. split; [unfold caps_le; auto|]. intros [|i] s H; discriminate.
  - apply growing_snoc in Hg as (Hg & Hp). rewrite arun_app in Hr. destruct (arun m d0 h) as [d1|] eqn:E1; [|discriminate].
    cbn [arun] in Hr. destruct (process m d1 (s_info s) (s_alloc s) (s_rec s)) as [d2|] eqn:E2; [|discriminate]. inversion Hr; subst d2.
    destruct (IH d1 Hg eq_refl) as (fl & gs & L & R & HI & Cl & Hd).
    assert (Hp' : Forall (fun t => prefix (i_aggr (s_info t)) (i_aggr (s_info s))) (pick true h fl)).
    { rewrite Forall_forall in *. intros t Ht. apply Hp. eapply pick_in; eauto. }
    destruct (hinv_lens _ _ _ HI) as (L1 & L2 & L3).
    destruct (process_step m d1 k0 _ gs s d R E2) as (Cs & [(i & g & ks' & Hi & Hm & Hu & R')|(Hno & [(Ha & Hfull & R')|(ks' & Hu & R')])]).
    + exists (fl ++ [true]), (set_nth gs i (bump g ks')). rewrite !app_length, L. split; [auto|].
      rewrite !pick_snoc by auto. cbn [Bool.eqb]. rewrite app_nil_r. split; [exact R'|]. split; [eapply hinv_hit; eauto|].
      split; [unfold caps_le in *; lia|]. apply drops_snoc; auto. discriminate.
    + exists (fl ++ [false]), gs. rewrite !app_length, L. split; [auto|].
      rewrite !pick_snoc by auto. cbn [Bool.eqb]. rewrite app_nil_r. split.
      { rewrite app_length. cbn [length]. assert (Ew : wrap64 (wrap64 (N.of_nat (length (pick false h fl))) + 1) = wrap64 (N.of_nat (length (pick false h fl) + 1))).
        { unfold wrap64. rewrite N.add_mod_idemp_l by discriminate. f_equal. lia. } rewrite <- Ew. exact R'. }
      split; [exact HI|]. split; [unfold caps_le in *; lia|]. apply drops_snoc; auto. intros _. split; auto. split.
      { destruct (existsb (cls m s) (pick true h fl)) eqn:Ex; auto. apply existsb_exists in Ex as (t & Ht & Hc).
        destruct (firsts_cover (cls m) (cls_refl m) _ t Ht) as (f & Hf & Hcf). assert (Hsf := cls_trans m s t f Hc Hcf).
        apply In_nth_error in Hf as (j & Hj). destruct (nth_error gs j) as [g|] eqn:Hgj.
        - pose proof (F2_nth _ _ _ HI j f g Hj Hgj) as (Gk & Gb & _). rewrite <- (match_cls m s f g Gk Gb) in Hsf. rewrite Hno in Hsf by (eapply nth_error_In; eauto). discriminate.
        - apply nth_error_None in Hgj. assert (j < length (firsts (cls m) (pick true h fl))) by (apply nth_error_Some; congruence). lia. }
      unfold full. cbv zeta. rewrite <- L1, <- L2, <- L3. unfold caps_le in Cl. destruct Hfull as [F|[F|F]]; [left|right; left|right; right]; lia.
    + exists (fl ++ [true]), (gs ++ [mkgrp (key16 s) (bucket s) (wrap64 (0 + 1)) ks']). rewrite !app_length, L. split; [auto|].
      rewrite !pick_snoc by auto. cbn [Bool.eqb]. rewrite app_nil_r. split; [exact R'|]. split; [eapply hinv_new; eauto|].
      split; [unfold caps_le in *; lia|]. apply drops_snoc; auto. discriminate.
Qed.

(* ---- flush ---- *)
Fixpoint gflush (info : ainfo) (gs : list grp) (slot : N) : option (list (list rent)) :=
  match gs with
  | [] => Some []
  | g :: r =>
      if N.eqb (g_cnt g) 0 then gflush info r slot
      else match flush_kerns (g_ks g) (i_res info), gflush info r (slot + 1) with
           | Some st, Some l => Some ((g_key g ++ st ++ [RImm (i_count info) (make_uint (g_cnt g)); RImm (i_slot info) (make_uint slot)]) :: l)
           | _, _ => None
           end
  end.
Lemma skipn_nth {A} (l : list A) i x : nth_error l i = Some x -> skipn i l = x :: skipn (S i) l.
Proof. revert i. induction l as [|y l IH]; intros [|i]; cbn; try discriminate; [intro H; inversion H; auto|intro H; rewrite (IH i H); auto]. Qed.
Lemma flush_groups d k0 c0 gs info : Rep d k0 c0 gs -> forall n i slot, length gs - i = n -> i <= length gs ->
  flush_ents d info (skipn (S i) (d_ents d)) slot = gflush info (skipn i gs) slot.
Proof.
  intro R. induction n as [|n IH]; intros i slot Hn Hi.
  - rewrite !skipn_all2; [reflexivity|lia|rewrite (rp_len _ _ _ _ R); lia].
  - destruct (nth_error gs i) as [g|] eqn:Hg; [|apply nth_error_None in Hg; lia].
    rewrite (skipn_nth gs i g Hg), (skipn_nth _ _ _ (rp_nth _ _ _ _ R i g Hg)). cbn [flush_ents gflush a_cnt a_kidx a_klen a_nidx a_nk].
    rewrite (key_range _ _ _ _ i g R Hg), (kern_range _ _ _ _ i g R Hg). rewrite !IH by lia. reflexivity.
Qed.
Definition skip_rec (info : ainfo) (sk : N) (n : nat) : list (list rent) :=
  if n =? 0 then [] else [[RRef sk; RImm (i_count info) (make_uint (N.of_nat n)); RImm (i_slot info) (make_uint 0)]].
Lemma aflush_groups d k0 c0 gs info : Rep d k0 c0 gs -> c0 = 0%N -> aflush d info = gflush info gs 0%N.
Proof.
  intros R ->. unfold aflush. pose proof (rp_0 _ _ _ _ R) as R0. destruct (d_ents d) as [|e es] eqn:E; [discriminate|].
  cbn in R0. inversion R0; subst e. cbn [flush_ents a_cnt N.eqb]. pose proof (flush_groups d k0 _ gs info R (length gs) 0 0%N ltac:(lia) ltac:(lia)) as H. rewrite E in H. exact H.
Qed.
Lemma aflush_groups_skip d sk c0 gs info : Rep d [RRef sk] c0 gs -> c0 <> 0%N ->
  aflush d info = match gflush info gs 1%N with Some l => Some ([RRef sk; RImm (i_count info) (make_uint c0); RImm (i_slot info) (make_uint 0)] :: l) | None => None end.
Proof.
  intros R Hc. unfold aflush. pose proof (rp_0 _ _ _ _ R) as R0. destruct (d_ents d) as [|e es] eqn:E; [discriminate|].
  cbn in R0. inversion R0; subst e. cbn [flush_ents a_cnt a_kidx a_klen a_nidx a_nk]. destruct (N.eqb_spec c0 0) as [|_]; [contradiction|].
  rewrite (rp_keys _ _ _ _ R). cbn [app]. unfold range. assert (E1 : (0 + 1 <=? length (RRef sk :: concat (map g_key gs))) = true) by (apply Nat.leb_le; cbn; lia). rewrite E1.
  assert (E2 : (0 + 0 <=? length (d_kerns d)) = true) by reflexivity. rewrite E2. cbn [firstn skipn flush_kerns app].
  pose proof (flush_groups d _ _ gs info R (length gs) 0 1%N ltac:(lia) ltac:(lia)) as H. rewrite E in H. cbn [skipn] in H. change (0 + 1)%N with 1%N. rewrite H. reflexivity.
Qed.
Lemma values_len a mem : length (values_of a mem) <= length mem.
Proof.
  unfold values_of. induction mem as [|s mem IH]; cbn [flat_map length]; [auto|]. rewrite app_length, map_length.
  assert (H : length (first_imm (s_rec s) a) <= 1) by (unfold first_imm; destruct (filter _ _); cbn [length]; lia). lia.
Qed.
Lemma flush_kerns_stats ks : forall attrs mem res, kerns_ok ks attrs mem -> length attrs <= length res -> (N.of_nat (length mem) < 4294967296)%N ->
  flush_kerns ks res = stats mem attrs res.
Proof.
  induction ks as [|k q IH]; intros attrs mem res H L Hm; inversion H as [|k1 a q1 r H1 H2]; subst; cbn [flush_kerns stats]; [reflexivity|].
  destruct res as [|x res]; [cbn in L; lia|]. cbn [length] in L. destruct H1 as (E1 & E2).
  pose proof (values_len a mem) as Lv. rewrite N.mod_small in E2 by lia. rewrite (IH r mem res H2 ltac:(lia) Hm).
  unfold stat. destruct (values_of a mem) as [|v vs] eqn:Ev.
  - cbn [length] in E2. rewrite E2. cbn. destruct (stats mem r res); auto.
  - destruct (N.eqb_spec (k_cnt k) 0) as [Ez|Ez]; [rewrite Ez in E2; cbn [length] in E2; lia|].
    fold e3. rewrite E1. rewrite <- E2. destruct x as [[[amin amax] asum] aavg]. destruct (cv_div (k_sum k) (k_cnt k)); auto.
Qed.
Lemma gflush_reports m ks info fs gs : forall slot, Forall2 (grp_ok m ks) fs gs -> (forall f, In f fs -> In f ks) ->
  Forall (fun f => length (i_aggr (s_info f)) <= length (i_res info)) ks -> (N.of_nat (length ks) < 4294967296)%N ->
  gflush info gs slot = reports (cls m) key16 info ks fs slot.
Proof.
  intros slot H. revert slot. induction H as [|f g fs gs H HF IH]; intros slot Hin Hres Hlen; cbn [gflush reports]; [reflexivity|].
  destruct H as (Ek & _ & Ec & Eks). pose proof (Hin f (or_introl eq_refl)) as Hf.
  assert (Hmem : In f (filter (cls m f) ks)) by (apply filter_In; split; auto; apply cls_refl).
  assert (Lm : length (filter (cls m f) ks) <= length ks). { clear. induction ks; cbn; auto. destruct (cls m f a); cbn; lia. }
  assert (Hne : 0 < length (filter (cls m f) ks)). { destruct (filter (cls m f) ks); [destruct Hmem|cbn; lia]. }
  rewrite wrap64_id in Ec by (unfold u64_ok, W64; lia).
  destruct (N.eqb_spec (g_cnt g) 0) as [Ez|_]; [lia|].
  unfold report. rewrite Forall_forall in Hres. rewrite (flush_kerns_stats _ _ _ (i_res info) Eks (Hres f Hf)) by lia.
  rewrite IH; auto; [|intros x Hx; apply Hin; right; auto|rewrite Forall_forall; auto]. rewrite Ek, Ec. destruct (stats _ _ _); reflexivity.
Qed.
(* two groupings that agree on the history give the same report *)
Lemma firsts_ext same same' h : (forall s t, In s h -> In t h -> same s t = same' s t) -> firsts same h = firsts same' h.
Proof.
  intro H. unfold firsts. assert (Hx : forall l seen, (forall x, In x seen -> In x h) -> (forall x, In x l -> In x h) -> firsts_aux same seen l = firsts_aux same' seen l).
  { induction l as [|s l IH]; intros seen Hs Hl; cbn [firsts_aux]; auto.
    assert (E : existsb (same s) seen = existsb (same' s) seen). { clear IH. induction seen as [|y seen IHs]; cbn; auto. rewrite H; [|apply Hl; left; auto|apply Hs; left; auto]. f_equal. apply IHs. intros z Hz. apply Hs. right; auto. }
    rewrite E. destruct (existsb (same' s) seen); [apply IH; auto; intros x Hx; apply Hl; right; auto|]. f_equal. apply IH.
    - intros x Hx. apply in_app_iff in Hx as [Hx|[<-|[]]]; [auto|apply Hl; left; auto].
    - intros x Hx. apply Hl. right; auto. }
  apply Hx; auto. intros x [].
Qed.
Lemma filter_ext_in' {A} (f g : A -> bool) l : (forall x, In x l -> f x = g x) -> filter f l = filter g l.
Proof. induction l as [|x l IH]; intro H; cbn; auto. rewrite H by (left; auto). rewrite IH by (intros; apply H; right; auto). reflexivity. Qed.
Lemma reports_ext same same' key key' info h fs : forall slot, (forall f, In f fs -> In f h) -> (forall s t, In s h -> In t h -> same s t = same' s t) -> (forall s, In s h -> key s = key' s) ->
  reports same key info h fs slot = reports same' key' info h fs slot.
Proof.
  induction fs as [|f fs IH]; intros slot Hin H1 H2; cbn [reports]; auto. rewrite IH; auto; [|intros x Hx; apply Hin; right; auto].
  assert (Hf := Hin f (or_introl eq_refl)). unfold report. rewrite (filter_ext_in' (same f) (same' f)) by auto. rewrite H2 by auto. reflexivity.
Qed.
