(* C69: the records of a thread *)
From Verif Require Import Base VariantModel VariantSpec TreeModel TreeSpec TreeProofs TreeProofs2 RuntimeModel RuntimeSpec RuntimeProofs.
From Verif Require Import ArithModel RtAggModel RtAggSpec RtAggProofs RtAggProofs2 RtAggProofs3 RtAggProofs4 RtAggProps ProfModel ProfSpec ProfProofs2 ProfProofs3 ProfProofs4.
Open Scope N_scope.

Section S.
Variable c : pcfg.
Variable m : memory.
Variable tr : tree.
Hypothesis Hinv : inv tr.
Hypothesis Huniq : uniq (t_nodes tr).
Hypothesis Hkeys : i_keys (pc_info c) = [].
Hypothesis Hvals : NoDup [pc_off c; pc_dur c; pc_cnt c].
Hypothesis Hattr : Forall (is_attribute tr) [pc_off c; pc_dur c; pc_cnt c].
Notation sfor := (snap_for c tr).

Lemma ref_not_attr i q k : has_path tr i q -> q <> [] -> Forall (fun x : N * value => 12 <= fst x) q -> is_attribute tr k -> i <> k.
Proof.
  intros Hp Hne Hf (n' & Hn' & En' & An') Z. destruct (path_last _ _ _ Hinv Hp Hne) as (n & p & l' & Hn & En & Pn & Hl' & El & Ea & Hroot).
  assert (12 <= n_attr n). { rewrite Forall_forall in Hf. apply (Hf (n_attr n, n_val n)). rewrite El. apply in_or_app; right; left; auto. }
  assert (n = n') by (eapply nodup_id_eq; eauto; [apply wf_nodup; apply Hinv|congruence]). subst n'. rewrite An' in H. unfold NAME_ATTR_ID in H. lia.
Qed.
Definition refs_of (sn : snap) : list rent := filter is_ref (s_rec sn).
Lemma sfor_key sn x : sfor sn x -> full_key sn = refs_of sn /\ ctx_for tr (refs_of sn) (fst (fst x)).
Proof.
  intros (H1 & H2 & refs & now & H3 & H4). assert (E : refs_of sn = refs).
  { unfold refs_of. rewrite H3. unfold rec_of. destruct H4 as [(-> & _)|(i & -> & _)]; destruct (snd x); reflexivity. }
  rewrite E. split; auto. unfold full_key. rewrite H1, Hkeys. cbn. rewrite app_nil_r. exact E.
Qed.
Lemma path_fun i q q' : has_path tr i q -> has_path tr i q' -> q = q'.
Proof. intros H H'. rewrite (has_path_cpath _ _ _ (proj1 Hinv) H), (has_path_cpath _ _ _ (proj1 Hinv) H'). reflexivity. Qed.
Lemma path_node_at i q : has_path tr i q -> q <> [] -> Forall (fun x : N * value => 12 <= fst x) q -> rec_path tr [RRef i] = q.
Proof.
  intros Hp Hne Hf. destruct (path_last _ _ _ Hinv Hp Hne) as (n & p & l' & Hn & En & Pn & Hl' & El & Ea & Hroot).
  cbn. rewrite Ea, app_nil_r. unfold ent_view. rewrite ?Ea.
  assert (12 <= n_attr n). { rewrite Forall_forall in Hf. apply (Hf (n_attr n, n_val n)). rewrite El. apply in_or_app; right; left; auto. }
  destruct (N.eqb_spec (n_attr n) NAME_ATTR_ID) as [Z|_]; [unfold NAME_ATTR_ID in Z; lia|]. symmetry. apply (has_path_cpath _ _ _ (proj1 Hinv) Hp).
Qed.
Lemma sfor_path sn x : sfor sn x -> rec_path tr (refs_of sn) = fst (fst x).
Proof.
  intro H. destruct (sfor_key _ _ H) as (_ & [(-> & ->)|(i & -> & H1 & H2 & H3)]); [reflexivity|]. apply path_node_at; auto.
Qed.
Lemma sfor_same s1 x1 s2 x2 : sfor s1 x1 -> sfor s2 x2 -> same_key m s1 s2 = path_eqb (fst (fst x2)) (fst (fst x1)).
Proof.
  intros H1 H2. destruct (sfor_key _ _ H1) as (K1 & C1). destruct (sfor_key _ _ H2) as (K2 & C2). unfold same_key. rewrite K1, K2.
  destruct (path_eqb (fst (fst x2)) (fst (fst x1))) eqn:E.
  - apply path_eqb_eq in E. rewrite E in C2. destruct C1 as [(-> & Z1)|(i & -> & A1 & A2 & A3)]; destruct C2 as [(-> & Z2)|(j & -> & B1 & B2 & B3)]; try congruence; [reflexivity|].
    cbn. rewrite (path_inj tr i j _ Hinv Huniq A2 B2), N.eqb_refl. reflexivity.
  - destruct C1 as [(-> & Z1)|(i & -> & A1 & A2 & A3)]; destruct C2 as [(-> & Z2)|(j & -> & B1 & B2 & B3)]; try reflexivity.
    + rewrite Z1, Z2 in E. discriminate.
    + cbn. destruct (N.eqb_spec i j) as [->|]; [|reflexivity]. rewrite (path_fun _ _ _ A2 B2) in E. rewrite (proj2 (path_eqb_eq _ _) eq_refl) in E. discriminate.
Qed.
Lemma sfor_attr (refs : list rent) q k : ctx_for tr refs q -> is_attribute tr k -> filter (fun e => r_node e =? k) refs = [].
Proof.
  intros [(-> & _)|(i & -> & H1 & H2 & H3)] Hk; [reflexivity|]. cbn. destruct (N.eqb_spec i k) as [Z|_]; [|reflexivity].
  exfalso. exact (ref_not_attr i q k H2 H1 H3 Hk Z).
Qed.
Lemma ids_diff : pc_off c <> pc_dur c /\ pc_off c <> pc_cnt c /\ pc_dur c <> pc_cnt c.
Proof. inversion Hvals; subst. inversion H2; subst. cbn in *. intuition. Qed.
Lemma sfor_dur sn x : sfor sn x -> map r_val (first_imm (s_rec sn) (pc_dur c)) = [make_uint (snd (fst x))].
Proof.
  intros (H1 & H2 & refs & now & H3 & H4). unfold first_imm. rewrite H3. unfold rec_of. rewrite filter_app.
  rewrite (sfor_attr _ _ (pc_dur c) H4) by (rewrite Forall_forall in Hattr; apply Hattr; cbn; auto). cbn [app].
  destruct ids_diff as (D1 & D2 & D3). apply N.eqb_neq in D1, D2, D3. assert (D3' : (pc_cnt c =? pc_dur c) = false) by (rewrite N.eqb_sym; auto).
  destruct (snd x); cbn [app filter r_node]; rewrite ?D3', ?D1, N.eqb_refl; reflexivity.
Qed.
Lemma sfor_cnt sn x : sfor sn x -> map r_val (first_imm (s_rec sn) (pc_cnt c)) = if snd x then [make_uint 1] else [].
Proof.
  intros (H1 & H2 & refs & now & H3 & H4). unfold first_imm. rewrite H3. unfold rec_of. rewrite filter_app.
  rewrite (sfor_attr _ _ (pc_cnt c) H4) by (rewrite Forall_forall in Hattr; apply Hattr; cbn; auto). cbn [app].
  destruct ids_diff as (D1 & D2 & D3). apply N.eqb_neq in D1, D2, D3.
  destruct (snd x); cbn [app filter r_node]; rewrite ?N.eqb_refl, ?D2, ?D3; reflexivity.
Qed.
Lemma vals_dur sns l : Forall2 sfor sns l -> values_of (pc_dur c) sns = map make_uint (map (fun x => snd (fst x)) l).
Proof. induction 1 as [|s x sns l H HF IH]; [reflexivity|]. unfold values_of in *. cbn [flat_map map]. rewrite IH, (sfor_dur _ _ H). reflexivity. Qed.
Lemma vals_cnt sns l : Forall2 sfor sns l -> values_of (pc_cnt c) sns = map make_uint (repeat 1 (length (filter snd l))).
Proof. induction 1 as [|s x sns l H HF IH]; [reflexivity|]. unfold values_of in *. cbn [flat_map filter]. rewrite IH, (sfor_cnt _ _ H). destruct (snd x); reflexivity. Qed.
Lemma group_of f x sns l : sfor f x -> Forall2 sfor sns l -> Forall2 sfor (filter (same_key m f) sns) (at_path (fst (fst x)) l).
Proof.
  intros Hf H. unfold at_path. induction H as [|s y sns l H HF IH]; [constructor|]. cbn [filter]. rewrite (sfor_same f x s y Hf H). destruct (path_eqb _ _); auto.
Qed.
Lemma F2_in_l {A B} (P : A -> B -> Prop) la lb a : Forall2 P la lb -> In a la -> exists b, In b lb /\ P a b.
Proof. induction 1; [contradiction|]. intros [->|Hi]; [exists y; split; auto; left; auto|]. destruct (IHForall2 Hi) as (b & Hb & HP). exists b; split; auto; right; auto. Qed.
Lemma F2_in_r {A B} (P : A -> B -> Prop) la lb b : Forall2 P la lb -> In b lb -> exists a, In a la /\ P a b.
Proof. induction 1; [contradiction|]. intros [->|Hi]; [exists x; split; auto; left; auto|]. destruct (IHForall2 Hi) as (a & Ha & HP). exists a; split; auto; right; auto. Qed.
Lemma F2_length {A B} (P : A -> B -> Prop) la lb : Forall2 P la lb -> length la = length lb.
Proof. induction 1; cbn; auto. Qed.

(* one record *)
Lemma report_val sns l f x slot r kd amin amax asum aavg kc bmin bmax bsum bavg :
  Forall2 sfor sns l -> In f sns -> sfor f x -> In x l ->
  NoDup (result_ids (pc_info c)) -> reports_stats (pc_info c) kd (pc_dur c) amin amax asum aavg -> reports_stats (pc_info c) kc (pc_cnt c) bmin bmax bsum bavg ->
  ProfSpec.nsum (map (fun x => snd (fst x)) l) < W64 -> N.of_nat (length l) < 4294967296 ->
  report (same_key m) full_key (pc_info c) sns f slot = Some r ->
  let q := fst (fst x) in
  rec_path tr r = q /\ rec_val r asum = [spent q l] /\ rec_val r amin = [least (durations q l)] /\ rec_val r amax = [greatest (durations q l)] /\
  rec_val r (i_count (pc_info c)) = [pieces q l] /\ rec_val r bsum = (if closed q l =? 0 then [] else [closed q l]).
Proof.
  intros HF Hin Hf Hxl Nd (A1 & A2) (B1 & B2) Htot Hlen Hr q. unfold report in Hr.
  assert (Ei : s_info f = pc_info c) by apply Hf. rewrite Ei in Hr.
  pose proof (group_of f x sns l Hf HF) as G. fold q in G. set (mem := filter (same_key m f) sns) in *.
  destruct (stats mem (i_aggr (pc_info c)) (i_res (pc_info c))) as [st|] eqn:Est; [|discriminate]. injection Hr as <-.
  destruct (sfor_key _ _ Hf) as (Ek & Ec). rewrite Ek.
  pose proof (stats_ids _ _ _ _ Est) as Hst. unfold result_ids in Nd. change (flat_map (fun x => let '(a, b, c, d) := x in [a; b; c; d]) (i_res (pc_info c))) with (flat_map ids4 (i_res (pc_info c))) in Nd.
  assert (Nd1 : NoDup (flat_map ids4 (i_res (pc_info c)))). { clear -Nd. induction (flat_map ids4 (i_res (pc_info c))) as [|y r IH]; [constructor|]. cbn in Nd. inversion Nd; subst. constructor; auto. intro; apply H1; apply in_or_app; auto. }
  set (tail := [RImm (i_count (pc_info c)) (make_uint (N.of_nat (length mem))); RImm (i_slot (pc_info c)) (make_uint slot)]).
  assert (Ht : Forall (imm_in [i_count (pc_info c); i_slot (pc_info c)]) tail). { unfold tail. constructor; [cbn; auto|]. constructor; [cbn; auto|]. constructor. }
  assert (Hrefs : Forall (fun e => is_ref e = true) (refs_of f)). { unfold refs_of. apply Forall_forall. intros e He. apply filter_In in He. apply He. }
  assert (Hres : forall b, In b (flat_map ids4 (i_res (pc_info c))) -> rec_val (refs_of f ++ st ++ tail) b = rec_val st b).
  { intros b Hb. rewrite !rec_val_app, rec_val_refs, (rec_val_notin tail _ b Ht) by (auto; intro Z; eapply nodup_app_disj; eauto). apply app_nil_r. }
  assert (Hsub : (length (at_path q l) <= length l)%nat). { unfold at_path. clear. induction l; cbn; auto. destruct (path_eqb _ _); cbn; lia. }
  assert (Hne : exists d ds, durations q l = d :: ds).
  { unfold durations. destruct (at_path q l) as [|y r] eqn:E; [|cbn; eauto]. exfalso. assert (In x (at_path q l)) by (unfold at_path; apply filter_In; split; auto; apply path_eqb_eq; reflexivity). rewrite E in H. contradiction. }
  destruct Hne as (d & ds & Ed).
  assert (Hdl : length (durations q l) = length (at_path q l)) by (unfold durations; apply map_length).
  assert (Sd : stat (values_of (pc_dur c) mem) (amin, amax, asum, aavg) = Some [RImm amin (make_uint (least (durations q l))); RImm amax (make_uint (greatest (durations q l))); RImm asum (make_uint (ProfSpec.nsum (durations q l)));
        RImm aavg (make_uint (ProfSpec.nsum (durations q l) / N.of_nat (length (durations q l))))]).
  { rewrite (vals_dur _ _ G). fold (durations q l). pose proof (at_path_le q l). rewrite Ed in *. apply stat_uint; [lia|]. rewrite Hdl. lia. }
  assert (Ina : forall b, In b [amin; amax; asum; aavg] -> In b (flat_map ids4 (i_res (pc_info c)))). { intros b Hb. apply in_flat_map. exists (amin, amax, asum, aavg). split; [eapply nth_error_In; eauto|exact Hb]. }
  assert (Inb : forall b, In b [bmin; bmax; bsum; bavg] -> In b (flat_map ids4 (i_res (pc_info c)))). { intros b Hb. apply in_flat_map. exists (bmin, bmax, bsum, bavg). split; [eapply nth_error_In; eauto|exact Hb]. }
  assert (Sub4 : forall x k, nth_error (i_res (pc_info c)) k = Some x -> NoDup (ids4 x)).
  { clear -Nd1. intros x k Hk. apply nth_error_split in Hk as (l1 & l2 & E & _). rewrite E in Nd1. rewrite flat_map_app in Nd1. apply nodup_app_r in Nd1. cbn [flat_map] in Nd1.
    clear -Nd1. induction (ids4 x) as [|y r IH]; [constructor|]. cbn in Nd1. inversion Nd1; subst. constructor; auto. intro; apply H1; apply in_or_app; auto. }
  pose proof (Sub4 _ _ A2) as N4a. pose proof (Sub4 _ _ B2) as N4b. cbn in N4a, N4b.
  split; [|split; [|split; [|split; [|split]]]].
  - rewrite !rec_path_app, (rec_path_imm tr st _ Hst), (rec_path_imm tr tail _ Ht), !app_nil_r. apply (sfor_path _ _ Hf).
  - rewrite Hres by (apply Ina; cbn; auto). rewrite (stats_val _ _ _ _ kd _ _ _ asum Est Nd1 A1 A2 Sd) by (cbn; auto).
    cbn. rewrite N.eqb_refl. inversion N4a as [|? ? Z1 Z2]; inversion Z2 as [|? ? Z3 Z4]; inversion Z4 as [|? ? Z5 Z6]; subst. cbn in Z1, Z3, Z5.
    destruct (N.eqb_spec amin asum); [exfalso; intuition|]. destruct (N.eqb_spec amax asum); [exfalso; intuition|]. destruct (N.eqb_spec aavg asum); [exfalso; intuition|]. reflexivity.
  - rewrite Hres by (apply Ina; cbn; auto). rewrite (stats_val _ _ _ _ kd _ _ _ amin Est Nd1 A1 A2 Sd) by (cbn; auto).
    cbn. rewrite N.eqb_refl. inversion N4a as [|? ? Z1 Z2]; subst. cbn in Z1.
    destruct (N.eqb_spec amax amin); [exfalso; intuition|]. destruct (N.eqb_spec asum amin); [exfalso; intuition|]. destruct (N.eqb_spec aavg amin); [exfalso; intuition|]. reflexivity.
  - rewrite Hres by (apply Ina; cbn; auto). rewrite (stats_val _ _ _ _ kd _ _ _ amax Est Nd1 A1 A2 Sd) by (cbn; auto).
    cbn. rewrite N.eqb_refl. inversion N4a as [|? ? Z1 Z2]; inversion Z2 as [|? ? Z3 Z4]; subst. cbn in Z1, Z3.
    destruct (N.eqb_spec amin amax); [exfalso; intuition|]. destruct (N.eqb_spec asum amax); [exfalso; intuition|]. destruct (N.eqb_spec aavg amax); [exfalso; intuition|]. reflexivity.
  - assert (Hz : ~ In (i_count (pc_info c)) (flat_map ids4 (i_res (pc_info c)))) by (intro Z; apply (nodup_app_disj _ _ _ Nd Z); left; auto).
    rewrite !rec_val_app, (rec_val_refs _ _ Hrefs), (rec_val_notin st _ _ Hst Hz). cbn [app].
    unfold tail. cbn. rewrite N.eqb_refl. apply nodup_app_r in Nd. inversion Nd; subst. destruct (N.eqb_spec (i_slot (pc_info c)) (i_count (pc_info c))) as [Z|_]; [exfalso; apply H1; left; auto|].
    unfold pieces. rewrite (F2_length _ _ _ G). reflexivity.
  - rewrite Hres by (apply Inb; cbn; auto). pose proof (vals_cnt _ _ G) as Vc. unfold closed. set (nc := length (filter snd (at_path q l))) in *.
    assert (Hnc : (nc <= length (at_path q l))%nat). { unfold nc. clear. induction (at_path q l) as [|y r IH]; cbn; auto. destruct (snd y); cbn; lia. }
    destruct nc as [|k] eqn:En.
    + assert (Sc : stat (values_of (pc_cnt c) mem) (bmin, bmax, bsum, bavg) = Some []) by (rewrite Vc; reflexivity).
      rewrite (stats_val _ _ _ _ kc _ _ _ bsum Est Nd1 B1 B2 Sc) by (cbn; auto). reflexivity.
    + assert (Es : ProfSpec.nsum (1 :: repeat 1 k) = N.of_nat (S k)). { clear. induction k; [reflexivity|]. cbn [repeat ProfSpec.nsum fold_right] in *. rewrite Nat2N.inj_succ. lia. }
      assert (Sc : exists b1 b2 b4, stat (values_of (pc_cnt c) mem) (bmin, bmax, bsum, bavg) = Some [RImm bmin b1; RImm bmax b2; RImm bsum (make_uint (N.of_nat (S k))); RImm bavg b4]).
      { rewrite Vc. cbn [repeat].
        assert (Y1 : ProfSpec.nsum (1 :: repeat 1 k) < W64) by (rewrite Es; unfold W64; lia).
        assert (Y2 : N.of_nat (length (1 :: repeat 1 k)) < 4294967296) by (cbn [length]; rewrite repeat_length; lia).
        rewrite (stat_uint _ _ _ _ _ _ Y1 Y2), Es. eauto. }
      destruct Sc as (b1 & b2 & b4 & Sc). rewrite (stats_val _ _ _ _ kc _ _ _ bsum Est Nd1 B1 B2 Sc) by (cbn; auto).
      destruct (N.eqb_spec (N.of_nat (S k)) 0); [lia|].
      unfold rec_val. cbn [flat_map]. rewrite N.eqb_refl. inversion N4b as [|? ? Z1 Z2]; inversion Z2 as [|? ? Z3 Z4]; inversion Z4 as [|? ? Z5 Z6]; subst. cbn in Z1, Z3, Z5.
      destruct (N.eqb_spec bmin bsum); [exfalso; intuition|]. destruct (N.eqb_spec bmax bsum); [exfalso; intuition|]. destruct (N.eqb_spec bavg bsum); [exfalso; intuition|]. reflexivity.
Qed.
Lemma reports_F2 (same : snap -> snap -> bool) key info h fs : forall slot recs, reports same key info h fs slot = Some recs -> Forall2 (fun f r => exists slot, report same key info h f slot = Some r) fs recs.
Proof.
  induction fs as [|f fs IH]; intros slot recs; cbn [reports]; [intro H; injection H as <-; constructor|].
  destruct (report _ _ _ _ _ _) as [x|] eqn:E; [|discriminate]. destruct (reports _ _ _ _ fs _) as [l|] eqn:E2; [|discriminate]. intro H; injection H as <-. constructor; eauto.
Qed.
(* an equivalence that agrees with the comparison of the keys *)
Definition rsame (a b : snap) : bool := path_eqb (rec_path tr (refs_of b)) (rec_path tr (refs_of a)).
Lemma rsame_refl s : rsame s s = true. Proof. apply path_eqb_eq. reflexivity. Qed.
Lemma rsame_sym s t : rsame s t = true -> rsame t s = true. Proof. unfold rsame. rewrite !path_eqb_eq. auto. Qed.
Lemma rsame_trans s t u : rsame s t = true -> rsame t u = true -> rsame s u = true. Proof. unfold rsame. rewrite !path_eqb_eq. congruence. Qed.
Lemma records sns l recs kd amin amax asum aavg kc bmin bmax bsum bavg :
  Forall2 sfor sns l -> NoDup (result_ids (pc_info c)) -> reports_stats (pc_info c) kd (pc_dur c) amin amax asum aavg -> reports_stats (pc_info c) kc (pc_cnt c) bmin bmax bsum bavg ->
  ProfSpec.nsum (map (fun x => snd (fst x)) l) < W64 -> N.of_nat (length l) < 4294967296 ->
  reports (same_key m) full_key (pc_info c) sns (firsts (same_key m) sns) 0 = Some recs ->
  NoDup (map (rec_path tr) recs) /\ (forall q, In q (map (rec_path tr) recs) <-> In q (map (fun x => fst (fst x)) l)) /\
  forall r, In r recs -> let q := rec_path tr r in
    rec_val r asum = [spent q l] /\ rec_val r amin = [least (durations q l)] /\ rec_val r amax = [greatest (durations q l)] /\
    rec_val r (i_count (pc_info c)) = [pieces q l] /\ rec_val r bsum = (if closed q l =? 0 then [] else [closed q l]).
Proof.
  intros HF Nd HA HB Htot Hlen Hr. apply reports_F2 in Hr.
  assert (Ef : firsts (same_key m) sns = firsts rsame sns).
  { apply firsts_ext. intros s u Hs Hu. destruct (F2_in_l _ _ _ _ HF Hs) as (x & _ & Px). destruct (F2_in_l _ _ _ _ HF Hu) as (y & _ & Py).
    rewrite (sfor_same s x u y Px Py). unfold rsame. rewrite (sfor_path _ _ Px), (sfor_path _ _ Py). reflexivity. }
  rewrite Ef in Hr.
  assert (Hrec : Forall2 (fun f r => rec_path tr r = rec_path tr (refs_of f) /\ let q := rec_path tr r in
    rec_val r asum = [spent q l] /\ rec_val r amin = [least (durations q l)] /\ rec_val r amax = [greatest (durations q l)] /\
    rec_val r (i_count (pc_info c)) = [pieces q l] /\ rec_val r bsum = (if closed q l =? 0 then [] else [closed q l])) (firsts rsame sns) recs).
  { assert (Hin : forall f, In f (firsts rsame sns) -> In f sns) by (intros f Hf; eapply firsts_in; eauto). clear Ef.
    induction Hr as [|f r fs recs (slot & Hrep) Hr IH]; [constructor|]. constructor; [|apply IH; intros; apply Hin; right; auto].
    pose proof (Hin f (or_introl eq_refl)) as Hf. destruct (F2_in_l _ _ _ _ HF Hf) as (x & Hx & Px).
    destruct (report_val sns l f x slot r kd amin amax asum aavg kc bmin bmax bsum bavg HF Hf Px Hx Nd HA HB Htot Hlen Hrep) as (Q0 & Q1 & Q2 & Q3 & Q4 & Q5).
    rewrite Q0, (sfor_path _ _ Px). auto 10. }
  assert (Hpaths : map (rec_path tr) recs = map (fun f => rec_path tr (refs_of f)) (firsts rsame sns)).
  { clear -Hrec. induction Hrec as [|f r fs recs (H & _) HF IH]; [reflexivity|]. cbn. rewrite H, IH. reflexivity. }
  split; [|split].
  - rewrite Hpaths. apply NoDup_nth_error. intros i j Hi Hij. rewrite map_length in Hi. rewrite !nth_error_map in Hij.
    destruct (nth_error (firsts rsame sns) i) as [f|] eqn:E1; [|apply nth_error_None in E1; lia]. cbn in Hij.
    destruct (nth_error (firsts rsame sns) j) as [g|] eqn:E2; [|discriminate]. injection Hij as Hij.
    apply (firsts_distinct rsame rsame_refl rsame_sym rsame_trans sns i j f g E1 E2). unfold rsame. apply path_eqb_eq. auto.
  - intro q. rewrite Hpaths, !in_map_iff. split.
    + intros (f & <- & Hf). apply firsts_in in Hf. destruct (F2_in_l _ _ _ _ HF Hf) as (x & Hx & Px). exists x. split; auto. symmetry. apply sfor_path; auto.
    + intros (x & <- & Hx). destruct (F2_in_r _ _ _ _ HF Hx) as (s & Hs & Px). destruct (firsts_cover rsame rsame_refl sns s Hs) as (f & Hf & Hfs). exists f. split; auto.
      unfold rsame in Hfs. apply path_eqb_eq in Hfs. rewrite Hfs. apply sfor_path; auto.
  - intros r Hr'. destruct (F2_in_r _ _ _ _ Hrec Hr') as (f & _ & _ & H). exact H.
Qed.
End S.
