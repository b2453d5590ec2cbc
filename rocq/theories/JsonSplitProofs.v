From Coq Require Import Strings.Ascii Strings.String Sorted.
From Verif Require Import Base VariantModel VariantSpec NamesModel NamesProps TextModel TextProofs TreeModel CaliFileModel AggModel FilterModel RConfigModel FmtModel JsonSpec JsonModel JsonOutSpec JsonProofs JsonProofs2 JsonProps JsonProps2 JsonSplitModel JsonSplitSpec.
Open Scope N_scope.

(* ---------------- the hierarchy ---------------- *)
Inductive hleads (h : list hnode) : nat -> list bytes -> Prop :=
| hl_top i n : nth_error h i = Some n -> hn_par n = None -> hleads h i [hn_label n]
| hl_sub i n p ls : nth_error h i = Some n -> hn_par n = Some p -> (p < i)%nat -> hleads h p ls -> hleads h i (ls ++ [hn_label n]).
Definition hinv (h : list hnode) : Prop :=
  (forall i n p, nth_error h i = Some n -> hn_par n = Some p -> (p < i)%nat) /\
  (forall i j n m, nth_error h i = Some n -> nth_error h j = Some m -> hn_par n = hn_par m -> hn_label n = hn_label m -> i = j).
Lemma par_eqb_eq a b : par_eqb a b = true <-> a = b.
Proof. destruct a, b; cbn; split; try congruence; intro H; [apply Nat.eqb_eq in H; congruence|injection H as ->; apply Nat.eqb_refl]. Qed.
Lemma hfind_some p lab : forall h n i, hfind h n p lab = Some i -> exists k x, i = (n + k)%nat /\ nth_error h k = Some x /\ hn_par x = p /\ hn_label x = lab.
Proof.
  induction h as [|y h IH]; intros n i H; [discriminate|]. cbn [hfind] in H. destruct (par_eqb (hn_par y) p && beqb lab (hn_label y)) eqn:E.
  - injection H as <-. apply andb_true_iff in E. destruct E as (E1 & E2). apply par_eqb_eq in E1. apply beqb_eq in E2. exists 0%nat, y. repeat split; auto; lia.
  - apply IH in H. destruct H as (k & x & -> & H). exists (S k), x. split; [lia|exact H].
Qed.
Lemma hfind_none p lab : forall h n, hfind h n p lab = None -> forall k x, nth_error h k = Some x -> hn_par x = p -> hn_label x = lab -> False.
Proof.
  induction h as [|y h IH]; intros n H k x Hk Hp Hl; [destruct k; discriminate|]. cbn [hfind] in H. destruct (par_eqb (hn_par y) p && beqb lab (hn_label y)) eqn:E; [discriminate|].
  destruct k as [|k]; [|eapply IH; eauto]. injection Hk as ->. subst. rewrite (proj2 (par_eqb_eq _ _) eq_refl), beqb_refl in E. discriminate.
Qed.
Lemma nth_app_old {A} (l r : list A) i x : nth_error l i = Some x -> nth_error (l ++ r) i = Some x.
Proof. intro H. rewrite nth_error_app1; auto. apply nth_error_Some. congruence. Qed.
Lemma hleads_ext h h' i L : hleads h i L -> hleads (h ++ h') i L.
Proof. induction 1; [apply hl_top; auto; apply nth_app_old; auto|eapply hl_sub; eauto; apply nth_app_old; auto]. Qed.
Lemma hleads_lt h i L : hleads h i L -> (i < length h)%nat.
Proof. destruct 1 as [i n H _|i n p ls H _ _ _]; apply nth_error_Some; congruence. Qed.
Definition at_pos (h : list hnode) (p : option nat) (L : list bytes) : Prop := match p with None => L = [] | Some i => hleads h i L end.
Lemma hstep_ok col h p L lab : hinv h -> at_pos h p L -> exists h', exists i, hstep col (h, p) lab = (h ++ h', Some i) /\ hinv (h ++ h') /\ hleads (h ++ h') i (L ++ [lab]) /\ (length h' <= 1)%nat.
Proof.
  intros (Hp & Hu) Ha. unfold hstep. destruct (hfind h 0 p lab) as [i|] eqn:E.
  - apply hfind_some in E. destruct E as (k & x & -> & Hk & Hx & <-). cbn [plus]. exists [], k. rewrite app_nil_r. split; [reflexivity|]. split; [split; auto|]. split; [|cbn; lia].
    destruct p as [p|]; cbn in Ha; [eapply hl_sub; eauto|subst L; apply hl_top; auto].
  - exists [mkh lab col p], (length h). split; [reflexivity|].
    assert (Hn : nth_error (h ++ [mkh lab col p]) (length h) = Some (mkh lab col p)) by (rewrite nth_error_app2 by lia; rewrite Nat.sub_diag; reflexivity).
    assert (Hc : forall k x, nth_error (h ++ [mkh lab col p]) k = Some x -> nth_error h k = Some x \/ k = length h /\ x = mkh lab col p).
    { intros k x Hx. destruct (Nat.lt_ge_cases k (length h)); [left; rewrite nth_error_app1 in Hx by lia; exact Hx|]. right. assert (k < length (h ++ [mkh lab col p]))%nat by (apply nth_error_Some; congruence). rewrite app_length in *. cbn [length] in *. assert (k = length h) by lia. subst k. split; [reflexivity|congruence]. }
    split; [split|].
    + intros k x p0 Hx Hq. destruct (Hc k x Hx) as [Ho|(-> & ->)]; [eapply Hp; eauto|]. cbn in Hq. subst p. apply (hleads_lt h p0 L). exact Ha.
    + intros k j x y Hx Hy E1 E2. destruct (Hc k x Hx) as [Ho|(-> & ->)]; destruct (Hc j y Hy) as [Ho'|(-> & ->)].
      * eapply Hu; eauto.
      * exfalso. eapply hfind_none; eauto.
      * exfalso. cbn in E1, E2. symmetry in E1, E2. eapply hfind_none; eauto.
      * reflexivity.
    + split; [|cbn; lia]. destruct p as [p|]; cbn in Ha.
      * apply (hl_sub _ _ (mkh lab col (Some p)) p L); auto; [apply (hleads_lt h p L Ha)|apply hleads_ext, Ha].
      * subst L. apply (hl_top _ _ (mkh lab col None)); auto.
Qed.
Lemma hfold_ok col labs : forall h p L, hinv h -> at_pos h p L -> exists h' p', fold_left (hstep col) labs (h, p) = (h ++ h', p') /\ hinv (h ++ h') /\ at_pos (h ++ h') p' (L ++ labs) /\ (length h' <= length labs)%nat /\ (labs <> [] -> p' <> None) /\ (labs = [] -> p' = p).
Proof.
  induction labs as [|lab labs IH]; intros h p L Hi Ha.
  - exists [], p. rewrite !app_nil_r. repeat split; auto; try apply Hi; try congruence.
  - cbn [fold_left]. destruct (hstep_ok col h p L lab Hi Ha) as (h1 & i & E & Hi1 & Hl & Hn). rewrite E. destruct (IH (h ++ h1) (Some i) (L ++ [lab]) Hi1 Hl) as (h2 & p2 & E2 & Hi2 & Ha2 & Hn2 & Hs & Hz).
    exists (h1 ++ h2), p2. rewrite !app_assoc. rewrite <- (app_assoc L) in Ha2. cbn [app] in Ha2. repeat split; auto; try apply Hi2.
    + rewrite app_length. cbn [length]. lia.
    + intros _. destruct labs as [|l labs]; [rewrite (Hz eq_refl); discriminate|apply Hs; discriminate].
    + discriminate.
Qed.
Lemma get_id_ok h labs col : hinv h -> exists h' p, get_id h labs col = (h ++ h', p) /\ hinv (h ++ h') /\ (length h' <= length labs)%nat /\
  match p with None => labs = [] | Some i => labs <> [] /\ hleads (h ++ h') i labs end.
Proof.
  intro Hi. destruct (hfold_ok col labs h None [] Hi eq_refl) as (h' & p & E & Hi' & Ha & Hn & Hs & Hz). exists h', p. repeat split; auto; try apply Hi'. cbn [app] in Ha. destruct p as [i|].
  - split; [intros ->; specialize (Hz eq_refl); discriminate|exact Ha].
  - destruct labs; [reflexivity|]. exfalso. apply Hs; [discriminate|reflexivity].
Qed.
Lemma snoc_inj {A} (l1 l2 : list A) x y : l1 ++ [x] = l2 ++ [y] -> l1 = l2 /\ x = y.
Proof. apply app_inj_tail. Qed.
Lemma hleads_fun h i L1 L2 : hleads h i L1 -> hleads h i L2 -> L1 = L2.
Proof.
  intro H. revert L2. induction H as [i n Hn Hp|i n p ls Hn Hp Hl H IH]; intros L2 H2; inversion H2 as [i2 n2 Hn2 Hp2|i2 n2 p2 ls2 Hn2 Hp2 Hl2 Hx]; subst; rewrite Hn in Hn2; injection Hn2 as <-; try congruence.
  rewrite Hp in Hp2. injection Hp2 as <-. rewrite (IH _ Hx). reflexivity.
Qed.
Lemma hleads_ne h i L : hleads h i L -> L <> [].
Proof. destruct 1; [discriminate|]. destruct ls; discriminate. Qed.
Lemma hleads_inj h L : hinv h -> forall i j, hleads h i L -> hleads h j L -> i = j.
Proof.
  intros (Hp & Hu). induction L as [|x L IH] using rev_ind; intros i j Hi Hj; [exfalso; apply (hleads_ne _ _ _ Hi); reflexivity|].
  remember (L ++ [x]) as Lx eqn:EL. destruct Hi as [i1 n1 Hn1 Hp1|i1 n1 p1 ls1 Hn1 Hp1 Hl1 Hx1]; [change [hn_label n1] with ([] ++ [hn_label n1]) in EL, Hj|]; destruct (snoc_inj _ _ _ _ EL) as (E1 & E2);
  (remember (_ ++ [_]) as L2 eqn:EL2 in Hj; destruct Hj as [i2 n2 Hn2 Hp2|i2 n2 p2 ls2 Hn2 Hp2 Hl2 Hx2]; [change [hn_label n2] with ([] ++ [hn_label n2]) in EL2|]; destruct (snoc_inj _ _ _ _ EL2) as (F1 & F2)).
  - eapply Hu; eauto; congruence.
  - subst. exfalso. apply (hleads_ne _ _ _ Hx2). reflexivity.
  - subst. exfalso. apply (hleads_ne _ _ _ Hx1). reflexivity.
  - subst. pose proof (IH _ _ Hx1 Hx2) as ->. eapply Hu; eauto; congruence.
Qed.
(* the node of a path, as a function *)
Definition idf (h : list hnode) (L : list bytes) : N := match snd (get_id h L []) with Some i => N.of_nat i | None => 0 end.
Lemma idf_ok h i L : hinv h -> hleads h i L -> idf h L = N.of_nat i.
Proof.
  intros Hi Hl. destruct (get_id_ok h L [] Hi) as (h' & p & E & Hi' & _ & Hp). unfold idf. rewrite E. cbn [snd]. destruct p as [j|]; [|subst L; exfalso; apply (hleads_ne _ _ _ Hl); reflexivity].
  destruct Hp as (_ & Hp). f_equal. apply (hleads_inj _ _ Hi' _ _ Hp). apply hleads_ext, Hl.
Qed.

(* ---------------- the nodes as JSON ---------------- *)
Definition hbound (h : list hnode) : Prop := N.of_nat (length h) <= W64.
Definition node_json (n : hnode) : json :=
  JObj ([(bs "label", JStr (kept (hn_label n))); (bs "column", JStr (kept (hn_col n)))] ++ match hn_par n with Some p => [(bs "parent", JNum (dec (N.of_nat p)))] | None => [] end).
Lemma jnat_dec n : u64_ok n -> jnat (dec n) = n.
Proof.
  intro H. destruct (dec_json n H) as (_ & H2 & H3). unfold jnat. assert (G : forall l a, fold_left (fun a c => (a * 10 + Z.of_N (c - 48))%Z) l (Z.of_N a) = Z.of_N (fold_left (fun a c => a * 10 + (c - 48)) l a)).
  { induction l as [|c l IH]; intro a; [reflexivity|]. cbn [fold_left]. rewrite <- IH. f_equal. lia. }
  pose proof (G (dec n) 0) as G0. cbn [Z.of_N] in G0. rewrite H3 in G0. lia.
Qed.
Lemma leads_ok h i L : hbound h -> hleads h i L -> leads (map node_json h) (N.of_nat i) (map kept L).
Proof.
  intros Hb. induction 1 as [i n Hn Hp|i n p ls Hn Hp Hl H IH].
  - apply (ld_top _ _ _ (kept (hn_col n))). rewrite Nnat.Nat2N.id. rewrite (map_nth_error _ _ _ Hn). unfold node_json. rewrite Hp. reflexivity.
  - rewrite map_app. cbn [map]. apply (ld_sub _ _ _ (kept (hn_col n)) (dec (N.of_nat p))). 
    + rewrite Nnat.Nat2N.id. rewrite (map_nth_error _ _ _ Hn). unfold node_json. rewrite Hp. reflexivity.
    + rewrite jnat_dec; [exact IH|]. pose proof (hleads_lt _ _ _ H). unfold hbound, u64_ok, W64 in *. lia.
Qed.
Lemma node_reads h n : hinv h -> hbound h -> In n h -> reads (node_json n) (node_text n).
Proof.
  intros (Hp & _) Hb Hi. apply In_nth_error in Hi. destruct Hi as (i & Hi).
  set (its := [mkmi [32] (bs "label") [32] (quoted (hn_label n)) (JStr (clean (hn_label n))); mkmi [32] (bs "column") [32] (quoted (hn_col n)) (JStr (clean (hn_col n)))] ++
     match hn_par n with Some p => [mkmi [32] (bs "parent") [32] (dec (N.of_nat p)) (JNum (dec (N.of_nat p)))] | None => [] end).
  assert (Hok : Forall mi_ok its).
  { unfold its. constructor; [split; [reflexivity|split; [reflexivity|apply reads_str]]|]. constructor; [split; [reflexivity|split; [reflexivity|apply reads_str]]|]. destruct (hn_par n) as [p|] eqn:Ep; [|constructor]. constructor; [|constructor].
    split; [reflexivity|split; [reflexivity|]]. apply reads_num. apply dec_json. assert (i < length h)%nat by (apply nth_error_Some; congruence). pose proof (Hp _ _ _ Hi Ep). unfold hbound, u64_ok, W64 in *. lia. }
  pose proof (reads_obj its [32] eq_refl Hok) as R.
  assert (Ev : JObj (map mi_val its) = node_json n). { unfold its, node_json. destruct (hn_par n); reflexivity. }
  assert (Et : 123 :: seps [44%N] (map mi_text its) ++ [32] ++ [125] = node_text n).
  { unfold its, node_text. change (bs "{ ") with ([123; 32] : bytes). change (bs ": ") with ([58; 32] : bytes). change (bs ", ") with ([44; 32] : bytes). change (bs " }") with ([32; 125] : bytes).
    destruct (hn_par n) as [p|]; cbn [app map seps]; unfold mi_text; cbn [mi_w mi_k mi_w2 mi_t]; [generalize (dec (N.of_nat p)) as t|]; generalize (quoted (bs "label")), (quoted (bs "column")), (quoted (bs "parent")), (quoted (hn_label n)), (quoted (hn_col n)); clear; intros; repeat (rewrite <- !app_assoc; cbn [app]); reflexivity. }
  rewrite Ev, Et in R. exact R.
Qed.
