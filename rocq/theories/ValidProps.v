(* C66: the validator service finds exactly the nesting errors *)
From Verif Require Import Base VariantModel VariantSpec TreeModel TreeSpec TreeProofs TreeProofs2 RuntimeModel RuntimeSpec RuntimeProofs RuntimeProofs2 RuntimeProps RuntimeProps2 RuntimeProps3 RuntimeProps4
  ValidModel ValidSpec ValidProofs.
From Coq Require Import Sorted.

Section One.
Variables (nest : N) (att : N -> attr).
Lemma failed_bad evs : failed nest evs -> ~ nesting_ok evs.
Proof.
  intros [H|(a & _ & H)] (N1 & N2); [apply (ok_iff eqp eqp_ok) in N1; contradiction|]. specialize (N2 a). apply (ok_iff veqb veqb_eq) in N2. contradiction.
Qed.
Lemma J_good evs s P : Forall (ev_ok nest att) evs -> J nest att evs s P -> nesting_ok evs.
Proof.
  intros F HJ. split; [apply (ok_iff eqp eqp_ok); rewrite (J_pair _ _ _ _ _ HJ); discriminate|]. intro a. destruct (N.eq_dec a nest) as [->|Ha]; [rewrite (regions_nest nest att) by auto; exists []; apply op_wn; constructor|].
  apply (ok_iff veqb veqb_eq). rewrite (J_reg _ _ _ _ _ HJ a Ha). discriminate.
Qed.
Lemma well_nested_ok evs : well_nested evs -> nesting_ok evs.
Proof. intros (H1 & H2). split; [exists []; apply op_wn; auto|intro a; exists []; apply op_wn; auto]. Qed.
Lemma final_nil s : smap_ok (sv_stk s) -> final_msgs nest s = [] <-> forall a, a <> nest -> sget (sv_stk s) a = [].
Proof.
  intro Hm. unfold final_msgs. split.
  - intros H a Ha. destruct (sget (sv_stk s) a) as [|v l] eqn:E; auto. assert (Hin : In (a, v :: l) (sv_stk s)) by (apply sget_in; auto; split; auto; discriminate).
    assert (Z : In (a, v :: l) (filter (fun p => negb (fst p =? nest) && negb (match snd p with [] => true | _ => false end)) (sv_stk s))) by (apply filter_In; split; auto; cbn; destruct (N.eqb_spec a nest); [contradiction|reflexivity]).
    destruct (filter _ _); [destruct Z|discriminate].
  - intro H. destruct (filter _ _) as [|p l] eqn:E; auto. exfalso. assert (Z : In p (p :: l)) by (left; auto). rewrite <- E in Z. apply filter_In in Z. destruct Z as (Z1 & Z2). destruct p as [a x]. apply andb_true_iff in Z2. destruct Z2 as (Z2 & _). cbn in Z2. apply negb_true_iff, N.eqb_neq in Z2.
    apply sget_in in Z1; auto. destruct Z1 as (Z1 & Z3). rewrite H in Z1 by auto. congruence.
Qed.
Lemma final_msg s a vs : smap_ok (sv_stk s) -> In (MOpen a vs) (final_msgs nest s) <-> a <> nest /\ vs <> [] /\ sget (sv_stk s) a = vs.
Proof.
  intro Hm. unfold final_msgs. rewrite in_map_iff. split.
  - intros ([b x] & E & Hin). cbn in E. injection E as -> ->. apply filter_In in Hin. destruct Hin as (H1 & H2). apply andb_true_iff in H2. destruct H2 as (H2 & _). cbn in H2. apply negb_true_iff, N.eqb_neq in H2. apply sget_in in H1; auto. tauto.
  - intros (H1 & H2 & H3). exists (a, vs). split; auto. apply filter_In. split; [apply sget_in; auto|]. cbn. destruct (N.eqb_spec a nest); [contradiction|]. destruct vs; [contradiction|reflexivity].
Qed.
End One.

(* 1. One stack (a thread, or the process): no error is found while the program runs exactly if every
   end closes the innermost open region *)
Theorem C66_stack : forall nest att evs, Forall (ev_ok nest att) evs -> (sv_err (s_run nest evs) = false <-> nesting_ok evs).
Proof.
  intros nest att evs F. destruct (J_run nest att evs F) as (H1 & H2). split.
  - intro E. destruct (H1 E) as (P & HJ). eapply J_good; eauto.
  - intro Hok. destruct (sv_err (s_run nest evs)) eqn:E; auto. exfalso. eapply failed_bad; eauto.
Qed.
(* 2. ... and none at the end exactly if moreover everything is closed *)
Theorem C66_final : forall nest att evs, Forall (ev_ok nest att) evs -> (check_final nest (s_run nest evs) = false <-> well_nested evs).
Proof.
  intros nest att evs F. destruct (J_run nest att evs F) as (H1 & H2). unfold check_final. destruct (sv_err (s_run nest evs)) eqn:E; cbn [orb].
  - split; [discriminate|]. intro Hw. exfalso. apply (failed_bad nest evs (H2 eq_refl)). apply well_nested_ok; auto.
  - destruct (H1 eq_refl) as (P & HJ). pose proof (J_map _ _ _ _ _ HJ) as Hm. pose proof (final_nil nest (s_run nest evs) Hm) as FN.
    assert (Z : (match final_msgs nest (s_run nest evs) with [] => false | _ => true end) = false <-> final_msgs nest (s_run nest evs) = []) by (destruct (final_msgs _ _); split; congruence). rewrite Z, FN. clear Z FN. split.
    + intro H. split.
      * apply (wn_iff eqp eqp_ok). rewrite (J_pair _ _ _ _ _ HJ). f_equal. destruct P as [|[a v] P]; auto. exfalso. pose proof (J_ids _ _ _ _ _ HJ) as Hi. inversion Hi as [|? ? (I1 & I2) I3]; subst. cbn in I1, I2.
        pose proof (J_own _ _ _ _ _ HJ a I2 I1) as Ho. rewrite (H a I2) in Ho. cbn in Ho. rewrite N.eqb_refl in Ho. discriminate.
      * intro a. destruct (N.eq_dec a nest) as [->|Ha]; [rewrite (regions_nest nest att) by auto; constructor|]. apply (wn_iff veqb veqb_eq). rewrite (J_reg _ _ _ _ _ HJ a Ha), (H a Ha). reflexivity.
    + intros (W1 & W2) a Ha. specialize (W2 a). apply (wn_iff veqb veqb_eq) in W2. rewrite (J_reg _ _ _ _ _ HJ a Ha) in W2. injection W2 as W2. rewrite <- (rev_involutive (sget _ a)), W2. reflexivity.
Qed.
(* 3. the messages: open regions at the end, outermost first *)
Theorem C66_open_regions : forall nest att evs a vs, Forall (ev_ok nest att) evs -> nesting_ok evs ->
  (In (MOpen a vs) (final_msgs nest (s_run nest evs)) <-> vs <> [] /\ opened (regions_of a evs) vs).
Proof.
  intros nest att evs a vs F Hok. destruct (J_run nest att evs F) as (H1 & H2). destruct (sv_err (s_run nest evs)) eqn:E; [exfalso; eapply failed_bad; eauto|]. destruct (H1 eq_refl) as (P & HJ).
  rewrite (final_msg nest att (s_run nest evs) a vs (J_map _ _ _ _ _ HJ)). rewrite (opened_iff veqb veqb_eq). destruct (N.eq_dec a nest) as [->|Ha].
  - rewrite (regions_nest nest att) by auto. cbn. split; [intros (Z & _); contradiction|]. intros (Z & E2). injection E2 as E2. exfalso. apply Z. rewrite <- (rev_involutive vs), <- E2. reflexivity.
  - rewrite (J_reg _ _ _ _ _ HJ a Ha). split; [intros (_ & Z & <-); auto|]. intros (Z & E2). injection E2 as E2. split; auto. split; auto. rewrite <- (rev_involutive (sget _ a)), E2. apply rev_involutive.
Qed.
(* ... and a wrong end *)
Theorem C66_end_message : forall nest att evs a v, Forall (ev_ok nest att) evs -> ev_ok nest att (VE a v) -> nesting_ok evs ->
  exists vs ps, opened (regions_of (at_id a) evs) vs /\ opened (nested_regions evs) ps /\
  snd (check_end nest (s_run nest evs) a v) =
    match rev vs with
    | [] => [MNoBegin (at_id a) v]
    | w :: _ => match (if nested a then rev ps else []) with
                | (b, _) :: _ => if negb (b =? at_id a) then [MAttr (at_id a) v b] else if veqb v w then [] else [MValue (at_id a) v w]
                | [] => if veqb v w then [] else [MValue (at_id a) v w]
                end
    end.
Proof.
  intros nest att evs a v F (K1 & K2 & K3 & _) Hok. destruct (J_run nest att evs F) as (H1 & H2). destruct (sv_err (s_run nest evs)) eqn:E; [exfalso; eapply failed_bad; eauto|]. destruct (H1 eq_refl) as (P & HJ). cbn [vattr] in *.
  exists (sget (sv_stk (s_run nest evs)) (at_id a)), (rev P). split; [apply (opened_iff veqb veqb_eq); apply (J_reg _ _ _ _ _ HJ); auto|]. split; [apply (opened_iff eqp eqp_ok); rewrite rev_involutive; apply (J_pair _ _ _ _ _ HJ)|].
  unfold check_end, pop. rewrite E, rev_involutive. pose proof (J_val _ _ _ _ _ HJ _ K1) as Hv. destruct (rev (sget (sv_stk (s_run nest evs)) (at_id a))) as [|w r] eqn:Er; [reflexivity|].
  assert (Hw : is_inv w = false). { assert (w <> VInv) by (rewrite Forall_forall in Hv; apply Hv, in_rev; rewrite Er; left; auto). destruct w; auto; contradiction. } rewrite Hw.
  destruct (nested a) eqn:En; cbn [andb]; [|destruct (veqb v w); reflexivity].
  rewrite (sget_sput _ _ _ _ (J_map _ _ _ _ _ HJ)). destruct (N.eqb_spec (at_id a) nest); [contradiction|]. rewrite (J_nest _ _ _ _ _ HJ).
  assert (Hn : nested (att (at_id a)) = true) by (rewrite <- K3; auto). pose proof (J_own _ _ _ _ _ HJ _ K1 Hn) as Ho. rewrite Er in Ho. destruct P as [|[b x] P]; [discriminate|]. cbn [map fst vid].
  rewrite (N.eqb_sym b). destruct (at_id a =? b); cbn [negb]; [|reflexivity]. destruct (veqb v w); reflexivity.
Qed.

(* ---- all stacks ---- *)
Lemma tget_tput l t s u : tget (tput l t s) u = if t =? u then s else tget l u.
Proof.
  induction l as [|[x y] l IH]; cbn; [destruct (t =? u); reflexivity|]. destruct (N.eqb_spec x t) as [->|Hn]; cbn; [destruct (t =? u); reflexivity|]. rewrite IH. destruct (N.eqb_spec x u) as [->|]; [destruct (N.eqb_spec t u); [congruence|reflexivity]|reflexivity].
Qed.
Lemma tput_keys l t s x : In x (map fst (tput l t s)) <-> x = t \/ In x (map fst l).
Proof. induction l as [|[u y] l IH]; cbn; [intuition|]. destruct (N.eqb_spec u t) as [->|]; cbn; [intuition|]. rewrite IH. intuition. Qed.
Lemma tput_nodup l t s : NoDup (map fst l) -> NoDup (map fst (tput l t s)).
Proof.
  induction l as [|[u y] l IH]; cbn; intro H; [repeat constructor; auto|]. inversion H; subst. destruct (N.eqb_spec u t) as [->|]; cbn; constructor; auto. rewrite tput_keys. intros [->|Z]; auto.
Qed.
Lemma tget_in l t s : NoDup (map fst l) -> In (t, s) l -> tget l t = s.
Proof.
  induction l as [|[u y] l IH]; cbn; intros H Hin; [destruct Hin|]. inversion H; subst. destruct Hin as [E|Hin]; [injection E as -> ->; rewrite N.eqb_refl; reflexivity|].
  destruct (N.eqb_spec u t) as [->|]; [exfalso; apply H2; apply (in_map fst) in Hin; exact Hin|auto].
Qed.
Lemma tget_notin l t : ~ In t (map fst l) -> tget l t = sv_new.
Proof. induction l as [|[u y] l IH]; cbn; auto. intro H. destruct (N.eqb_spec u t); [exfalso; auto|auto]. Qed.
Record VJ (nest : N) (evs : list (N * vev)) (s : vst) : Prop := {
  VJ_proc : vs_proc s = s_run nest (on_process evs);
  VJ_thr : forall t, tget (vs_thr s) t = s_run nest (on_thread t evs);
  VJ_nd : NoDup (map fst (vs_thr s));
  VJ_err : vs_errors s <> 0%nat -> sv_err (vs_proc s) = true \/ exists t, In t (map fst (vs_thr s)) /\ sv_err (tget (vs_thr s) t) = true }.
Lemma on_stack_err nest s e : snd (fst (on_stack nest s e)) = sv_err (fst (fst (on_stack nest s e))).
Proof.
  destruct e as [a v|a v]; cbn; [unfold check_begin; destruct (sv_err s) eqn:E; cbn; auto|]. unfold check_end. destruct (sv_err s) eqn:E; cbn; auto. destruct (pop _ _) as [w m]. destruct (is_inv w); [reflexivity|].
  destruct (if nested a then pop m nest else (VInv, m)) as [wa m2]. destruct (nested a && _); [reflexivity|]. destruct (negb (veqb v w)); reflexivity.
Qed.
Lemma err_stays nest s e : sv_err s = true -> sv_err (fst (fst (on_stack nest s e))) = true.
Proof. intro H. rewrite on_err by auto. auto. Qed.
Lemma VJ_run nest evs : VJ nest evs (v_run nest evs).
Proof.
  induction evs as [|[t e] evs IH] using rev_ind; [constructor; cbn; auto; first [constructor|congruence]|].
  unfold v_run. rewrite fold_left_app. fold (v_run nest evs). cbn [fold_left]. destruct IH as [J1 J2 J3 J4]. set (s := v_run nest evs) in *. clearbody s.
  assert (E1 : on_process (evs ++ [(t, e)]) = on_process evs ++ match scope_of (vattr e) with ScProcess => [e] | _ => [] end) by (unfold on_process; rewrite flat_map_app; cbn; rewrite app_nil_r; reflexivity).
  assert (E2 : forall u, on_thread u (evs ++ [(t, e)]) = on_thread u evs ++ match scope_of (vattr e) with ScProcess => [] | _ => if t =? u then [e] else [] end) by (intro u; unfold on_thread; rewrite flat_map_app; cbn; rewrite app_nil_r; reflexivity).
  assert (Thr : scope_of (vattr e) <> ScProcess -> VJ nest (evs ++ [(t, e)]) (let '(p, b, l) := on_stack nest (tget (vs_thr s) t) e in mkvst (vs_proc s) (tput (vs_thr s) t p) (bump b (vs_errors s)) (vs_log s ++ l))).
  { intro Hs. pose proof (on_stack_err nest (tget (vs_thr s) t) e) as Eb. destruct (on_stack nest (tget (vs_thr s) t) e) as [[p b] l] eqn:Eo. cbn [fst snd] in Eb. constructor; cbn [vs_proc vs_thr vs_errors].
    - rewrite E1. destruct (scope_of (vattr e)); try contradiction; rewrite app_nil_r; auto.
    - intro u. rewrite tget_tput, E2. destruct (scope_of (vattr e)); try contradiction; (destruct (N.eqb_spec t u) as [<-|]; [rewrite s_snoc, <- J2, Eo; reflexivity|rewrite app_nil_r; auto]).
    - apply tput_nodup; auto.
    - intro Hb. destruct b; cbn [bump] in Hb.
      + right. exists t. split; [apply tput_keys; auto|]. rewrite tget_tput, N.eqb_refl. auto.
      + destruct (J4 Hb) as [Z|(u & U1 & U2)]; [auto|]. right. exists u. split; [apply tput_keys; auto|]. rewrite tget_tput. destruct (N.eqb_spec t u) as [->|]; auto.
        pose proof (err_stays nest _ e U2) as Z. rewrite Eo in Z. exact Z. }
  unfold v_step. destruct (scope_of (vattr e)) eqn:Es; [apply Thr; discriminate| |apply Thr; discriminate]. clear Thr.
  pose proof (on_stack_err nest (vs_proc s) e) as Eb. destruct (on_stack nest (vs_proc s) e) as [[p b] l] eqn:Eo. cbn [fst snd] in Eb. constructor; cbn [vs_proc vs_thr vs_errors]; auto.
  - rewrite E1, s_snoc, <- J1, Eo. reflexivity.
  - intro u. rewrite E2, app_nil_r. auto.
  - intro Hb. destruct b; cbn [bump] in Hb; [auto|]. destruct (J4 Hb) as [Z|Z]; auto. left. pose proof (err_stays nest _ e Z) as Z2. rewrite Eo in Z2. exact Z2.
Qed.
Lemma v_final_zero nest s : v_final nest s = 0%nat <-> vs_errors s = 0%nat /\ check_final nest (vs_proc s) = false /\ forall p, In p (vs_thr s) -> check_final nest (snd p) = false.
Proof.
  unfold v_final. assert (G : forall l n, fold_left (fun n p => bump (check_final nest (snd p)) n) l n = 0%nat <-> n = 0%nat /\ forall p : N * sv, In p l -> check_final nest (snd p) = false).
  { induction l as [|p l IH]; intro n; cbn [fold_left]; [split; [intros ->; split; auto; intros ? []|intros (H & _); auto]|]. rewrite IH. destruct (check_final nest (snd p)) eqn:E; cbn [bump].
    - split; [intros (Z & _); discriminate|]. intros (_ & H). rewrite (H p (or_introl eq_refl)) in E. discriminate.
    - split; intros (H1 & H2); split; auto; [intros q [<-|Hq]; auto|intros q Hq; apply H2; right; auto]. }
  rewrite G. destruct (check_final nest (vs_proc s)); cbn [bump]; [split; [intros (Z & _); discriminate|intros (_ & Z & _); discriminate]|tauto].
Qed.
(* 4. The service reports "Annotation nesting errors found" exactly if the regions of some thread, or
   of the process, are not properly nested and closed *)
Theorem C66_report : forall nest att evs, Forall (fun x => ev_ok nest att (snd x)) evs ->
  (errors_found nest (v_run nest evs) = false <-> well_nested (on_process evs) /\ forall t, well_nested (on_thread t evs)).
Proof.
  intros nest att evs F. destruct (VJ_run nest evs) as [J1 J2 J3 J4]. set (s := v_run nest evs) in *. clearbody s.
  assert (Fp : Forall (ev_ok nest att) (on_process evs)). { apply Forall_flat_map. eapply Forall_impl; [|exact F]. intros [t e] He. cbn [fst snd] in *. destruct (scope_of (vattr e)); repeat constructor; apply He. }
  assert (Ft : forall t, Forall (ev_ok nest att) (on_thread t evs)). { intro t. apply Forall_flat_map. eapply Forall_impl; [|exact F]. intros [u e] He. cbn [fst snd] in *. destruct (scope_of (vattr e)); destruct (u =? t); repeat constructor; apply He. }
  unfold errors_found. assert (Z : Nat.ltb 0 (v_final nest s) = false <-> v_final nest s = 0%nat) by (rewrite Nat.ltb_ge; lia). rewrite Z, v_final_zero. clear Z.
  rewrite <- (C66_final nest att _ Fp). split.
  - intros (E1 & E2 & E3). rewrite <- J1. split; auto. intro t. apply (C66_final nest att _ (Ft t)). rewrite <- J2.
    destruct (in_dec N.eq_dec t (map fst (vs_thr s))) as [Hin|Hn]; [|rewrite tget_notin by auto; reflexivity]. apply in_map_iff in Hin. destruct Hin as ([u x] & E4 & Hin). cbn in E4. subst u. rewrite (tget_in _ _ _ J3 Hin). apply (E3 _ Hin).
  - rewrite <- J1. intros (E1 & E2). assert (Et : forall t, check_final nest (tget (vs_thr s) t) = false) by (intro t; rewrite J2; apply (C66_final nest att _ (Ft t)); auto).
    split; [|split; auto].
    + destruct (vs_errors s) eqn:En; auto. exfalso. destruct (J4 ltac:(discriminate)) as [Z|(t & _ & Z)]; [unfold check_final in E1; rewrite Z in E1; discriminate|]. specialize (Et t). unfold check_final in Et. rewrite Z in Et. discriminate.
    + intros [t x] Hin. cbn. rewrite <- (tget_in _ _ _ J3 Hin). apply Et.
Qed.
Print Assumptions C66_stack. Print Assumptions C66_final. Print Assumptions C66_open_regions. Print Assumptions C66_end_message. Print Assumptions C66_report.

(* ---- examples ---- *)
Definition v_fun : attr := mkattr 12 (20 + 256).
Definition v_phase : attr := mkattr 13 (20 + 256).
Definition v_iter : attr := mkattr 14 (20 + 1).
Definition v_proc : attr := mkattr 15 (12 + 256).
Definition v_att (a : N) : attr := if a =? 12 then v_fun else if a =? 13 then v_phase else if a =? 14 then v_iter else if a =? 15 then v_proc else mkattr a 0.
Definition ex_v : list (N * vev) :=
  [(0, VB v_fun (VInt 1)); (1, VB v_fun (VInt 5)); (0, VB v_iter (VInt 7)); (0, VB v_phase (VInt 2)); (2, VB v_proc (VInt 9)); (0, VE v_iter (VInt 7)); (0, VE v_phase (VInt 2)); (1, VE v_fun (VInt 5)); (3, VE v_proc (VInt 9)); (0, VE v_fun (VInt 1))].
Example C66_ex : Forall (fun x => ev_ok 40 v_att (snd x)) ex_v /\ errors_found 40 (v_run 40 ex_v) = false /\ well_nested (on_thread 0 ex_v) /\
  errors_found 40 (v_run 40 (ex_v ++ [(0, VB v_fun (VInt 1)); (0, VB v_phase (VInt 2)); (0, VE v_fun (VInt 1)); (0, VE v_phase (VInt 2))])) = true /\
  v_final_log 40 (v_run 40 (ex_v ++ [(0, VB v_fun (VInt 1)); (0, VB v_phase (VInt 2)); (0, VE v_fun (VInt 1)); (0, VE v_phase (VInt 2))])) = [MAttr 12 (VInt 1) 13; MOpen 13 [VInt 2]].
Proof.
  assert (F : Forall (fun x => ev_ok 40 v_att (snd x)) ex_v) by (repeat constructor; vm_compute; discriminate || auto).
  split; auto. split; [vm_compute; reflexivity|]. split; [apply (C66_report 40 v_att ex_v F); vm_compute; reflexivity|]. split; vm_compute; reflexivity.
Qed.
(* Limits. A region with an empty value is reported although it is properly closed *)
Theorem C66_empty_refuted : exists evs, well_nested (on_thread 0 evs) /\ (forall t, t <> 0 -> on_thread t evs = []) /\ on_process evs = [] /\ errors_found 40 (v_run 40 evs) = true.
Proof.
  exists [(0, VB v_fun VInv); (0, VE v_fun VInv)]. split.
  - split; [apply (wn_wrap (12, VInv) []); constructor|]. intro a. change (wn (regions_of a [VB v_fun VInv; VE v_fun VInv])). unfold regions_of. cbn [flat_map vattr].
    change (at_id v_fun) with 12. destruct (12 =? a); cbn [app]; [apply (wn_wrap VInv []); constructor|constructor].
  - split; [|split; reflexivity]. intros t Ht. cbn. destruct t; [contradiction|reflexivity].
Qed.
(* An end without an open region is never reported: Caliper suppresses its callback *)
Definition ev_of_log (att : N -> attr) (c : N) (e : ev) : list (N * vev) :=
  if ev_chn e =? c then match ev_kind e with PreBegin => [(ev_thr e, VB (att (ev_attr e)) (ev_val e))] | PreEnd => [(ev_thr e, VE (att (ev_attr e)) (ev_val e))] | _ => [] end else [].
Theorem C66_unmatched_refuted : exists s xs,
  let ops := mk_attr_ops ++ [(0, OActivate 7); (0, OBegin a_fun (VInt 1)); (0, OEnd a_fun); (0, OEnd a_fun)] in
  rt_history ops s xs /\ skipn 5 xs = [ODone; ODone; OError] /\
  errors_found 40 (v_run 40 (flat_map (ev_of_log (fun a => mkattr a (20 + 256)) 7) (r_log s))) = false /\ length (r_log s) = 3%nat.
Proof.
  eexists _, _. cbn zeta. split; [apply mk_history; vm_compute; reflexivity|]. split; [reflexivity|]. split; vm_compute; reflexivity.
Qed.
Print Assumptions C66_empty_refuted. Print Assumptions C66_unmatched_refuted.
