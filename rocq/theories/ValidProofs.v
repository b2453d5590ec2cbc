(* Proofs for C66 *)
From Verif Require Import Base VariantModel VariantSpec TreeModel TreeProofs RuntimeModel ValidModel ValidSpec.
From Coq Require Import Sorted.

(* ---- brackets and stacks (top first) ---- *)
Section B.
Context {A : Type}.
Variable eqA : A -> A -> bool.
Hypothesis eqA_ok : forall x y, eqA x y = true <-> x = y.
Definition bstep (s : option (list A)) (b : bool * A) : option (list A) :=
  match s with
  | None => None
  | Some l => if fst b then Some (snd b :: l) else match l with [] => None | y :: r => if eqA y (snd b) then Some r else None end
  end.
Definition brun (l : list (bool * A)) (s : option (list A)) : option (list A) := fold_left bstep l s.
Lemma brun_app l1 l2 s : brun (l1 ++ l2) s = brun l2 (brun l1 s).
Proof. apply fold_left_app. Qed.
Lemma brun_none l : brun l None = None.
Proof. induction l; cbn; auto. Qed.
Lemma wn_run (l : list (bool * A)) : wn l -> forall s, brun l (Some s) = Some s.
Proof.
  induction 1 as [|l1 l2 H1 I1 H2 I2|x l H IH]; intro s; [reflexivity|rewrite brun_app, I1; apply I2|].
  change (brun (l ++ [(false, x)]) (Some (x :: s)) = Some s). rewrite brun_app, IH. cbn. rewrite (proj2 (eqA_ok x x) eq_refl). reflexivity.
Qed.
Lemma opened_run (l : list (bool * A)) vs : opened l vs -> brun l (Some []) = Some (rev vs).
Proof.
  induction 1 as [l H|l vs v w H IH Hw]; [apply wn_run; auto|]. rewrite brun_app, IH. change (brun w (Some (v :: rev vs)) = Some (rev (vs ++ [v]))). rewrite wn_run, rev_app_distr by auto. reflexivity.
Qed.
Lemma opened_app (l : list (bool * A)) vs w : opened l vs -> wn w -> opened (l ++ w) vs.
Proof.
  intros H Hw. destruct H as [l H|l vs v w0 H H0]; [apply op_wn; constructor; auto|]. rewrite <- app_assoc. cbn [app]. apply op_open; auto. constructor; auto.
Qed.
Lemma run_opened (l : list (bool * A)) : forall s, brun l (Some []) = Some s -> opened l (rev s).
Proof.
  induction l as [|[b x] l IH] using rev_ind; intros s E; [cbn in E; injection E as <-; apply op_wn; constructor|].
  rewrite brun_app in E. destruct (brun l (Some [])) as [s0|] eqn:E0; [|discriminate]. specialize (IH s0 eq_refl). cbn in E. destruct b; cbn in E.
  - injection E as <-. cbn [rev]. apply op_open; auto. constructor.
  - destruct s0 as [|y r]; [discriminate|]. destruct (eqA y x) eqn:Ey; [|discriminate]. injection E as <-. apply eqA_ok in Ey. subst y. cbn [rev] in IH.
    remember (rev r ++ [x]) as vs eqn:Ev. destruct IH as [l H|l vs v w H Hw]; [destruct (rev r); discriminate|]. apply app_inj_tail in Ev. destruct Ev as (-> & ->).
    rewrite <- app_assoc. cbn [app]. apply opened_app; auto. apply wn_wrap. auto.
Qed.
Lemma opened_iff (l : list (bool * A)) vs : opened l vs <-> brun l (Some []) = Some (rev vs).
Proof. split; [apply opened_run|]. intro E. apply run_opened in E. rewrite rev_involutive in E. auto. Qed.
Lemma wn_iff (l : list (bool * A)) : wn l <-> brun l (Some []) = Some [].
Proof. split; [intro; apply wn_run; auto|]. intro E. apply run_opened in E. cbn in E. remember [] as vs eqn:Ev. destruct E; auto. destruct vs; discriminate. Qed.
Lemma ok_iff (l : list (bool * A)) : (exists vs, opened l vs) <-> brun l (Some []) <> None.
Proof.
  split; [intros (vs & H); rewrite (opened_run _ _ H); discriminate|]. intro H. destruct (brun l (Some [])) as [s|] eqn:E; [|contradiction]. exists (rev s). apply run_opened; auto.
Qed.
End B.

(* ---- the map of stacks ---- *)
Definition skeys (m : stacks) : list N := map fst m.
Definition smap_ok (m : stacks) : Prop := StronglySorted N.lt (skeys m) /\ Forall (fun p => snd p <> []) m.
Lemma sget_notin m a : ~ In a (skeys m) -> sget m a = [].
Proof. induction m as [|[b x] m IH]; cbn; auto. intro H. destruct (N.eqb_spec b a); [exfalso; auto|apply IH; auto]. Qed.
Lemma sput_keys m a l x : In x (skeys (sput m a l)) -> x = a \/ In x (skeys m).
Proof.
  induction m as [|[b y] m IH]; cbn; [destruct l; cbn; intuition|]. destruct (N.eqb_spec b a); [destruct l; cbn; intuition|]. destruct (a <? b); [destruct l; cbn; intuition|]. cbn. intros [H|H]; auto. apply IH in H. tauto.
Qed.
Lemma sput_ok m a l : smap_ok m -> smap_ok (sput m a l).
Proof.
  intros (S1 & F1). induction m as [|[b y] m IH]; cbn; [destruct l; split; repeat constructor; discriminate|]. cbn in S1. inversion S1 as [|? ? S2 S3]; subst. inversion F1 as [|? ? F2 F3]; subst. destruct (IH S2 F3) as (S4 & F4).
  destruct (N.eqb_spec b a) as [->|Hn]; [destruct l; [split; auto|split; constructor; auto; discriminate]|]. destruct (N.ltb_spec a b) as [Hl|Hl].
  - destruct l; split; auto; constructor; auto; [|discriminate]. constructor; auto. eapply Forall_impl; [|exact S3]. cbn. intros; lia.
  - split; constructor; auto. fold (skeys (sput m a l)). apply Forall_forall. intros x Hx. apply sput_keys in Hx. rewrite Forall_forall in S3. destruct Hx as [Hx|Hx]; [rewrite Hx; cbn [fst]; lia|apply S3; auto].
Qed.
Lemma sget_sput m a l b : smap_ok m -> sget (sput m a l) b = if a =? b then l else sget m b.
Proof.
  intros (S1 & F1). induction m as [|[c y] m IH]; cbn [sput sget].
  - destruct l; cbn; destruct (a =? b); reflexivity.
  - cbn in S1. inversion S1 as [|? ? S2 S3]; subst. inversion F1; subst. rewrite Forall_forall in S3. specialize (IH S2 H2). destruct (N.eqb_spec c a) as [->|Hn].
    + destruct (N.eqb_spec a b) as [->|Hb].
      * destruct l; cbn [sget]; [|rewrite N.eqb_refl; reflexivity]. apply sget_notin. intro Z. apply S3 in Z. lia.
      * destruct l; cbn [sget]; [reflexivity|]. destruct (N.eqb_spec a b); [contradiction|reflexivity].
    + destruct (N.ltb_spec a c) as [Hl|Hl].
      * destruct (N.eqb_spec a b) as [->|Hb].
        -- destruct l; cbn [sget]; [|rewrite N.eqb_refl; reflexivity]. destruct (N.eqb_spec c b); [contradiction|]. apply sget_notin. intro Z. apply S3 in Z. lia.
        -- destruct l; cbn [sget]; [reflexivity|]. destruct (N.eqb_spec a b); [contradiction|reflexivity].
      * cbn [sget]. rewrite IH. destruct (N.eqb_spec c b) as [->|]; [destruct (N.eqb_spec a b); [congruence|reflexivity]|reflexivity].
Qed.
Lemma sget_in m a x : smap_ok m -> In (a, x) m <-> sget m a = x /\ x <> [].
Proof.
  intros (S1 & F1). induction m as [|[c y] m IH]; cbn [sget]; [split; [intros []|intros (<- & Z); contradiction]|].
  cbn in S1. inversion S1 as [|? ? S2 S3]; subst. inversion F1; subst. rewrite Forall_forall in S3. destruct (N.eqb_spec c a) as [->|Hn].
  - split; [intros [E|E]; [injection E as ->; auto|exfalso; apply (in_map fst) in E; apply S3 in E; cbn in E; lia]|intros (-> & _); left; auto].
  - rewrite <- (IH S2 H2). split; [intros [E|E]; [congruence|auto]|right; auto].
Qed.

(* ---- one stack ---- *)
Definition eqp (x y : N * value) : bool := (fst x =? fst y) && veqb (snd x) (snd y).
Lemma eqp_ok x y : eqp x y = true <-> x = y.
Proof. unfold eqp. rewrite andb_true_iff, N.eqb_eq. destruct x, y; cbn. rewrite veqb_eq. split; [intros (-> & ->); auto|intro Z; injection Z; auto]. Qed.
Section S.
Variables (nest : N) (att : N -> attr).
Definition s_run (evs : list vev) : sv := fold_left (fun s e => fst (fst (on_stack nest s e))) evs sv_new.
Record J (evs : list vev) (s : sv) (P : list (N * value)) : Prop := {
  J_map : smap_ok (sv_stk s);
  J_reg : forall a, a <> nest -> brun veqb (regions_of a evs) (Some []) = Some (rev (sget (sv_stk s) a));
  J_pair : brun eqp (nested_regions evs) (Some []) = Some P;
  J_nest : rev (sget (sv_stk s) nest) = map (fun p => VUint (fst p)) P;
  J_own : forall a, a <> nest -> nested (att a) = true -> rev (sget (sv_stk s) a) = map snd (filter (fun p => fst p =? a) P);
  J_val : forall a, a <> nest -> Forall (fun v => v <> VInv) (sget (sv_stk s) a);
  J_ids : Forall (fun p => nested (att (fst p)) = true /\ fst p <> nest) P }.
Definition failed (evs : list vev) : Prop :=
  brun eqp (nested_regions evs) (Some []) = None \/ exists a, a <> nest /\ brun veqb (regions_of a evs) (Some []) = None.
Lemma regions_snoc a evs e : regions_of a (evs ++ [e]) = regions_of a evs ++ (if at_id (vattr e) =? a then match e with VB _ v => [(true, v)] | VE _ v => [(false, v)] end else []).
Proof. unfold regions_of. rewrite flat_map_app. cbn. rewrite app_nil_r. reflexivity. Qed.
Lemma nregions_snoc evs e : nested_regions (evs ++ [e]) = nested_regions evs ++ (if nested (vattr e) then match e with VB a v => [(true, (at_id a, v))] | VE a v => [(false, (at_id a, v))] end else []).
Proof. unfold nested_regions. rewrite flat_map_app. cbn. rewrite app_nil_r. reflexivity. Qed.
Lemma regions_nest evs : Forall (ev_ok nest att) evs -> regions_of nest evs = [].
Proof. induction 1 as [|e evs (H & _) F IH]; cbn; auto. destruct (N.eqb_spec (at_id (vattr e)) nest); [contradiction|]. exact IH. Qed.
Lemma failed_snoc evs e : failed evs -> failed (evs ++ [e]).
Proof.
  intros [H|(a & Ha & H)]; [left; rewrite nregions_snoc, brun_app, H; apply brun_none|right; exists a; split; auto; rewrite regions_snoc, brun_app, H; apply brun_none].
Qed.
Lemma pop_spec m a : smap_ok m -> pop m a = match rev (sget m a) with [] => (VInv, m) | v :: r => (v, sput m a (rev r)) end.
Proof. reflexivity. Qed.

Lemma J_step evs s P e : J evs s P -> ev_ok nest att e -> sv_err s = false ->
  let s' := fst (fst (on_stack nest s e)) in
  (sv_err s' = false -> exists P', J (evs ++ [e]) s' P') /\ (sv_err s' = true -> failed (evs ++ [e])).
Proof.
  intros [J1 J2 J3 J4 J5 J6 J7] (K1 & K2 & K3 & K4) He. cbn zeta. destruct e as [a v|a v]; cbn [on_stack vattr] in *.
  - (* begin *)
    unfold check_begin. rewrite He. cbn [fst sv_err sv_stk]. split; [|discriminate]. intros _. set (i := at_id a) in *.
    pose proof (sput_ok _ i (sget (sv_stk s) i ++ [v]) J1) as O1. fold (push (sv_stk s) i v) in O1. set (m1 := push (sv_stk s) i v) in *.
    assert (G1 : forall b, sget m1 b = if i =? b then sget (sv_stk s) i ++ [v] else sget (sv_stk s) b) by (intro b; apply sget_sput; auto).
    assert (R : forall b, b <> nest -> brun veqb (regions_of b (evs ++ [VB a v])) (Some []) = Some (rev (sget m1 b))).
    { intros b Hb. rewrite regions_snoc, brun_app, (J2 b Hb), G1. cbn [vattr]. fold i. destruct (N.eqb_spec i b) as [->|]; [|reflexivity]. cbn. rewrite rev_app_distr. reflexivity. }
    destruct (nested a) eqn:En.
    + exists ((i, v) :: P). pose proof (sput_ok _ nest (sget m1 nest ++ [VUint i]) O1) as O2. fold (push m1 nest (VUint i)) in O2. set (m2 := push m1 nest (VUint i)) in *.
      assert (G2 : forall b, b <> nest -> sget m2 b = sget m1 b). { intros b Hb. unfold m2, push. rewrite sget_sput by auto. destruct (N.eqb_spec nest b); [congruence|reflexivity]. }
      constructor; cbn [sv_stk].
      * auto.
      * intros b Hb. rewrite G2 by auto. auto.
      * rewrite nregions_snoc, brun_app, J3. cbn [vattr]. rewrite En. reflexivity.
      * unfold m2, push. rewrite sget_sput, N.eqb_refl, rev_app_distr by auto. cbn. f_equal. rewrite G1. destruct (N.eqb_spec i nest); [contradiction|auto].
      * intros b Hb Hn. rewrite G2, G1 by auto. cbn [filter fst]. destruct (N.eqb_spec i b) as [->|]; [rewrite rev_app_distr; cbn; f_equal; apply J5; auto|apply J5; auto].
      * intros b Hb. rewrite G2, G1 by auto. destruct (i =? b) eqn:Eb; auto. apply Forall_app. split; auto.
      * constructor; auto. cbn. rewrite <- K3. auto.
    + exists P. constructor; cbn [sv_stk]; auto.
      * rewrite nregions_snoc, brun_app, J3. cbn [vattr]. rewrite En. reflexivity.
      * rewrite G1. destruct (N.eqb_spec i nest); [contradiction|auto].
      * intros b Hb Hn. rewrite G1. destruct (N.eqb_spec i b) as [->|]; [|apply J5; auto]. congruence.
      * intros b Hb. rewrite G1. destruct (i =? b) eqn:Eb; auto. apply Forall_app. split; auto.
  - (* end *)
    unfold check_end. rewrite He. unfold pop. set (i := at_id a) in *. 
    pose proof (J2 i K1) as Ri. pose proof (J6 i K1) as Vi. destruct (rev (sget (sv_stk s) i)) as [|w r] eqn:Er.
    + cbn. split; [discriminate|]. intros _. right. exists i. split; auto. rewrite regions_snoc, brun_app, Ri. cbn [vattr]. fold i. rewrite N.eqb_refl. reflexivity.
    + assert (Hw : w <> VInv). { rewrite Forall_forall in Vi. apply Vi. apply in_rev. rewrite Er. left. auto. }
      assert (Ew : is_inv w = false) by (destruct w; auto; contradiction). rewrite Ew.
      pose proof (sput_ok _ i (rev r) J1) as O1. set (m1 := sput (sv_stk s) i (rev r)) in *.
      assert (G1 : forall b, sget m1 b = if i =? b then rev r else sget (sv_stk s) b) by (intro b; apply sget_sput; auto).
      assert (R : forall b, b <> nest -> v = w -> brun veqb (regions_of b (evs ++ [VE a v])) (Some []) = Some (rev (sget m1 b))).
      { intros b Hb ->. rewrite regions_snoc, brun_app, (J2 b Hb), G1. cbn [vattr]. fold i. destruct (N.eqb_spec i b) as [<-|]; [|reflexivity]. rewrite Er. cbn. rewrite (proj2 (veqb_eq w w) eq_refl), rev_involutive. reflexivity. }
      assert (RF : v <> w -> failed (evs ++ [VE a v])).
      { intro Hv. right. exists i. split; auto. rewrite regions_snoc, brun_app, Ri. cbn [vattr]. fold i. rewrite N.eqb_refl. cbn. destruct (veqb w v) eqn:Z; auto. apply veqb_eq in Z. congruence. }
      destruct (nested a) eqn:En.
      * assert (Gn : sget m1 nest = sget (sv_stk s) nest) by (rewrite G1; destruct (N.eqb_spec i nest); [contradiction|reflexivity]). rewrite Gn, J4.
        assert (Hna : nested (att i) = true) by (rewrite <- K3; auto). pose proof (J5 i K1 Hna) as Own. rewrite Er in Own.
        destruct P as [|[b x] P]; [discriminate|]. cbn [map fst vid]. cbn [andb]. destruct (N.eqb_spec i b) as [<-|Hb].
        -- cbn [negb andb]. cbn [filter fst] in Own. rewrite N.eqb_refl in Own. cbn in Own. injection Own as Ex Er2. subst x.
           destruct (veqb v w) eqn:Ev; cbn [negb fst snd sv_err sv_stk].
           ++ split; [|discriminate]. intros _. apply veqb_eq in Ev. subst v. exists P.
              pose proof (sput_ok _ nest (rev (map (fun p => VUint (fst p)) P)) O1) as O2. set (m2 := sput m1 nest (rev (map (fun p => VUint (fst p)) P))) in *.
              assert (G2 : forall b, b <> nest -> sget m2 b = sget m1 b). { intros b Hb. unfold m2. rewrite sget_sput by auto. destruct (N.eqb_spec nest b); [congruence|reflexivity]. }
              pose proof (Forall_inv_tail J7) as J9. constructor; cbn [sv_stk]; auto.
              ** intros c Hc. rewrite G2 by auto. apply R; auto.
              ** rewrite nregions_snoc, brun_app, J3. cbn [vattr]. rewrite En. cbn. unfold eqp at 1. cbn. fold i. rewrite N.eqb_refl, (proj2 (veqb_eq w w) eq_refl). reflexivity.
              ** unfold m2. rewrite sget_sput, N.eqb_refl, rev_involutive by auto. reflexivity.
              ** intros c Hc Hn. rewrite G2, G1 by auto. destruct (N.eqb_spec i c) as [Hic|Hic]; [subst c|].
                 --- rewrite rev_involutive. exact Er2.
                 --- rewrite (J5 c Hc Hn). cbn [filter fst]. destruct (N.eqb_spec i c); [contradiction|reflexivity].
              ** intros c Hc. rewrite G2, G1 by auto. destruct (i =? c); auto. apply Forall_forall. intros z Hz. rewrite Forall_forall in Vi. apply Vi. apply in_rev. rewrite Er. right. apply in_rev. auto.
           ++ split; [discriminate|]. intros _. apply RF. intro Z. rewrite Z in Ev. rewrite (proj2 (veqb_eq w w) eq_refl) in Ev. discriminate.
        -- cbn [negb andb fst snd sv_err]. split; [discriminate|]. intros _. left. rewrite nregions_snoc, brun_app, J3. cbn [vattr]. rewrite En. cbn. unfold eqp. cbn. fold i. destruct (N.eqb_spec b i); [congruence|reflexivity].
      * cbn [andb]. destruct (veqb v w) eqn:Ev; cbn [negb fst snd sv_err sv_stk].
        -- split; [|discriminate]. intros _. apply veqb_eq in Ev. exists P. constructor; cbn [sv_stk]; auto.
           ++ rewrite nregions_snoc, brun_app, J3. cbn [vattr]. rewrite En. reflexivity.
           ++ rewrite G1. destruct (N.eqb_spec i nest); [contradiction|auto].
           ++ intros c Hc Hn. rewrite G1. destruct (N.eqb_spec i c) as [Hic|]; [subst c; congruence|apply J5; auto].
           ++ intros c Hc. rewrite G1. destruct (i =? c); auto. apply Forall_forall. intros z Hz. rewrite Forall_forall in Vi. apply Vi. apply in_rev. rewrite Er. right. apply in_rev. auto.
        -- split; [discriminate|]. intros _. apply RF. intro Z. rewrite Z in Ev. rewrite (proj2 (veqb_eq w w) eq_refl) in Ev. discriminate.
Qed.
Lemma on_err s e : sv_err s = true -> on_stack nest s e = (s, true, []).
Proof. intro H. destruct e; cbn; unfold check_begin, check_end; rewrite H; reflexivity. Qed.
Lemma s_snoc evs e : s_run (evs ++ [e]) = fst (fst (on_stack nest (s_run evs) e)).
Proof. unfold s_run. rewrite fold_left_app. reflexivity. Qed.
Lemma J_run evs : Forall (ev_ok nest att) evs ->
  (sv_err (s_run evs) = false -> exists P, J evs (s_run evs) P) /\ (sv_err (s_run evs) = true -> failed evs).
Proof.
  induction evs as [|e evs IH] using rev_ind; intro F.
  - split; [|discriminate]. intros _. exists []. constructor; cbn; auto; try (split; constructor).
  - apply Forall_app in F. destruct F as (F1 & F2). inversion F2; subst. destruct (IH F1) as (I1 & I2). rewrite s_snoc. destruct (sv_err (s_run evs)) eqn:Es.
    + rewrite on_err by auto. cbn [fst]. rewrite Es. split; [discriminate|]. intros _. apply failed_snoc. auto.
    + destruct (I1 eq_refl) as (P & HJ). apply (J_step _ _ _ e HJ); auto.
Qed.
End S.
