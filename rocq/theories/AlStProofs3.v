From Verif Require Import Base AlStModel AlStSpec AlStProofs AlStProofs2.
From Coq Require Import Lia Permutation.
Open Scope Z_scope.

Lemma perm_step (f : nat -> apc -> list aev) l i pc x A B da db : nth_error l i = Some pc -> Permutation A (B ++ pends f 0 l) -> f i pc ++ da = db ++ f i x ->
  Permutation (A ++ da) ((B ++ db) ++ pends f 0 (lset l i x)).
Proof.
  intros Hn HP E. destruct (pends_split f l i 0%nat pc Hn) as (rest & P1 & P2). cbn [Nat.add] in *.
  rewrite HP, P1, (P2 x). rewrite <- !app_assoc. apply Permutation_app_head. rewrite (app_assoc db), <- E.
  rewrite <- app_assoc. apply Permutation_app_head. apply Permutation_app_comm.
Qed.
Definition of_th (f : nat -> apc -> list aev) (l : list apc) (i : nat) : list aev := match nth_error l i with Some pc => f i pc | None => [] end.
Lemma th_step (f : nat -> apc -> list aev) l i pc x A B da db : nth_error l i = Some pc -> Forall (fun e => ae_th e = i) (da ++ db) ->
  (forall j, filter (by_thread j) A = filter (by_thread j) B ++ of_th f l j) -> f i pc ++ da = db ++ f i x ->
  forall j, filter (by_thread j) (A ++ da) = filter (by_thread j) (B ++ db) ++ of_th f (lset l i x) j.
Proof.
  intros Hn F H E j. rewrite !filter_app, H. apply Forall_app in F as [F1 F2].
  assert (G : forall d, Forall (fun e => ae_th e = i) d -> filter (by_thread j) d = if Nat.eqb i j then d else []).
  { clear. induction 1 as [|e d He _ IH]; cbn [filter]; [destruct (Nat.eqb i j); reflexivity|]. unfold by_thread at 1. rewrite He, IH. destruct (Nat.eqb i j); reflexivity. }
  rewrite (G da F1), (G db F2). clear G. unfold of_th. destruct (Nat.eqb_spec i j) as [Eij|Hij]; [subst j|].
  - rewrite (lset_same l i x pc Hn), Hn, <- !app_assoc, E. reflexivity.
  - rewrite lset_other by exact Hij. rewrite !app_nil_r. reflexivity.
Qed.
Lemma not_busy s a j x : ~ busy s a -> nth_error (a_pc s) j = Some x -> pc_addr x <> Some a.
Proof.
  intros Hb Hx Ha. apply Hb. destruct x as [|b z q|b z q|b z q|b z q]; cbn [pc_addr] in Ha; try discriminate; injection Ha as ->; exists j, z, q; auto.
Qed.
Lemma bal_snoc w l e : zsum (map (fun e => if w (ae_path e) : bool then delta e else 0) (l ++ [e])) = zsum (map (fun e => if w (ae_path e) : bool then delta e else 0) l) + if w (ae_path e) then delta e else 0.
Proof. rewrite map_app, zsum_app. cbn [map]. unfold zsum at 2. cbn [fold_right]. lia. Qed.
Lemma delta_snoc l e : zsum (map delta (l ++ [e])) = zsum (map delta l) + delta e.
Proof. rewrite map_app, zsum_app. cbn [map]. unfold zsum at 2. cbn [fold_right]. lia. Qed.

Lemma step_track s i a sz p : inv s -> nth_error (a_pc s) i = Some Idle -> 0 <= sz -> mfind (a_alloc s) a = None -> ~ busy s a ->
  inv (mkal (mput (a_alloc s) a (sz, p)) (a_reg s) (a_act s) (a_hwm s) (lset (a_pc s) i (T2 a sz p))
            (a_alog s ++ [mkaev i false a sz p]) (a_blog s) (a_clog s) (a_out s)).
Proof.
  intros Hi Hn Hs Hf Hb. destruct Hi. constructor; cbn [a_alloc a_reg a_act a_hwm a_pc a_alog a_blog a_clog a_out].
  - apply mput_keys, i_keys.
  - exact i_rkeys.
  - apply Forall_app. split; [exact i_size|]. constructor; [exact Hs|constructor].
  - rewrite <- (app_nil_r (a_blog s)). eapply perm_step; [exact Hn|exact i_pb|reflexivity].
  - rewrite <- (app_nil_r (a_clog s)). eapply perm_step; [exact Hn|exact i_pc|reflexivity].
  - intro j. rewrite <- (app_nil_r (a_blog s)). refine (th_step pb _ i Idle (T2 a sz p) _ _ _ _ Hn _ i_thb eq_refl j). repeat constructor.
  - intro j. rewrite <- (app_nil_r (a_clog s)). refine (th_step pcc _ i Idle (T2 a sz p) _ _ _ _ Hn _ i_thc eq_refl j). repeat constructor.
  - intros j b z q H. rewrite mfind_put. destruct H as [H|H]; apply lset_inv in H as [[<- H]|[Hj H]].
    + injection H as -> -> ->. rewrite N.eqb_refl. reflexivity.
    + destruct (N.eqb_spec a b) as [<-|Hab]; [exfalso; apply (not_busy s a j _ Hb H); reflexivity|]. apply (i_T j). left. exact H.
    + discriminate.
    + destruct (N.eqb_spec a b) as [<-|Hab]; [exfalso; apply (not_busy s a j _ Hb H); reflexivity|]. apply (i_T j). right. exact H.
  - intros j k x y b Hx Hy Ex Ey. apply lset_inv in Hx as [[<- ->]|[Hj Hx]]; apply lset_inv in Hy as [[<- ->]|[Hk Hy]].
    + reflexivity.
    + cbn [pc_addr] in Ex. injection Ex as ->. exfalso. exact (not_busy s b k _ Hb Hy Ey).
    + cbn [pc_addr] in Ey. injection Ey as ->. exfalso. exact (not_busy s b j _ Hb Hx Ex).
    + exact (i_uniq j k x y b Hx Hy Ex Ey).
  - intros b z q H. rewrite mfind_put in H. destruct (N.eqb_spec a b) as [<-|Hab].
    + injection H as <- <-. left. exists i. eapply lset_same. exact Hn.
    + destruct (i_ent b z q H) as [(j & Hj)|He]; [|right; exact He]. left. exists j. rewrite lset_other; [exact Hj|]. intros <-. congruence.
  - intros j b z q H. apply lset_inv in H as [[<- H]|[Hj H]]; [discriminate|]. exact (i_U j b z q H).
  - exact i_reg.
  - exact i_fst.
  - exact i_act.
  - intro b. rewrite mfind_put, live_app. cbn [ae_addr ae_free ae_size ae_path]. destruct (N.eqb a b); [reflexivity|apply i_live].
  - apply matched_app; [exact i_match|]. discriminate.
  - intro w. rewrite bal_snoc. cbn [ae_path]. change (delta (mkaev i false a sz p)) with sz. rewrite (mput_absent _ _ _ Hf), map_app, zsum_app, <- i_bal. cbn [map snd fst]. unfold zsum at 3. cbn [fold_right]. lia.
Qed.
Lemma step_untrack s i a sz p : inv s -> nth_error (a_pc s) i = Some Idle -> mfind (a_alloc s) a = Some (sz, p) -> ~ busy s a ->
  inv (mkal (mdel (a_alloc s) a) (a_reg s) (a_act s) (a_hwm s) (lset (a_pc s) i (U2 a sz p))
            (a_alog s ++ [mkaev i true a sz p]) (a_blog s) (a_clog s) (a_out s)).
Proof.
  intros Hi Hn Hf Hb. destruct Hi.
  assert (Hs : 0 <= sz).
  { rewrite i_live in Hf. unfold live in Hf. destruct (find (fun e => N.eqb (ae_addr e) a) (rev (a_alog s))) as [e|] eqn:E; [|discriminate]. apply find_some in E as [E _]. apply in_rev in E.
    rewrite Forall_forall in i_size. specialize (i_size e E). destruct (ae_free e); [discriminate|]. injection Hf as <- _. exact i_size. }
  constructor; cbn [a_alloc a_reg a_act a_hwm a_pc a_alog a_blog a_clog a_out].
  - apply mdel_nodup, i_keys.
  - exact i_rkeys.
  - apply Forall_app. split; [exact i_size|]. constructor; [exact Hs|constructor].
  - rewrite <- (app_nil_r (a_blog s)). eapply perm_step; [exact Hn|exact i_pb|reflexivity].
  - rewrite <- (app_nil_r (a_clog s)). eapply perm_step; [exact Hn|exact i_pc|reflexivity].
  - intro j. rewrite <- (app_nil_r (a_blog s)). refine (th_step pb _ i Idle (U2 a sz p) _ _ _ _ Hn _ i_thb eq_refl j). repeat constructor.
  - intro j. rewrite <- (app_nil_r (a_clog s)). refine (th_step pcc _ i Idle (U2 a sz p) _ _ _ _ Hn _ i_thc eq_refl j). repeat constructor.
  - intros j b z q H. rewrite mdel_find. destruct H as [H|H]; apply lset_inv in H as [[<- H]|[Hj H]]; try discriminate.
    + destruct (N.eqb_spec a b) as [<-|Hab]; [exfalso; apply (not_busy s a j _ Hb H); reflexivity|]. apply (i_T j). left. exact H.
    + destruct (N.eqb_spec a b) as [<-|Hab]; [exfalso; apply (not_busy s a j _ Hb H); reflexivity|]. apply (i_T j). right. exact H.
  - intros j k x y b Hx Hy Ex Ey. apply lset_inv in Hx as [[<- ->]|[Hj Hx]]; apply lset_inv in Hy as [[<- ->]|[Hk Hy]].
    + reflexivity.
    + cbn [pc_addr] in Ex. injection Ex as ->. exfalso. exact (not_busy s b k _ Hb Hy Ey).
    + cbn [pc_addr] in Ey. injection Ey as ->. exfalso. exact (not_busy s b j _ Hb Hx Ex).
    + exact (i_uniq j k x y b Hx Hy Ex Ey).
  - intros b z q H. rewrite mdel_find in H. destruct (N.eqb_spec a b) as [<-|Hab]; [discriminate|].
    destruct (i_ent b z q H) as [(j & Hj)|He]; [|right; exact He]. left. exists j. rewrite lset_other; [exact Hj|]. intros <-. congruence.
  - intros j b z q H. apply lset_inv in H as [[<- H]|[Hj H]]; [|exact (i_U j b z q H)]. injection H as -> -> ->.
    destruct (i_ent a sz p Hf) as [(j & Hj)|He]; [|exact He]. exfalso. apply (not_busy s a j _ Hb Hj). reflexivity.
  - exact i_reg.
  - exact i_fst.
  - exact i_act.
  - intro b. rewrite mdel_find, live_app. cbn [ae_addr ae_free ae_size ae_path]. destruct (N.eqb a b); [reflexivity|apply i_live].
  - apply matched_app; [exact i_match|]. intros _. cbn [ae_addr ae_size ae_path]. rewrite <- i_live. exact Hf.
  - intro w. rewrite bal_snoc, i_bal. cbn [ae_path]. change (delta (mkaev i true a sz p)) with (- sz).
    rewrite (zsum_perm _ _ (Permutation_map (fun e => if w (snd (snd e)) then fst (snd e) else 0) (mdel_perm _ _ _ i_keys Hf))). cbn [map snd fst]. unfold zsum at 1. cbn [fold_right].
    match goal with |- _ + fold_right Z.add 0 ?l + _ = _ => change (fold_right Z.add 0 l) with (zsum l) end. destruct (w p); lia.
Qed.
(* the second sections *)
Lemma step_B s i (fr : bool) a sz p : inv s -> nth_error (a_pc s) i = Some (if fr then U2 a sz p else T2 a sz p) ->
  inv (mkal (a_alloc s) (if fr then reg_untrack (a_reg s) p sz else reg_track (a_reg s) p sz) (a_act s) (a_hwm s) (lset (a_pc s) i (if fr then U3 a sz p else T3 a sz p))
            (a_alog s) (a_blog s ++ [mkaev i fr a sz p]) (a_clog s) (a_out s)).
Proof.
  intros Hi Hn. destruct Hi.
  assert (Fb : Forall (fun e => 0 <= ae_size e) (a_blog s ++ pends pb 0 (a_pc s))) by (rewrite <- i_pb; exact i_size).
  assert (Hs : 0 <= sz).
  { apply Forall_app in Fb as [_ Fb]. destruct (pends_split pb (a_pc s) i 0%nat _ Hn) as (rest & P1 & _). rewrite P1 in Fb. apply Forall_app in Fb as [Fb _]. destruct fr; inversion Fb; assumption. }
  assert (Eb : pb i (if fr then U2 a sz p else T2 a sz p) ++ [] = [mkaev i fr a sz p] ++ pb i (if fr then U3 a sz p else T3 a sz p)) by (destruct fr; reflexivity).
  assert (Ec : pcc i (if fr then U2 a sz p else T2 a sz p) ++ [] = [] ++ pcc i (if fr then U3 a sz p else T3 a sz p)) by (destruct fr; reflexivity).
  constructor; cbn [a_alloc a_reg a_act a_hwm a_pc a_alog a_blog a_clog a_out].
  - exact i_keys.
  - destruct fr; [apply reg_untrack_keys|apply reg_track_keys]; exact i_rkeys.
  - exact i_size.
  - rewrite <- (app_nil_r (a_alog s)). eapply perm_step; [exact Hn|exact i_pb|exact Eb].
  - rewrite <- (app_nil_r (a_clog s)), <- (app_nil_r (a_alog s)). eapply perm_step; [exact Hn|exact i_pc|exact Ec].
  - intro j. rewrite <- (app_nil_r (a_alog s)). refine (th_step pb _ i _ _ _ _ _ _ Hn _ i_thb Eb j). repeat constructor.
  - intro j. rewrite <- (app_nil_r (a_clog s)), <- (app_nil_r (a_alog s)). refine (th_step pcc _ i _ _ _ _ _ _ Hn _ i_thc Ec j). constructor.
  - intros j b z q H. destruct H as [H|H]; apply lset_inv in H as [[<- H]|[Hj H]]; try (destruct fr; discriminate).
    + apply (i_T j). left. exact H.
    + destruct fr; [discriminate|]. injection H as -> -> ->. apply (i_T i). left. exact Hn.
    + apply (i_T j). right. exact H.
  - intros j k x y b Hx Hy Ex Ey. apply lset_inv in Hx as [[<- ->]|[Hj Hx]]; apply lset_inv in Hy as [[<- ->]|[Hk Hy]].
    + reflexivity.
    + apply (i_uniq i k _ y b Hn Hy); [destruct fr; exact Ex|exact Ey].
    + apply (i_uniq j i x _ b Hx Hn); [exact Ex|destruct fr; exact Ey].
    + exact (i_uniq j k x y b Hx Hy Ex Ey).
  - intros b z q H. destruct (i_ent b z q H) as [(j & Hj)|(e & He)]; [|right; exists e; split; [apply in_or_app; left; apply He|apply He]].
    destruct (Nat.eq_dec i j) as [<-|Hij].
    + right. exists (mkaev i fr a sz p). split; [apply in_or_app; right; left; reflexivity|]. rewrite Hn in Hj. destruct fr; [discriminate|]. injection Hj as -> -> ->. split; reflexivity.
    + left. exists j. rewrite lset_other by exact Hij. exact Hj.
  - intros j b z q H. apply lset_inv in H as [[<- H]|[Hj H]]; [destruct fr; discriminate|]. destruct (i_U j b z q H) as (e & He). exists e. split; [apply in_or_app; left; apply He|apply He].
  - destruct fr.
    + apply reg_untrack_ok; [exact Hs|exact i_reg|]. destruct (i_U i a sz p Hn) as (e & H1 & _ & H2). exists e. split; assumption.
    + apply reg_track_ok; [exact Hs|exact i_reg|]. apply Forall_app in Fb as [Fb _]. exact Fb.
  - intros e He. apply in_app_or in He as [He|[<-|[]]].
    + destruct (i_fst e He) as (e' & H1 & H2). exists e'. split; [apply in_or_app; left; exact H1|exact H2].
    + cbn [ae_path]. destruct fr.
      * destruct (i_U i a sz p Hn) as (e & H1 & H2). exists e. split; [apply in_or_app; left; exact H1|exact H2].
      * exists (mkaev i false a sz p). split; [apply in_or_app; right; left; reflexivity|split; reflexivity].
  - exact i_act.
  - exact i_live.
  - exact i_match.
  - exact i_bal.
Qed.
(* the third sections *)
Lemma step_C s i (fr : bool) a sz p act hwm : inv s -> nth_error (a_pc s) i = Some (if fr then U3 a sz p else T3 a sz p) -> act = a_act s + (if fr then - sz else sz) ->
  inv (mkal (a_alloc s) (a_reg s) act hwm (lset (a_pc s) i Idle)
            (a_alog s) (a_blog s) (a_clog s ++ [mkaev i fr a sz p]) (a_out s)).
Proof.
  intros Hi Hn Ha. destruct Hi.
  assert (Eb : pb i (if fr then U3 a sz p else T3 a sz p) ++ [] = [] ++ pb i Idle) by (destruct fr; reflexivity).
  assert (Ec : pcc i (if fr then U3 a sz p else T3 a sz p) ++ [] = [mkaev i fr a sz p] ++ pcc i Idle) by (destruct fr; reflexivity).
  constructor; cbn [a_alloc a_reg a_act a_hwm a_pc a_alog a_blog a_clog a_out].
  - exact i_keys.
  - exact i_rkeys.
  - exact i_size.
  - rewrite <- (app_nil_r (a_blog s)), <- (app_nil_r (a_alog s)). eapply perm_step; [exact Hn|exact i_pb|exact Eb].
  - rewrite <- (app_nil_r (a_alog s)). eapply perm_step; [exact Hn|exact i_pc|exact Ec].
  - intro j. rewrite <- (app_nil_r (a_blog s)), <- (app_nil_r (a_alog s)). refine (th_step pb _ i _ _ _ _ _ _ Hn _ i_thb Eb j). constructor.
  - intro j. rewrite <- (app_nil_r (a_alog s)). refine (th_step pcc _ i _ _ _ _ _ _ Hn _ i_thc Ec j). repeat constructor.
  - intros j b z q H. destruct H as [H|H]; apply lset_inv in H as [[<- H]|[Hj H]]; try discriminate; apply (i_T j); [left|right]; exact H.
  - intros j k x y b Hx Hy Ex Ey. apply lset_inv in Hx as [[<- ->]|[Hj Hx]]; [discriminate|]; apply lset_inv in Hy as [[<- ->]|[Hk Hy]]; [discriminate|].
    exact (i_uniq j k x y b Hx Hy Ex Ey).
  - intros b z q H. destruct (i_ent b z q H) as [(j & Hj)|He]; [|right; exact He].
    left. exists j. rewrite lset_other; [exact Hj|]. intros <-. rewrite Hn in Hj. destruct fr; discriminate.
  - intros j b z q H. apply lset_inv in H as [[<- H]|[Hj H]]; [discriminate|]. exact (i_U j b z q H).
  - exact i_reg.
  - exact i_fst.
  - rewrite delta_snoc, <- i_act, Ha. destruct fr; reflexivity.
  - exact i_live.
  - exact i_match.
  - exact i_bal.
Qed.
Lemma inv_same s s' : inv s -> a_alloc s' = a_alloc s -> a_reg s' = a_reg s -> a_act s' = a_act s -> a_pc s' = a_pc s -> a_alog s' = a_alog s -> a_blog s' = a_blog s -> a_clog s' = a_clog s -> inv s'.
Proof. intros [] E1 E2 E3 E4 E5 E6 E7. constructor; rewrite ?E1, ?E2, ?E3, ?E4, ?E5, ?E6, ?E7; assumption. Qed.
Lemma inv_step s e s' : inv s -> disciplined s e -> al_step s e = Some s' -> inv s'.
Proof.
  intros Hi Hd H. destruct e as [i a sz p|i a|i| |]; cbn [al_step] in H; cbn [disciplined] in Hd.
  - destruct (nth_error (a_pc s) i) as [x|] eqn:En; [|discriminate]. destruct x; try discriminate. destruct p as [p|]; [|congruence].
    injection H as <-. destruct Hd as (H1 & H2 & H3). apply step_track; assumption.
  - destruct (nth_error (a_pc s) i) as [x|] eqn:En; [|discriminate]. destruct x; try discriminate. destruct (mfind (a_alloc s) a) as [[sz p]|] eqn:Ef; [|congruence].
    injection H as <-. apply step_untrack; assumption.
  - destruct (nth_error (a_pc s) i) as [x|] eqn:En; [|discriminate]. destruct x as [|a sz p|a sz p|a sz p|a sz p]; try discriminate; injection H as <-.
    + exact (step_B s i false a sz p Hi En).
    + apply (step_C s i false a sz p _ _ Hi En). reflexivity.
    + exact (step_B s i true a sz p Hi En).
    + apply (step_C s i true a sz p _ _ Hi En). lia.
  - injection H as <-. apply (inv_same s); try reflexivity. exact Hi.
  - destruct (flush_recs (a_reg s)); [|discriminate]. injection H as <-. apply (inv_same s); try reflexivity. exact Hi.
Qed.
Lemma inv_run n l s : al_run n l s -> inv s.
Proof. induction 1 as [|l s e s' _ IH Hd He]; [apply inv_init|]. exact (inv_step s e s' IH Hd He). Qed.
