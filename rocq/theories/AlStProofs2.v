From Verif Require Import Base AlStModel AlStSpec AlStProofs.
From Coq Require Import Lia Permutation.
Open Scope Z_scope.

(* the events of a thread's pending sections *)
Definition pb (i : nat) (pc : apc) : list aev := match pc with T2 a sz p => [mkaev i false a sz p] | U2 a sz p => [mkaev i true a sz p] | _ => [] end.
Definition pcc (i : nat) (pc : apc) : list aev :=
  match pc with T2 a sz p | T3 a sz p => [mkaev i false a sz p] | U2 a sz p | U3 a sz p => [mkaev i true a sz p] | Idle => [] end.
Definition pc_addr (pc : apc) : option N := match pc with Idle => None | T2 a _ _ | T3 a _ _ | U2 a _ _ | U3 a _ _ => Some a end.
(* the region map entry for a sequence of events *)
Definition reg_of (p : N) (log : list aev) : option ri :=
  let l := filter (at_path p) log in
  let al := filter is_alloc l in
  match l with
  | [] => None
  | _ => Some (mkri (zsum (map delta l)) (zsum (map ae_size al)) (zmax (map ae_size al)) (peak 0 (map delta l)) (Z.of_nat (length al)) (Some p))
  end.

Record inv (s : alst) : Prop := {
  i_keys : NoDup (map fst (a_alloc s));
  i_rkeys : NoDup (map fst (a_reg s));
  i_size : Forall (fun e => 0 <= ae_size e) (a_alog s);
  i_pb : Permutation (a_alog s) (a_blog s ++ pends pb 0 (a_pc s));
  i_pc : Permutation (a_alog s) (a_clog s ++ pends pcc 0 (a_pc s));
  i_thb : forall i, filter (by_thread i) (a_alog s) = filter (by_thread i) (a_blog s) ++ match nth_error (a_pc s) i with Some pc => pb i pc | None => [] end;
  i_thc : forall i, filter (by_thread i) (a_alog s) = filter (by_thread i) (a_clog s) ++ match nth_error (a_pc s) i with Some pc => pcc i pc | None => [] end;
  i_T : forall i a sz p, (nth_error (a_pc s) i = Some (T2 a sz p) \/ nth_error (a_pc s) i = Some (T3 a sz p)) -> mfind (a_alloc s) a = Some (sz, p);
  i_uniq : forall i j x y a, nth_error (a_pc s) i = Some x -> nth_error (a_pc s) j = Some y -> pc_addr x = Some a -> pc_addr y = Some a -> i = j;
  i_ent : forall a sz p, mfind (a_alloc s) a = Some (sz, p) -> (exists i, nth_error (a_pc s) i = Some (T2 a sz p)) \/ exists e, In e (a_blog s) /\ ae_free e = false /\ ae_path e = p;
  i_U : forall i a sz p, nth_error (a_pc s) i = Some (U2 a sz p) -> exists e, In e (a_blog s) /\ ae_free e = false /\ ae_path e = p;
  i_reg : forall p, mfind (a_reg s) p = reg_of p (a_blog s);
  i_fst : forall e, In e (a_blog s) -> exists e', In e' (a_blog s) /\ ae_free e' = false /\ ae_path e' = ae_path e;
  i_act : a_act s = zsum (map delta (a_clog s));
  i_live : forall a, mfind (a_alloc s) a = live (a_alog s) a;
  i_match : matched (a_alog s);
  i_bal : forall w, zsum (map (fun e => if w (ae_path e) : bool then delta e else 0) (a_alog s)) = zsum (map (fun e => if w (snd (snd e)) : bool then fst (snd e) else 0) (a_alloc s)) }.

Lemma live_app l e a : live (l ++ [e]) a = if N.eqb (ae_addr e) a then (if ae_free e then None else Some (ae_size e, ae_path e)) else live l a.
Proof. unfold live. rewrite rev_app_distr. cbn [rev app find]. destruct (N.eqb (ae_addr e) a); reflexivity. Qed.
Lemma snoc_inv {A} (l : list A) x a y b : l ++ [x] = a ++ y :: b -> (b = [] /\ l = a /\ x = y) \/ exists b', b = b' ++ [x] /\ l = a ++ y :: b'.
Proof.
  destruct (rev b) as [|z b0] eqn:E.
  - assert (b = []) by (rewrite <- (rev_involutive b), E; reflexivity). subst b. intro H. apply app_inj_tail in H as [-> ->]. left. auto.
  - assert (Eb : b = rev b0 ++ [z]) by (rewrite <- (rev_involutive b), E; reflexivity). subst b. rewrite app_comm_cons, app_assoc. intro H. apply app_inj_tail in H as [-> ->]. right. exists (rev b0). split; reflexivity.
Qed.
Lemma matched_app l e : matched l -> (ae_free e = true -> live l (ae_addr e) = Some (ae_size e, ae_path e)) -> matched (l ++ [e]).
Proof.
  intros Hm He l1 x l2 E Hx. apply snoc_inv in E as [(-> & -> & ->)|(b & -> & ->)]; [apply He, Hx|]. exact (Hm l1 x b eq_refl Hx).
Qed.
Lemma reg_app p l e : reg_of p (l ++ [e]) = if at_path p e then Some
    (let f := filter (at_path p) l in let al := filter is_alloc f in
     mkri (zsum (map delta f) + delta e) (zsum (map ae_size al) + if ae_free e then 0 else ae_size e)
       (zmax (map ae_size al ++ if ae_free e then [] else [ae_size e])) (peak 0 (map delta f ++ [delta e])) (Z.of_nat (length al) + if ae_free e then 0 else 1) (Some p)) else reg_of p l.
Proof.
  unfold reg_of. rewrite filter_app. cbn [filter]. destruct (at_path p e) eqn:E; [|rewrite app_nil_r; reflexivity].
  cbv zeta. destruct (filter (at_path p) l ++ [e]) eqn:El; [destruct (filter (at_path p) l); discriminate|]. rewrite <- El. clear El.
  rewrite filter_app, !map_app, !zsum_app, app_length. cbn [filter map length]. unfold is_alloc at 2 4 6. destruct (ae_free e); cbn [negb map length app]; change (zsum []) with 0; change (zsum [delta e]) with (delta e + 0);
    rewrite ?app_nil_r; f_equal; f_equal; try lia.
  change (zsum [ae_size e]) with (ae_size e + 0). lia.
Qed.
Lemma reg_track_ok m l p sz i a : 0 <= sz -> (forall q, mfind m q = reg_of q l) -> Forall (fun e => 0 <= ae_size e) l ->
  forall q, mfind (reg_track m p sz) q = reg_of q (l ++ [mkaev i false a sz p]).
Proof.
  intros Hs H F q. rewrite reg_app. unfold reg_track, at_path at 1. cbn [ae_path]. rewrite (H p).
  destruct (N.eqb_spec p q) as [->|Hn].
  - unfold reg_of. destruct (filter (at_path q) l) as [|x r] eqn:E.
    + rewrite mfind_put, N.eqb_refl. cbn [ae_free ae_size delta map filter app length peak zsum zmax fold_right]. unfold delta. cbn [ae_free ae_size]. f_equal. f_equal; cbn; lia.
    + rewrite mfind_put, N.eqb_refl. rewrite <- E. cbv zeta. unfold delta at 3 5. cbn [ae_free ae_size ri_cur ri_tot ri_max ri_hwm ri_cnt ri_path]. rewrite zmax_app by exact Hs. rewrite peak_app. f_equal.
  - destruct (reg_of p l) as [r|]; rewrite mfind_put; rewrite (proj2 (N.eqb_neq p q) Hn); apply H.
Qed.
Lemma reg_untrack_ok m l p sz i a : 0 <= sz -> (forall q, mfind m q = reg_of q l) -> (exists e, In e l /\ ae_path e = p) ->
  forall q, mfind (reg_untrack m p sz) q = reg_of q (l ++ [mkaev i true a sz p]).
Proof.
  intros Hs H (e0 & He & Hp) q. rewrite reg_app. unfold reg_untrack, at_path at 1. cbn [ae_path]. rewrite (H p).
  assert (Hin : In e0 (filter (at_path p) l)). { apply filter_In. split; [exact He|]. unfold at_path. apply N.eqb_eq, Hp. }
  destruct (N.eqb_spec p q) as [->|Hn].
  - unfold reg_of. destruct (filter (at_path q) l) as [|x r] eqn:E; [destruct Hin|].
    rewrite mfind_put, N.eqb_refl. rewrite <- E. cbv zeta. unfold delta at 3 5. cbn [ae_free ae_size ri_cur ri_tot ri_max ri_hwm ri_cnt ri_path]. rewrite app_nil_r, peak_app. f_equal.
    destruct (peak_ge (map delta (filter (at_path q) l)) 0) as [G1 G2]. change (delta (mkaev i true a sz q)) with (- sz).
    rewrite (Z.max_l (peak 0 (map delta (filter (at_path q) l)))) by lia. rewrite !Z.add_0_r. reflexivity.
  - destruct (reg_of p l) as [r|]; rewrite mfind_put; rewrite (proj2 (N.eqb_neq p q) Hn); apply H.
Qed.
Lemma mput_keys {A} (m : list (N * A)) k x : NoDup (map fst m) -> NoDup (map fst (mput m k x)).
Proof.
  induction m as [|e m IH]; cbn [mput map]; intro H; [repeat constructor; intros []|]. inversion H as [|? ? H1 H2]; subst.
  destruct (N.eqb_spec (fst e) k) as [E|E]; cbn [map fst]; [rewrite <- E; constructor; assumption|]. constructor; [|apply IH, H2].
  clear IH H2 H. intro Hc. induction m as [|y m IHm]; cbn [mput map] in *; [destruct Hc as [Hc|[]]; cbn in Hc; congruence|].
  destruct (N.eqb_spec (fst y) k) as [Ey|Ey]; cbn [map fst] in Hc; [destruct Hc as [Hc|Hc]; [congruence|apply H1; right; exact Hc]|].
  destruct Hc as [Hc|Hc]; [apply H1; left; exact Hc|]. apply IHm; [|exact Hc]. intro; apply H1; right; assumption.
Qed.
Lemma reg_track_keys m p sz : NoDup (map fst m) -> NoDup (map fst (reg_track m p sz)).
Proof. intro H. unfold reg_track. destruct (mfind m p); apply mput_keys, H. Qed.
Lemma reg_untrack_keys m p sz : NoDup (map fst m) -> NoDup (map fst (reg_untrack m p sz)).
Proof. intro H. unfold reg_untrack. destruct (mfind m p); apply mput_keys, H. Qed.

Lemma inv_init n : inv (al_init n).
Proof.
  assert (R : forall i x, nth_error (repeat Idle n) i = Some x -> x = Idle). { intros i x H. apply nth_error_In in H. apply repeat_spec in H. exact H. }
  assert (P : forall B (f : nat -> apc -> list B) k, (forall j, f j Idle = []) -> pends f k (repeat Idle n) = []).
  { intros B f k Hf. apply pends_idle; [exact Hf|]. apply Forall_forall. intros x Hx. apply repeat_spec in Hx. exact Hx. }
  constructor; cbn [al_init a_alloc a_reg a_act a_hwm a_pc a_alog a_blog a_clog a_out map filter app].
  - constructor.
  - constructor.
  - constructor.
  - rewrite P by reflexivity. constructor.
  - rewrite P by reflexivity. constructor.
  - intro i. destruct (nth_error (repeat Idle n) i) as [x|] eqn:E; [rewrite (R i x E)|]; reflexivity.
  - intro i. destruct (nth_error (repeat Idle n) i) as [x|] eqn:E; [rewrite (R i x E)|]; reflexivity.
  - intros i a sz p [H|H]; apply R in H; discriminate.
  - intros i j x y a Hx _ Ha. apply R in Hx. subst x. discriminate.
  - intros a sz p H. discriminate.
  - intros i a sz p H. apply R in H. discriminate.
  - intro p. reflexivity.
  - intros e [].
  - reflexivity.
  - intro a. reflexivity.
  - intros l1 e l2 E. destruct l1; discriminate.
  - intro w. reflexivity.
Qed.
