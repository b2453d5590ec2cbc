From Verif Require Import Base VariantModel VariantSpec TreeModel CaliFileModel FloatModel ArithSpec AggModel RegProfModel RegProfSpec.
Open Scope N_scope.

Lemma beq_spec a : forall b, beq a b = true <-> a = b.
Proof.
  induction a as [|x a IH]; intros [|y b]; cbn; split; intro H; try congruence; try reflexivity.
  - apply andb_prop in H. destruct H as (H1 & H2). apply N.eqb_eq in H1. apply IH in H2. congruence.
  - injection H as -> ->. rewrite N.eqb_refl. apply IH. reflexivity.
Qed.
Lemma beq_refl a : beq a a = true.
Proof. apply beq_spec. reflexivity. Qed.
Lemma beq_sym a b : beq a b = beq b a.
Proof. apply eq_true_iff_eq. rewrite !beq_spec. split; congruence. Qed.

Definition maddp (mp : list (bytes * N)) (c : bytes * N) := madd mp (fst c) (snd c).
Lemma madd_get mp k v k' : mget (madd mp k v) k' = if beq k k' then Some (dadd (match mget mp k with Some x => x | None => 0 end) v) else mget mp k'.
Proof.
  induction mp as [|[k0 x] mp IH]; cbn [madd mget].
  - destruct (beq k k') eqn:E; [|reflexivity]. reflexivity.
  - destruct (beq k0 k) eqn:E; cbn [mget].
    + apply beq_spec in E. subst k0. destruct (beq k k'); reflexivity.
    + rewrite IH. destruct (beq k0 k') eqn:E1; [|reflexivity].
      apply beq_spec in E1. subst k0. rewrite beq_sym, E. reflexivity.
Qed.
Lemma fold_get cs : forall mp k, mget (fold_left maddp cs mp) k =
  match filter (fun c => beq (fst c) k) cs with [] => mget mp k | l => Some (fold_left dadd (map snd l) (match mget mp k with Some x => x | None => 0 end)) end.
Proof.
  induction cs as [|[k0 v] cs IH]; intros mp k; cbn [fold_left filter fst]; [reflexivity|].
  rewrite IH. unfold maddp. cbn [fst snd]. rewrite madd_get. destruct (beq k0 k) eqn:E.
  - apply beq_spec in E. subst k0. cbn [map fold_left snd]. destruct (filter (fun c => beq (fst c) k) cs); reflexivity.
  - reflexivity.
Qed.
Lemma fold_osum cs k : mget (fold_left maddp cs []) k = osum (map snd (filter (fun c => beq (fst c) k) cs)).
Proof. rewrite fold_get. cbn [mget]. destruct (filter (fun c => beq (fst c) k) cs); reflexivity. Qed.
Lemma fold_keys cs : forall mp k v, mget (fold_left maddp cs mp) k = Some v -> In k (map fst cs) \/ mget mp k <> None.
Proof.
  induction cs as [|[k0 v0] cs IH]; intros mp k v H; cbn [fold_left] in H; [right; congruence|].
  destruct (IH _ _ _ H) as [X|X]; [left; right; exact X|]. unfold maddp in X. cbn [fst snd] in X. rewrite madd_get in X.
  destruct (beq k0 k) eqn:E; [apply beq_spec in E; left; left; exact E|right; exact X].
Qed.

(* join *)
Lemma join_snoc ps t : ps <> [] -> join (ps ++ [t]) = join ps ++ slash :: t.
Proof.
  induction ps as [|a ps IH]; intro H; [congruence|]. destruct ps as [|b ps]; [reflexivity|].
  change (join ((a :: b :: ps) ++ [t])) with (a ++ slash :: join ((b :: ps) ++ [t])). rewrite IH by discriminate.
  change (join (a :: b :: ps)) with (a ++ slash :: join (b :: ps)). rewrite <- app_assoc. reflexivity.
Qed.
Lemma join_nil ps : Forall (fun n => n <> [] /\ ~ In slash n) ps -> join ps = [] -> ps = [].
Proof.
  intros H E. destruct ps as [|a ps]; [reflexivity|]. inversion H as [|? ? (H1 & _) _]; subst.
  destruct ps; cbn [join] in E; destruct a; congruence || discriminate.
Qed.
Lemma slash_split a : forall b (x y : bytes), ~ In slash a -> ~ In slash b -> a ++ slash :: x = b ++ slash :: y -> a = b /\ x = y.
Proof.
  induction a as [|c a IH]; intros [|c2 b] x y Ha Hb E; cbn [app] in E.
  - injection E as ->. auto.
  - injection E as E1 _. exfalso. apply Hb. left. congruence.
  - injection E as E1 _. exfalso. apply Ha. left. congruence.
  - injection E as -> E. destruct (IH b x y) as (-> & ->); auto; intro H; [apply Ha|apply Hb]; right; exact H.
Qed.
Lemma join_inj ps : forall qs, Forall (fun n => n <> [] /\ ~ In slash n) ps -> Forall (fun n => n <> [] /\ ~ In slash n) qs -> join ps = join qs -> ps = qs.
Proof.
  induction ps as [|a ps IH]; intros qs Hp Hq E.
  - symmetry. apply join_nil; auto.
  - inversion Hp as [|? ? (A1 & A2) HP]; subst. destruct qs as [|b qs]; [apply join_nil; auto|].
    inversion Hq as [|? ? (B1 & B2) HQ]; subst. destruct ps as [|a2 ps], qs as [|b2 qs].
    + cbn in E. congruence.
    + exfalso. apply A2. change (a = b ++ slash :: join (b2 :: qs)) in E. rewrite E. apply in_or_app. right. left. reflexivity.
    + exfalso. apply B2. change (a ++ slash :: join (a2 :: ps) = b) in E. rewrite <- E. apply in_or_app. right. left. reflexivity.
    + change (a ++ slash :: join (a2 :: ps) = b ++ slash :: join (b2 :: qs)) in E.
      destruct (slash_split _ _ _ _ A2 B2 E) as (-> & E2). f_equal. apply IH; auto.
Qed.

Section T.
Variable vtext : value -> bytes.
Variable d : mdb.
Variable m : N.
Variable r : option N.
Notation names := (names vtext d r).
Notation values := (values d m).
Definition lnames (l : list (N * value)) : list bytes := map (fun x => vtext (snd x)) (rev (filter (fun x => is_target d r (fst x)) l)).
Lemma lnames_cons a v up : lnames ((a, v) :: up) = if is_target d r a then lnames up ++ [vtext v] else lnames up.
Proof. unfold lnames. cbn [filter fst]. destruct (is_target d r a); [|reflexivity]. cbn [rev]. rewrite map_app. reflexivity. Qed.
Lemma extend_join ps t : Forall (fun n : bytes => n <> []) ps -> extend (join ps) t = join (ps ++ [t]).
Proof.
  intro H. destruct ps as [|a ps]; [reflexivity|]. rewrite join_snoc by discriminate. unfold extend.
  inversion H as [|? ? A _]; subst. destruct (join (a :: ps)) eqn:E; [|reflexivity].
  exfalso. destruct ps; cbn [join] in E; destruct a; congruence || discriminate.
Qed.
Lemma get_path_join l : Forall (fun n : bytes => n <> []) (lnames l) -> get_path vtext d r l = join (lnames l).
Proof.
  induction l as [|[a v] up IH]; intro H; [reflexivity|]. cbn [get_path]. rewrite lnames_cons in *.
  destruct (is_target d r a); [|auto]. apply Forall_app in H. destruct H as (H & _). rewrite IH by exact H. apply extend_join. exact H.
Qed.
Definition prefixes (ps : list bytes) : list bytes := map (fun k => join (firstn k ps)) (seq 1 (length ps)).
Lemma prefixes_snoc ps t : prefixes (ps ++ [t]) = prefixes ps ++ [join (ps ++ [t])].
Proof.
  unfold prefixes. rewrite app_length. cbn [length]. rewrite Nat.add_1_r, seq_S, map_app. cbn [map].
  f_equal.
  - apply map_ext_in. intros k Hk. apply in_seq in Hk. rewrite firstn_app. replace (k - length ps)%nat with O by lia. rewrite app_nil_r. reflexivity.
  - f_equal. f_equal. apply firstn_all2. rewrite app_length. cbn. lia.
Qed.
Lemma rec_update_spec v l : forall mp, Forall (fun n : bytes => n <> []) (lnames l) ->
  rec_update vtext d r v l mp = (join (lnames l), fold_left maddp (map (fun k => (k, v)) (prefixes (lnames l))) mp).
Proof.
  induction l as [|[a x] up IH]; intros mp H; [reflexivity|]. cbn [rec_update]. rewrite lnames_cons in *.
  destruct (is_target d r a).
  - apply Forall_app in H. destruct H as (H & _). rewrite IH by exact H. rewrite extend_join by exact H.
    rewrite prefixes_snoc, map_app, fold_left_app. reflexivity.
  - rewrite IH by exact H. reflexivity.
Qed.
(* the contributions of a record to the nested inclusive profile *)
Fixpoint first_names (l : list N) : list bytes := match l with [] => [] | i :: q => match names i with [] => first_names q | ns => ns end end.
Lemma inside_iff rec ps : inside vtext d r rec ps <-> first_names (refs rec) = ps /\ ps <> [].
Proof.
  unfold inside. generalize (refs rec) as l. induction l as [|i l IH]; cbn [first_names].
  - split; [intros (l1 & i & l2 & E & _); destruct l1; discriminate|]. intros (<- & H). congruence.
  - destruct (names i) as [|n ns] eqn:E.
    + rewrite <- IH. split.
      * intros (l1 & j & l2 & E1 & F & N1 & N2). destruct l1 as [|x l1].
        -- injection E1 as -> ->. congruence.
        -- injection E1 as -> ->. inversion F; subst. exists l1, j, l2. auto.
      * intros (l1 & j & l2 & -> & F & N1 & N2). exists (i :: l1), j, l2. repeat split; auto.
    + split.
      * intros (l1 & j & l2 & E1 & F & N1 & N2). destruct l1 as [|x l1].
        -- injection E1 as -> ->. split; congruence.
        -- injection E1 as -> ->. inversion F; subst. congruence.
      * intros (<- & H). exists [], i, l. repeat split; auto.
Qed.
Lemma incl_entries_spec v rec : forall mp, (forall i n, In i (refs rec) -> In n (names i) -> n <> []) ->
  incl_entries vtext d r v rec mp [] = (join (first_names (refs rec)), fold_left maddp (map (fun k => (k, v)) (prefixes (first_names (refs rec)))) mp).
Proof.
  induction rec as [|e rec IH]; intros mp H; [reflexivity|]. destruct e as [i|a x]; cbn [incl_entries refs flat_map app].
  - change (flat_map (fun e => match e with ERef i0 => [i0] | EImm _ _ => [] end) rec) with (refs rec). cbn [first_names].
    assert (Hi : Forall (fun n : bytes => n <> []) (names i)) by (apply Forall_forall; intros n Hn; apply (H i n); [left; reflexivity|exact Hn]).
    unfold names in Hi. fold (lnames (node_path d i)) in Hi. rewrite rec_update_spec by exact Hi.
    change (lnames (node_path d i)) with (names i). change (lnames (node_path d i)) with (names i) in Hi.
    destruct (names i) as [|n ns] eqn:E.
    + cbn [join]. cbn [prefixes length seq map fold_left]. apply IH. intros j n Hj. apply H. right. exact Hj.
    + destruct (join (n :: ns)) eqn:J; [|reflexivity]. exfalso. inversion Hi as [|? ? A _]; subst.
      destruct ns; cbn [join] in J; destruct n; congruence || discriminate.
  - apply IH. exact H.
Qed.
Definition contr_incl (rec : list entry) : list (bytes * N) :=
  match metric_of d m rec with None => [] | Some v => map (fun k => (k, v)) (prefixes (first_names (refs rec))) end.

(* totals *)
Definition vals (P : list entry -> bool) (recs : list (list entry)) : list N :=
  flat_map (fun rec => match metric_of d m rec with Some v => if P rec then [v] else [] | None => [] end) recs.
Lemma vals_values (P : list entry -> bool) (Q : list entry -> Prop) recs l : (forall rec, In rec recs -> P rec = true <-> Q rec) ->
  values Q recs l -> l = vals P recs.
Proof.
  intros H V. induction V as [|rec v recs l M QR V IH|rec recs l NQ V IH]; [reflexivity| |]; unfold vals; cbn [flat_map].
  - rewrite M. rewrite (proj2 (H rec (or_introl eq_refl)) QR). cbn [app]. f_equal. apply IH. intros x Hx. apply H. right. exact Hx.
  - assert (IH' : l = vals P recs) by (apply IH; intros x Hx; apply H; right; exact Hx). destruct NQ as [->|NQ]; [exact IH'|].
    destruct (metric_of d m rec); [|exact IH']. destruct (P rec) eqn:E; [|exact IH']. exfalso. apply NQ. apply (H rec (or_introl eq_refl)). exact E.
Qed.
Lemma values_ex (P : list entry -> bool) (Q : list entry -> Prop) recs : (forall rec, In rec recs -> P rec = true <-> Q rec) -> values Q recs (vals P recs).
Proof.
  induction recs as [|rec recs IH]; intro H; [constructor|]. unfold vals. cbn [flat_map].
  assert (IH' := IH (fun x Hx => H x (or_intror Hx))). specialize (H rec (or_introl eq_refl)).
  destruct (metric_of d m rec) as [v|] eqn:M; [|apply vs_skip; auto]. destruct (P rec); cbn [app].
  - apply vs_take; auto. apply H. reflexivity.
  - apply vs_skip; auto. right. intro Q1. apply H in Q1. discriminate.
Qed.
End T.
