(* std::map contents of the JSON formatter *)
From Coq Require Import Strings.Ascii Strings.String Sorted.
From Verif Require Import Base VariantModel VariantSpec NamesModel NamesProps TextModel TextProofs TreeModel CaliFileModel AggModel FilterModel RConfigModel FmtModel JsonSpec JsonModel JsonOutSpec JsonProofs.
Open Scope N_scope.

Lemma beqb_refl a : beqb a a = true. Proof. apply beqb_eq. reflexivity. Qed.
Lemma beqb_neq a b : a <> b -> beqb a b = false.
Proof. intro H. destruct (beqb a b) eqn:E; [apply beqb_eq in E; congruence|reflexivity]. Qed.
Lemma bltb_trans : forall a b c, bltb a b = true -> bltb b c = true -> bltb a c = true.
Proof.
  induction a as [|x a IH]; intros [|y b] [|z c]; cbn [bltb]; try congruence. intros H1 H2.
  destruct (N.ltb_spec x y); destruct (N.ltb_spec y z); destruct (N.ltb_spec x z); auto; try lia.
  - destruct (N.eqb_spec y z); [lia|congruence].
  - destruct (N.eqb_spec x y); [lia|congruence].
  - destruct (N.eqb_spec x y); destruct (N.eqb_spec y z); destruct (N.eqb_spec x z); try congruence; try lia. eapply IH; eauto.
Qed.
Lemma bltb_irr a : bltb a a = false.
Proof. induction a as [|x a IH]; [reflexivity|]. cbn [bltb]. rewrite N.ltb_irrefl, N.eqb_refl. exact IH. Qed.
Lemma bltb_total : forall a b, a <> b -> bltb a b = false -> bltb b a = true.
Proof.
  induction a as [|x a IH]; intros [|y b]; cbn [bltb]; try congruence. intros Hn H.
  destruct (N.ltb_spec x y); [discriminate|]. destruct (N.eqb_spec x y) as [->|].
  - rewrite N.ltb_irrefl, N.eqb_refl. apply IH; congruence.
  - replace (y <? x) with true by lia. reflexivity.
Qed.
Lemma bltb_neq a b : bltb a b = true -> a <> b.
Proof. intros H ->. rewrite bltb_irr in H. discriminate. Qed.

(* sorted by key *)
Definition srt {A} (m : list (bytes * A)) : Prop := StronglySorted (fun x y => before (fst x) (fst y)) m.
Fixpoint look {A} (m : list (bytes * A)) (k : bytes) : option A := match m with (k', v) :: r => if beqb k' k then Some v else look r k | [] => None end.
Lemma look_none {A} (m : list (bytes * A)) k : Forall (fun y => before k (fst y)) m -> look m k = None.
Proof. induction 1 as [|(k', v) m H _ IH]; [reflexivity|]. cbn [look]. cbn in H. rewrite beqb_neq; [exact IH|]. apply not_eq_sym, bltb_neq, H. Qed.
Lemma look_in {A} (m : list (bytes * A)) k v : srt m -> (In (k, v) m <-> look m k = Some v).
Proof.
  induction 1 as [|(k', v') m H IH Hf]; [cbn; split; [tauto|discriminate]|]. cbn [look In]. destruct (beqb k' k) eqn:E.
  - apply beqb_eq in E. subst k'. split.
    + intros [E|Hi]; [congruence|]. rewrite Forall_forall in Hf. apply Hf in Hi. cbn in Hi. apply bltb_neq in Hi. congruence.
    + intro E. injection E as ->. auto.
  - split; [intros [E1|Hi]; [injection E1 as -> _; rewrite beqb_refl in E; discriminate|apply IH, Hi]|intro Hl; right; apply IH, Hl].
Qed.
Lemma mput_fst m k f y : In y (map fst (mput m k f)) <-> y = k \/ In y (map fst m).
Proof.
  induction m as [|(k', v) m IH]; cbn [mput map In fst]; [intuition congruence|]. destruct (beqb k k') eqn:E.
  - apply beqb_eq in E. subst. cbn [map In fst]. intuition congruence.
  - destruct (bltb k k'); cbn [map In fst]; [intuition congruence|]. rewrite IH. tauto.
Qed.
Lemma fall_fst {A} (m : list (bytes * A)) (P : bytes -> Prop) : Forall (fun y => P (fst y)) m <-> forall y, In y (map fst m) -> P y.
Proof. rewrite Forall_forall. split; intros H y Hy; [apply in_map_iff in Hy; destruct Hy as (x & <- & Hx); auto|apply H, in_map, Hy]. Qed.
Lemma mput_srt m k f : srt m -> srt (mput m k f).
Proof.
  induction 1 as [|(k', v) m H IH Hf]; cbn [mput]; [constructor; constructor|]. destruct (beqb k k') eqn:E; [constructor; auto|].
  destruct (bltb k k') eqn:L.
  - constructor; [constructor; auto|]. constructor; [exact L|]. eapply Forall_impl; [|exact Hf]. intros y Hy. eapply bltb_trans; [exact L|exact Hy].
  - constructor; [exact IH|]. cbn [fst] in *. apply (fall_fst _ (fun y => before k' y)). intros y Hy. apply mput_fst in Hy. destruct Hy as [->|Hy].
    + apply bltb_total; [|exact L]. intros ->. rewrite beqb_refl in E. discriminate.
    + revert y Hy. apply (fall_fst _ (fun y => before k' y)), Hf.
Qed.
Lemma mput_look m k f k' : srt m -> look (mput m k f) k' = if beqb k k' then Some (f (look m k)) else look m k'.
Proof.
  induction 1 as [|(k0, v) m H IH Hf]; cbn [mput look]; [destruct (beqb k k'); reflexivity|]. destruct (beqb k k0) eqn:E.
  - apply beqb_eq in E. subst k0. cbn [look]. rewrite beqb_refl. destruct (beqb k k'); reflexivity.
  - assert (E' : beqb k0 k = false) by (apply beqb_neq; intros ->; rewrite beqb_refl in E; discriminate). rewrite E'.
    destruct (bltb k k0) eqn:L; cbn [look].
    + destruct (beqb k k') eqn:Ek; [|reflexivity]. f_equal. f_equal. symmetry. apply look_none. eapply Forall_impl; [|exact Hf]. intros y Hy. eapply bltb_trans; [exact L|exact Hy].
    + rewrite IH. destruct (beqb k k') eqn:Ek; [|reflexivity]. apply beqb_eq in Ek. subst k'. rewrite E'. reflexivity.
Qed.
Lemma kins_fst {A} (m : list (bytes * A)) k v y : In y (map fst (kins m k v)) <-> y = k \/ In y (map fst m).
Proof.
  induction m as [|(k', v') m IH]; cbn [kins map In fst]; [intuition congruence|]. destruct (beqb k k') eqn:E.
  - apply beqb_eq in E. subst. cbn [map In fst]. intuition congruence.
  - destruct (bltb k k'); cbn [map In fst]; [intuition congruence|]. rewrite IH. tauto.
Qed.
Lemma kins_srt {A} (m : list (bytes * A)) k v : srt m -> srt (kins m k v).
Proof.
  induction 1 as [|(k', v') m H IH Hf]; cbn [kins]; [constructor; constructor|]. destruct (beqb k k') eqn:E; [constructor; auto|].
  destruct (bltb k k') eqn:L.
  - constructor; [constructor; auto|]. constructor; [exact L|]. eapply Forall_impl; [|exact Hf]. intros y Hy. eapply bltb_trans; [exact L|exact Hy].
  - constructor; [exact IH|]. cbn [fst] in *. apply (fall_fst _ (fun y => before k' y)). intros y Hy. apply kins_fst in Hy. destruct Hy as [->|Hy].
    + apply bltb_total; [|exact L]. intros ->. rewrite beqb_refl in E. discriminate.
    + revert y Hy. apply (fall_fst _ (fun y => before k' y)), Hf.
Qed.
Lemma kins_look {A} (m : list (bytes * A)) k v k' : srt m -> look (kins m k v) k' = match look m k' with Some x => Some x | None => if beqb k k' then Some v else None end.
Proof.
  induction 1 as [|(k0, v0) m H IH Hf]; cbn [kins look]; [reflexivity|]. destruct (beqb k k0) eqn:E.
  - apply beqb_eq in E. subst k0. cbn [look]. destruct (beqb k k'); [reflexivity|destruct (look m k'); reflexivity].
  - destruct (bltb k k0) eqn:L; cbn [look].
    + destruct (beqb k k') eqn:Ek; [|destruct (beqb k0 k'); [reflexivity|destruct (look m k'); reflexivity]].
      apply beqb_eq in Ek. subst k'. rewrite (beqb_neq k0 k) by (intros ->; rewrite beqb_refl in E; discriminate).
      rewrite look_none; [reflexivity|]. eapply Forall_impl; [|exact Hf]. intros y Hy. eapply bltb_trans; [exact L|exact Hy].
    + rewrite IH. destruct (beqb k0 k'); reflexivity.
Qed.
Lemma kmap_gen {A} (l : list (bytes * A)) : forall m, srt m -> srt (fold_left (fun m p => kins m (fst p) (snd p)) l m) /\
  forall k, look (fold_left (fun m p => kins m (fst p) (snd p)) l m) k = match look m k with Some x => Some x | None => look l k end.
Proof.
  induction l as [|(k0, v0) l IH]; intros m Hm; cbn [fold_left look fst snd]; [split; [exact Hm|intro k; destruct (look m k); reflexivity]|].
  destruct (IH (kins m k0 v0) (kins_srt _ _ _ Hm)) as (H1 & H2). split; [exact H1|]. intro k. rewrite H2, kins_look by auto. destruct (look m k); [reflexivity|]. destruct (beqb k0 k); reflexivity.
Qed.
Lemma kmap_ok {A} (l : list (bytes * A)) : srt (kmap l) /\ forall k, look (kmap l) k = look l k.
Proof. apply (kmap_gen l []). constructor. Qed.
Lemma alookup_look l s : alookup l s = look l s.
Proof. induction l as [|(k, v) l IH]; [reflexivity|]. cbn. rewrite IH. reflexivity. Qed.

(* maps by attribute id *)
Definition gsrt (m : list (N * bytes)) : Prop := StronglySorted (fun x y => fst x < fst y) m.
Fixpoint glook (m : list (N * bytes)) (k : N) : option bytes := match m with (k', v) :: r => if k' =? k then Some v else glook r k | [] => None end.
Lemma gput_fst m k f y : In y (map fst (gput m k f)) <-> y = k \/ In y (map fst m).
Proof.
  induction m as [|(k', v) m IH]; cbn [gput map In fst]; [intuition congruence|]. destruct (N.eqb_spec k k') as [->|E].
  - cbn [map In fst]. intuition congruence.
  - destruct (k <? k'); cbn [map In fst]; [intuition congruence|]. rewrite IH. tauto.
Qed.
Lemma gfall_fst (m : list (N * bytes)) (P : N -> Prop) : Forall (fun y => P (fst y)) m <-> forall y, In y (map fst m) -> P y.
Proof. rewrite Forall_forall. split; intros H y Hy; [apply in_map_iff in Hy; destruct Hy as (x & <- & Hx); auto|apply H, in_map, Hy]. Qed.
Lemma gput_srt m k f : gsrt m -> gsrt (gput m k f).
Proof.
  induction 1 as [|(k', v) m H IH Hf]; cbn [gput]; [constructor; constructor|]. destruct (N.eqb_spec k k') as [->|E]; [constructor; auto|].
  destruct (N.ltb_spec k k') as [L|L].
  - constructor; [constructor; auto|]. constructor; [exact L|]. eapply Forall_impl; [|exact Hf]. cbn. intros y Hy. lia.
  - constructor; [exact IH|]. cbn [fst] in *. apply (gfall_fst _ (fun y => k' < y)). intros y Hy. apply gput_fst in Hy. destruct Hy as [->|Hy]; [lia|].
    revert y Hy. apply (gfall_fst _ (fun y => k' < y)), Hf.
Qed.
Lemma glook_none m k : Forall (fun y => k < fst y) m -> glook m k = None.
Proof. induction 1 as [|(k', v) m H _ IH]; [reflexivity|]. cbn [glook]. cbn in H. replace (k' =? k) with false by lia. exact IH. Qed.
Lemma gput_look m k f k' : gsrt m -> glook (gput m k f) k' = if k =? k' then Some (f (match glook m k with Some v => v | None => [] end)) else glook m k'.
Proof.
  induction 1 as [|(k0, v) m H IH Hf]; cbn [gput glook]; [destruct (k =? k'); reflexivity|]. destruct (N.eqb_spec k k0) as [->|E].
  - cbn [glook]. rewrite N.eqb_refl. destruct (k0 =? k'); reflexivity.
  - replace (k0 =? k) with false by lia. destruct (N.ltb_spec k k0) as [L|L]; cbn [glook].
    + destruct (N.eqb_spec k k') as [->|Ek]; [|reflexivity]. rewrite glook_none; [reflexivity|]. eapply Forall_impl; [|exact Hf]. cbn. intros y Hy. lia.
    + rewrite IH. destruct (N.eqb_spec k k') as [->|Ek]; [|reflexivity]. replace (k0 =? k') with false by lia. reflexivity.
Qed.
Lemma glook_in m k v : gsrt m -> (In (k, v) m <-> glook m k = Some v).
Proof.
  induction 1 as [|(k', v') m H IH Hf]; [cbn; split; [tauto|discriminate]|]. cbn [glook In]. destruct (N.eqb_spec k' k) as [->|E].
  - split; [intros [E|Hi]; [congruence|]; rewrite Forall_forall in Hf; apply Hf in Hi; cbn in Hi; lia|intro E; injection E as ->; auto].
  - split; [intros [E1|Hi]; [congruence|apply IH, Hi]|intro Hl; right; apply IH, Hl].
Qed.

(* texts *)
Lemma slashes_cons x l : l <> [] -> slashes (x :: l) = x ++ [47] ++ slashes l.
Proof. destruct l; [congruence|reflexivity]. Qed.
Definition ptext (l : list part) : bytes := slashes (until_str (rev l)).
Lemma until_nil l : l <> [] -> until_str l <> [].
Proof. destruct l as [|[t|t|t] l]; cbn; congruence. Qed.
Lemma ptext_outer l t : ptext (l ++ [Outer t]) = match l with [] => t | _ => t ++ [47] ++ ptext l end.
Proof.
  unfold ptext. rewrite rev_app_distr. cbn [rev app until_str]. destruct l as [|p l]; [reflexivity|]. apply slashes_cons, until_nil. cbn [rev]. destruct (rev l); discriminate.
Qed.
Lemma ptext_str l t : ptext (l ++ [Str t]) = t.
Proof. unfold ptext. rewrite rev_app_distr. reflexivity. Qed.
Definition gptext (l : list part) : bytes := slashes (rev (drop_empty (rev (until_str (rev l))))).
Lemma drop_snoc l t : drop_empty (l ++ [t]) = match drop_empty l with [] => drop_empty [t] | l' => l' ++ [t] end.
Proof. induction l as [|[|c x] l IH]; cbn [app drop_empty]; auto. Qed.
Lemma drop_hd l : match drop_empty l with [] => True | x :: _ => x <> [] end.
Proof. induction l as [|[|c x] l IH]; cbn; auto. discriminate. Qed.
Lemma slashes_last l x : x <> [] -> slashes (l ++ [x]) <> [].
Proof. intro H. destruct l as [|y l]; [exact H|]. cbn [app]. rewrite slashes_cons by (destruct l; discriminate). destruct y; discriminate. Qed.
Lemma gptext_outer l t : gptext (l ++ [Outer t]) = t ++ (if is_empty (gptext l) then [] else [47] ++ gptext l).
Proof.
  unfold gptext. rewrite rev_app_distr. cbn [rev app until_str]. set (u := rev (until_str (rev l))). rewrite drop_snoc. pose proof (drop_hd u) as Hh. destruct (drop_empty u) as [|x r].
  - cbn [rev slashes is_empty]. rewrite app_nil_r. destruct t; reflexivity.
  - rewrite rev_app_distr. cbn [rev app]. rewrite slashes_cons by (destruct (rev r); discriminate). pose proof (slashes_last (rev r) x Hh) as Hn. destruct (slashes (rev r ++ [x])) as [|z y] eqn:Ez; [exfalso; apply Hn; exact Ez|]. reflexivity.
Qed.
Lemma gptext_str l t : gptext (l ++ [Str t]) = t.
Proof. unfold gptext. rewrite rev_app_distr. cbn [rev app until_str drop_empty]. destruct t; reflexivity. Qed.

Section OUT.
Variable vtext : value -> bytes.
Variable d : mdb.
Variable q : jspec.
Notation get_key := (get_key d q). Notation key := (key d q). Notation shown := (shown d q).

Lemma get_key_ok a : get_key a = if shown a then key a else [].
Proof.
  unfold JsonModel.get_key, JsonOutSpec.shown, JsonOutSpec.key. destruct (js_sel q) as [|s l].
  - cbn [existsb negb is_empty andb orb]. destruct (is_hidden d a), (is_global d a); reflexivity.
  - destruct (existsb (fun s0 => beqb s0 (aname d a)) (s :: l)); reflexivity.
Qed.
Lemma is_empty_beqb (k : bytes) : is_empty k = beqb k []. Proof. destruct k; reflexivity. Qed.

(* one part *)
Definition apply_part (m : kvs) (p : bytes * part) : kvs :=
  match snd p with
  | Outer t => (mput (fst m) (fst p) (fun o => match o with None => t | Some s => t ++ [47] ++ s end), snd m)
  | Str t => (mput (fst m) (fst p) (fun _ => t), snd m)
  | Plain t => (fst m, mput (snd m) (fst p) (fun _ => t))
  end.
Lemma rec_kvs_parts rec : rec_kvs vtext d q rec = fold_left apply_part (parts vtext d q rec) ([], []).
Proof.
  unfold rec_kvs, parts. generalize (([], []) : kvs). induction rec as [|e rec IH]; intro m; [reflexivity|]. cbn [fold_left flat_map]. rewrite filter_app, fold_left_app, IH. f_equal. clear IH rec.
  destruct e as [i|a v]; cbn [add_entry].
  - generalize (node_path d i). intro l. revert m. induction l as [|x l IH]; intro m; [reflexivity|]. cbn [fold_left filter]. unfold add_node at 2. rewrite get_key_ok, is_empty_beqb. destruct (shown (fst x)).
    + cbn [map filter fst]. destruct (beqb (key (fst x)) []); cbn [negb]; [apply IH|]. cbn [fold_left]. apply IH.
    + cbn [beqb]. apply IH.
  - unfold add_imm. rewrite get_key_ok, is_empty_beqb. destruct (shown a); cbn [filter fst]; [|reflexivity]. destruct (beqb (key a) []); cbn [negb filter fold_left]; [reflexivity|].
    unfold apply_part. cbn [snd fst]. destruct (js_quote_all q || (attr_type d a =? T_STRING) || (attr_type d a =? T_USR)); reflexivity.
Qed.
(* what the parts say about a key *)
Definition strs_l (K : bytes) (l : list (bytes * part)) : list part := map snd (filter (fun p => beqb (fst p) K && match snd p with Plain _ => false | _ => true end) l).
Definition plains_l (K : bytes) (l : list (bytes * part)) : list bytes := flat_map (fun p => if beqb (fst p) K then match snd p with Plain t => [t] | _ => [] end else []) l.
Lemma strs_snoc K l p : strs_l K (l ++ [p]) = strs_l K l ++ (if beqb (fst p) K && match snd p with Plain _ => false | _ => true end then [snd p] else []).
Proof. unfold strs_l. rewrite filter_app, map_app. cbn [filter]. destruct (beqb (fst p) K && _); reflexivity. Qed.
Lemma plains_snoc K l p : plains_l K (l ++ [p]) = plains_l K l ++ (if beqb (fst p) K then match snd p with Plain t => [t] | _ => [] end else []).
Proof. unfold plains_l. rewrite flat_map_app. cbn [flat_map]. rewrite app_nil_r. reflexivity. Qed.
Lemma kvs_ok l : let m := fold_left apply_part l ([], []) in srt (fst m) /\ srt (snd m) /\
  (forall K, look (fst m) K = match strs_l K l with [] => None | s => Some (ptext s) end) /\
  (forall K, look (snd m) K = match plains_l K l with [] => None | s => Some (last s []) end).
Proof.
  induction l as [|(k, p) l IH] using rev_ind; [repeat split; constructor|]. cbv zeta in *. rewrite fold_left_app. cbn [fold_left]. set (m := fold_left apply_part l ([], [])) in *. destruct IH as (H1 & H2 & H3 & H4).
  unfold apply_part. cbn [fst snd]. destruct p as [t|t|t]; cbn [fst snd].
  - repeat split; [apply mput_srt, H1|exact H2| |].
    + intro K. rewrite mput_look by auto. rewrite strs_snoc. cbn [fst snd]. rewrite andb_true_r. destruct (beqb k K) eqn:E.
      * apply beqb_eq in E. subst K. rewrite H3. pose proof (ptext_outer (strs_l k l) t) as Hp. destruct (strs_l k l ++ [Outer t]) eqn:E2; [destruct (strs_l k l); discriminate|]. rewrite Hp. destruct (strs_l k l); reflexivity.
      * rewrite app_nil_r. apply H3.
    + intro K. rewrite plains_snoc. cbn [fst snd]. destruct (beqb k K); rewrite app_nil_r; apply H4.
  - repeat split; [apply mput_srt, H1|exact H2| |].
    + intro K. rewrite mput_look by auto. rewrite strs_snoc. cbn [fst snd]. rewrite andb_true_r. destruct (beqb k K) eqn:E.
      * pose proof (ptext_str (strs_l K l) t) as Hp. destruct (strs_l K l ++ [Str t]) eqn:E2; [destruct (strs_l K l); discriminate|]. rewrite Hp. reflexivity.
      * rewrite app_nil_r. apply H3.
    + intro K. rewrite plains_snoc. cbn [fst snd]. destruct (beqb k K); rewrite app_nil_r; apply H4.
  - repeat split; [exact H1|apply mput_srt, H2| |].
    + intro K. rewrite strs_snoc. cbn [fst snd]. rewrite andb_false_r, app_nil_r. apply H3.
    + intro K. rewrite mput_look by auto. rewrite plains_snoc. cbn [fst snd]. destruct (beqb k K) eqn:E.
      * pose proof (last_last (plains_l K l) t []) as Hp. destruct (plains_l K l ++ [t]) eqn:E2; [destruct (plains_l K l); discriminate|]. rewrite Hp. reflexivity.
      * rewrite app_nil_r. apply H4.
Qed.
(* the pairs of a sorted map *)
Lemma srt_keys {A} (m : list (bytes * A)) : srt m -> StronglySorted before (map fst m).
Proof. induction 1 as [|x m H IH Hf]; constructor; auto. apply Forall_map. exact Hf. Qed.
Lemma map_pairs {A} (m : list (bytes * A)) (g : bytes -> A) : srt m -> (forall k v, look m k = Some v -> v = g k) -> m = map (fun k => (k, g k)) (map fst m).
Proof.
  intros H Hg. rewrite map_map. rewrite <- (List.map_id m) at 1. apply map_ext_in. intros (k, v) Hi. apply (look_in _ _ _ H) in Hi. rewrite (Hg _ _ Hi). reflexivity.
Qed.
Lemma look_fst {A} (m : list (bytes * A)) k : srt m -> (In k (map fst m) <-> look m k <> None).
Proof.
  intro H. rewrite in_map_iff. split.
  - intros ((k', v) & <- & Hi). apply (look_in _ _ _ H) in Hi. cbn. rewrite Hi. discriminate.
  - destruct (look m k) as [v|] eqn:E; [|congruence]. intros _. exists (k, v). split; [reflexivity|]. apply look_in; auto.
Qed.

(* globals *)
Definition gapply (m : list (N * bytes)) (p : N * part) : list (N * bytes) :=
  match snd p with
  | Outer t => gput m (fst p) (fun s => t ++ (if is_empty s then [] else [47] ++ s))
  | Str t | Plain t => gput m (fst p) (fun _ => t)
  end.
Lemma global_parts globals : global_vals vtext d globals = fold_left gapply (gparts vtext d globals) [].
Proof.
  unfold global_vals, gparts. generalize ([] : list (N * bytes)). induction globals as [|e rec IH]; intro m; [reflexivity|]. cbn [fold_left flat_map]. rewrite fold_left_app, IH. f_equal. clear IH rec.
  destruct e as [i|a v]; cbn [gadd]; [|reflexivity]. generalize (node_path d i). intro l. revert m. induction l as [|x l IH]; intro m; [reflexivity|]. cbn [fold_left map]. apply IH.
Qed.
Definition gof (a : N) (l : list (N * part)) : list part := map snd (filter (fun p => fst p =? a) l).
Lemma gvals_ok l : Forall (fun p => match snd p with Plain _ => False | _ => True end) l -> let m := fold_left gapply l [] in gsrt m /\
  forall a, glook m a = match gof a l with [] => None | s => Some (gptext s) end.
Proof.
  induction l as [|(k, p) l IH] using rev_ind; intro HF; [split; [constructor|reflexivity]|]. apply Forall_app in HF. destruct HF as (HF & Hp). cbv zeta in *. rewrite fold_left_app. cbn [fold_left]. set (m := fold_left gapply l []) in *.
  destruct (IH HF) as (H1 & H2). unfold gapply. cbn [fst snd].
  assert (Es : forall a, gof a (l ++ [(k, p)]) = gof a l ++ (if k =? a then [p] else [])).
  { intro a. unfold gof. rewrite filter_app, map_app. cbn [filter fst]. destruct (k =? a); reflexivity. }
  destruct p as [t|t|t].
  - split; [apply gput_srt, H1|]. intro a. rewrite gput_look, Es by auto. destruct (N.eqb_spec k a) as [->|]; [|rewrite app_nil_r; apply H2].
    rewrite H2. pose proof (gptext_outer (gof a l) t) as Hg. destruct (gof a l ++ [Outer t]) eqn:E2; [destruct (gof a l); discriminate|]. rewrite Hg. destruct (gof a l); reflexivity.
  - split; [apply gput_srt, H1|]. intro a. rewrite gput_look, Es by auto. destruct (N.eqb_spec k a) as [->|]; [|rewrite app_nil_r; apply H2].
    pose proof (gptext_str (gof a l) t) as Hg. destruct (gof a l ++ [Str t]) eqn:E2; [destruct (gof a l); discriminate|]. rewrite Hg. reflexivity.
  - exfalso. inversion Hp as [|? ? Hx _]. exact Hx.
Qed.
End OUT.
