(* C55: JSON output can be read back *)
From Coq Require Import Strings.Ascii Strings.String Sorted.
From Verif Require Import Base VariantModel VariantSpec NamesModel NamesProps TextModel TextProofs TreeModel CaliFileModel AggModel FilterModel RConfigModel FmtModel JsonSpec JsonModel JsonOutSpec JsonProofs JsonProofs2.
Open Scope N_scope.

Lemma jesc_id s : forallb (fun c => (32 <=? c) && (c <? 128) && negb ((c =? 92) || (c =? 34))) s = true -> jesc s = s.
Proof.
  induction s as [|c s IH]; [reflexivity|]. cbn [forallb]. intro H. apply andb_true_iff in H. destruct H as (H1 & H2). unfold jesc. cbn [flat_map]. fold (jesc s). rewrite IH by auto.
  unfold jesc1, ctrl, c_nl, c_bs. replace (c =? 10) with false by lia. replace ((c <? 32) || (128 <=? c)) with false by lia. replace ((c =? 92) || (c =? 34)) with false by lia. reflexivity.
Qed.
Lemma jnum_chars t : jnum t -> forallb (fun c => digit c || (c =? 45) || (c =? 46)) t = true.
Proof.
  intros [neg dd t' fr H1 _ H2]. rewrite forallb_app. apply andb_true_iff. split; [destruct neg; reflexivity|]. change (dd :: t' ++ match fr with Some f => 46 :: f | None => [] end) with ((dd :: t') ++ match fr with Some f => 46 :: f | None => [] end).
  rewrite forallb_app. apply andb_true_iff. assert (Hd : forall l, forallb digit l = true -> forallb (fun c => digit c || (c =? 45) || (c =? 46)) l = true).
  { intros l Hl. rewrite forallb_forall in *. intros c Hc. rewrite (Hl c Hc). reflexivity. }
  split; [apply Hd, H1|]. destruct fr as [f|]; [|reflexivity]. cbn [forallb]. change (digit 46 || (46 =? 45) || (46 =? 46)) with true. cbn [andb]. apply Hd. apply (H2 f eq_refl).
Qed.
Lemma scalar_ok t : scalar t -> reads (scalar_of t) t /\ jesc t = t.
Proof.
  intros [->|[->|H]].
  - split; [apply (reads_bool true)|reflexivity].
  - split; [apply (reads_bool false)|reflexivity].
  - pose proof (jnum_chars t H) as Hc. split.
    + unfold scalar_of. destruct (beqb t (bs "true")) eqn:E1; [apply beqb_eq in E1; subst; discriminate Hc|]. destruct (beqb t (bs "false")) eqn:E2; [apply beqb_eq in E2; subst; discriminate Hc|]. apply reads_num, H.
    + apply jesc_id. rewrite forallb_forall in *. intros c Hi. specialize (Hc c Hi). unfold digit in Hc. lia.
Qed.
Lemma commas_seps l : commas l = seps [44] l.
Proof. induction l as [|x [|y l] IH]; [reflexivity|reflexivity|]. change (commas (x :: y :: l)) with (x ++ [44] ++ commas (y :: l)). rewrite IH. reflexivity. Qed.
Lemma seps_ws w l : l <> [] -> w ++ seps ([44] ++ w) l = seps [44%N] (map (fun t => w ++ t) l).
Proof.
  induction l as [|x [|y l] IH]; intro H; [congruence|reflexivity|]. change (seps ([44] ++ w) (x :: y :: l)) with (x ++ ([44] ++ w) ++ seps ([44] ++ w) (y :: l)). 
  change (map (fun t => w ++ t) (x :: y :: l)) with ((w ++ x) :: map (fun t => w ++ t) (y :: l)). 
  change (seps [44] ((w ++ x) :: map (fun t => w ++ t) (y :: l))) with ((w ++ x) ++ [44] ++ seps [44] (map (fun t => w ++ t) (y :: l))). rewrite <- IH by discriminate. rewrite <- !app_assoc. reflexivity.
Qed.

Section OUT.
Variable vtext : value -> bytes.
Variable d : mdb.
Variable q : jspec.
Notation rec_kvs := (rec_kvs vtext d q).
Lemma pp_ws s : ws s -> ws (pp q s). Proof. unfold pp. destruct (js_pretty q); auto. reflexivity. Qed.

Definition kv_items (m : kvs) : list mitem :=
  map (fun p => mkmi (pp q [10; 9]) (fst p) [] (quoted (snd p)) (JStr (clean (snd p)))) (fst m) ++ map (fun p => mkmi (pp q [10; 9]) (fst p) [] (jesc (snd p)) (scalar_of (snd p))) (snd m).
Definition kv_obj (m : kvs) : list (bytes * json) := map (fun p => (kept (fst p), JStr (kept (snd p)))) (fst m) ++ map (fun p => (kept (fst p), scalar_of (snd p))) (snd m).
Lemma rec_text_reads m : (forall K t, In (K, t) (snd m) -> scalar t) -> reads (JObj (kv_obj m)) (rec_text q m).
Proof.
  intro Hs. unfold rec_text. cbn [app]. rewrite commas_seps.
  assert (E : members q m = map mi_text (kv_items m)).
  { unfold members, kv_items. rewrite map_app, !map_map. reflexivity. }
  assert (E2 : kv_obj m = map mi_val (kv_items m)).
  { unfold kv_obj, kv_items. rewrite map_app, !map_map. reflexivity. }
  rewrite E, E2. apply reads_obj; [apply pp_ws; reflexivity|]. apply Forall_app. split; apply Forall_map, Forall_forall.
  - intros (K, t) _. split; [apply pp_ws; reflexivity|]. split; [reflexivity|]. apply reads_str.
  - intros (K, t) Hi. split; [apply pp_ws; reflexivity|]. split; [reflexivity|]. destruct (scalar_ok t (Hs K t Hi)) as (H1 & H2). cbn [mi_t mi_j snd]. rewrite H2. exact H1.
Qed.
Lemma kept_members rec : object_of vtext d q rec (kv_obj (rec_kvs rec)).
Proof.
  rewrite rec_kvs_parts. destruct (kvs_ok (parts vtext d q rec)) as (H1 & H2 & H3 & H4). set (m := fold_left apply_part (parts vtext d q rec) ([], [])) in *.
  exists (map fst (fst m)), (map fst (snd m)). split; [apply srt_keys, H1|]. split; [apply srt_keys, H2|]. split; [|split].
  - intro K. rewrite look_fst by auto. rewrite H3. fold (strs_l K (parts vtext d q rec)). unfold strs. fold (strs_l K (parts vtext d q rec)). destruct (strs_l K (parts vtext d q rec)); split; congruence.
  - intro K. rewrite look_fst by auto. rewrite H4. unfold plains. fold (plains_l K (parts vtext d q rec)). destruct (plains_l K (parts vtext d q rec)); split; congruence.
  - unfold kv_obj. f_equal; rewrite map_map; apply map_ext_in; intros (K, t) Hi; cbn [fst snd].
    + apply (look_in _ _ _ H1) in Hi. rewrite H3 in Hi. unfold str_text, strs. fold (strs_l K (parts vtext d q rec)). unfold ptext in Hi. destruct (strs_l K (parts vtext d q rec)); [discriminate|]. injection Hi as <-. reflexivity.
    + apply (look_in _ _ _ H2) in Hi. rewrite H4 in Hi. unfold plains. fold (plains_l K (parts vtext d q rec)). destruct (plains_l K (parts vtext d q rec)); [discriminate|]. injection Hi as <-. reflexivity.
Qed.
Definition nonempty_kvs (m : kvs) : bool := negb (is_empty (fst m) && is_empty (snd m)).
Lemma nonempty_has rec : nonempty_kvs (rec_kvs rec) = has_member vtext d q rec.
Proof.
  unfold has_member, nonempty_kvs. rewrite rec_kvs_parts. f_equal. generalize (parts vtext d q rec). intro l. destruct l as [|(k, p) l _] using rev_ind; [reflexivity|].
  rewrite fold_left_app. cbn [fold_left]. set (m := fold_left apply_part l ([], [])). clearbody m. transitivity false; [|destruct l; reflexivity].
  assert (Hm : forall m k f, is_empty (mput m k f) = false). { intros m0 k0 f. destruct m0 as [|(k', v) r]; [reflexivity|]. cbn [mput]. destruct (beqb k0 k'); [reflexivity|]. destruct (bltb k0 k'); reflexivity. }
  destruct p; unfold apply_part; cbn [fst snd]; rewrite Hm; [reflexivity|reflexivity|apply andb_false_r].
Qed.
(* the unquoted values of the records are JSON numbers or truth values *)
Definition plain_ok (recs : list (list entry)) : Prop := forall rec K t, In rec recs -> In t (plains vtext d q K rec) -> scalar t.
Lemma plain_scalar recs rec K t : plain_ok recs -> In rec recs -> In (K, t) (snd (rec_kvs rec)) -> scalar t.
Proof.
  intros Hp Hr Hi. rewrite rec_kvs_parts in Hi. destruct (kvs_ok (parts vtext d q rec)) as (_ & H2 & _ & H4). apply (look_in _ _ _ H2) in Hi. rewrite H4 in Hi. apply (Hp rec K t Hr). unfold plains. fold (plains_l K (parts vtext d q rec)).
  destruct (plains_l K (parts vtext d q rec)) as [|x l] eqn:E; [discriminate|]. injection Hi as Hi. rewrite <- Hi. clear. revert x. induction l as [|y l IH]; intro x; [left; reflexivity|right; apply IH].
Qed.
(* the output after the records *)
Definition mems (recs : list (list entry)) : list kvs := filter nonempty_kvs (map rec_kvs recs).
Lemma seps_snoc sep l x : seps sep (l ++ [x]) = match l with [] => x | _ => seps sep l ++ sep ++ x end.
Proof.
  induction l as [|y [|z l] IH]; [reflexivity|reflexivity|]. change ((y :: z :: l) ++ [x]) with (y :: z :: (l ++ [x])). change (seps sep (y :: z :: (l ++ [x]))) with (y ++ sep ++ seps sep ((z :: l) ++ [x])). rewrite IH.
  change (seps sep (y :: z :: l)) with (y ++ sep ++ seps sep (z :: l)). rewrite <- !app_assoc. reflexivity.
Qed.
Lemma print_all recs : let s := fold_left (print vtext d q) recs j_init in
  j_num s = length (mems recs) /\ j_out s = match mems recs with [] => [] | l => begin_records q ++ seps [44; 10] (map (rec_text q) l) end.
Proof.
  induction recs as [|rec recs IH] using rev_ind; [split; reflexivity|]. cbv zeta in *. rewrite fold_left_app. cbn [fold_left]. set (s := fold_left (print vtext d q) recs j_init) in *. destruct IH as (IH1 & IH2).
  assert (E : mems (recs ++ [rec]) = mems recs ++ (if nonempty_kvs (rec_kvs rec) then [rec_kvs rec] else [])).
  { unfold mems. rewrite map_app, filter_app. cbn [map filter]. destruct (nonempty_kvs (rec_kvs rec)); reflexivity. }
  rewrite E. unfold print. change (is_empty (fst (rec_kvs rec)) && is_empty (snd (rec_kvs rec))) with (is_empty (fst (rec_kvs rec)) && is_empty (snd (rec_kvs rec))).
  unfold nonempty_kvs. destruct (is_empty (fst (rec_kvs rec)) && is_empty (snd (rec_kvs rec))); cbn [negb].
  - rewrite app_nil_r. auto.
  - cbn [j_num j_out]. rewrite app_length, IH1. cbn [length]. split; [lia|]. rewrite IH2. destruct (mems recs) as [|m0 ms].
    + cbn [length Nat.eqb Nat.ltb Nat.leb app map seps]. reflexivity.
    + cbn [length Nat.eqb]. change ((0 <? S (length ms))%nat) with true. cbn [app]. change (map (rec_text q) (m0 :: ms ++ [rec_kvs rec])) with (map (rec_text q) ((m0 :: ms) ++ [rec_kvs rec])). rewrite map_app. cbn [map]. 
      change (rec_text q m0 :: map (rec_text q) ms ++ [rec_text q (rec_kvs rec)]) with ((rec_text q m0 :: map (rec_text q) ms) ++ [rec_text q (rec_kvs rec)]). rewrite seps_snoc. rewrite <- app_assoc. reflexivity.
Qed.
(* the array of records *)
Definition arr_text (l : list bytes) : bytes := [91; 10] ++ seps [44; 10] l ++ [10; 93].
Lemma arr_reads (l : list bytes) (js : list json) : Forall2 (fun t j => reads j t) l js -> reads (JArr js) (arr_text l).
Proof.
  intro HF. set (its := combine l js).
  assert (E1 : map (fun p => mkei [10] (fst p) (snd p)) its = map (fun p => mkei [10] (fst p) (snd p)) (combine l js)) by reflexivity.
  assert (Ej : js = map ei_j (map (fun p => mkei [10] (fst p) (snd p)) (combine l js))).
  { rewrite map_map. clear its E1. induction HF; cbn; [reflexivity|]. f_equal. exact IHHF. }
  assert (Et : map (fun t => [10] ++ t) l = map ei_text (map (fun p => mkei [10] (fst p) (snd p)) (combine l js))).
  { rewrite map_map. clear its E1 Ej. induction HF; cbn; [reflexivity|]. f_equal. exact IHHF. }
  assert (Hok : Forall ei_ok (map (fun p => mkei [10] (fst p) (snd p)) (combine l js))).
  { apply Forall_map. clear its E1 Ej Et. induction HF; cbn; constructor; auto. split; [reflexivity|exact H]. }
  unfold arr_text. destruct l as [|x l].
  - inversion HF; subst. apply (reads_arr [] [10; 10]); [reflexivity|constructor].
  - pose proof (reads_arr _ [10] eq_refl Hok) as R. rewrite <- Ej, <- Et in R. rewrite <- seps_ws in R by discriminate. exact R.
Qed.
Lemma objs_ok recs : plain_ok recs -> exists objs, Forall2 (fun t j => reads j t) (map (rec_text q) (mems recs)) (map JObj objs) /\ Forall2 (object_of vtext d q) (filter (has_member vtext d q) recs) objs.
Proof.
  intro Hp. exists (map kv_obj (mems recs)). assert (Hsub : forall m, In m (mems recs) -> exists rec, In rec recs /\ m = rec_kvs rec).
  { intros m Hm. unfold mems in Hm. apply filter_In in Hm. destruct Hm as (Hm & _). apply in_map_iff in Hm. destruct Hm as (rec & <- & Hi). eauto. }
  split.
  - induction (mems recs) as [|m l IH]; cbn [map]; constructor; [|apply IH; intros; apply Hsub; right; auto].
    destruct (Hsub m (or_introl eq_refl)) as (rec & Hr & ->). apply rec_text_reads. intros K t. apply (plain_scalar recs rec K t Hp Hr).
  - clear Hsub Hp. unfold mems. induction recs as [|rec recs IH]; cbn [map filter]; [constructor|]. rewrite nonempty_has. destruct (has_member vtext d q rec); cbn [map]; [constructor; [apply kept_members|exact IH]|exact IH].
Qed.

(* Records layout: the output is one JSON array with one object for every record that has something to show. *)
Theorem C55_records globals recs : js_layout q = JRecords -> plain_ok recs ->
  exists objs, jread (json_output vtext d q globals recs) = Some (JArr (map JObj objs)) /\ Forall2 (object_of vtext d q) (filter (has_member vtext d q) recs) objs.
Proof.
  intros Hl Hp. destruct (objs_ok recs Hp) as (objs & Ho & Hf). exists objs. split; [|exact Hf]. unfold json_output, flush. destruct (print_all recs) as (Hn & Hj). rewrite Hn, Hj.
  assert (E : (match mems recs with [] => [] | l => begin_records q ++ seps [44; 10] (map (rec_text q) l) end) ++ (if (length (mems recs) =? 0)%nat then begin_records q else []) ++ end_records q = arr_text (map (rec_text q) (mems recs))).
  { unfold begin_records, end_records, arr_text. rewrite Hl. destruct (mems recs); cbn [map length Nat.eqb]; [reflexivity|]. rewrite <- app_assoc. reflexivity. }
  rewrite Hl. cbn [app]. rewrite !app_assoc. rewrite <- (app_assoc (match mems recs with [] => [] | l => begin_records q ++ seps [44; 10] (map (rec_text q) l) end)). rewrite E.
  apply (jread_ok _ [] _ [10]); [reflexivity|reflexivity|]. apply arr_reads, Ho.
Qed.

(* globals *)
Definition gl_obj (globals : list entry) : list (bytes * json) := map (fun p => (kept (aname d (fst p)), JStr (kept (snd p)))) (global_vals vtext d globals).
Lemma gl_ok globals : globals_of vtext d globals (gl_obj globals).
Proof.
  unfold gl_obj. rewrite global_parts. destruct (gvals_ok (gparts vtext d globals)) as (H1 & H2).
  { unfold gparts. apply Forall_flat_map, Forall_forall. intros [i|a v] _; [apply Forall_map, Forall_forall; intros; exact Logic.I|constructor; [exact Logic.I|constructor]]. }
  set (m := fold_left gapply (gparts vtext d globals) []) in *. exists (map fst m). split; [|split].
  - clear H2. induction H1 as [|x m H IH Hf]; constructor; auto. apply Forall_map. exact Hf.
  - intro a. unfold gparts_of. fold (gof a (gparts vtext d globals)). rewrite in_map_iff. specialize (H2 a). split.
    + intros ((a', v) & <- & Hi). apply (glook_in _ _ _ H1) in Hi. cbn [fst] in *. rewrite H2 in Hi. destruct (gof a' (gparts vtext d globals)); congruence.
    + intro Hn. destruct (gof a (gparts vtext d globals)) as [|p l]; [congruence|]. exists (a, gptext (p :: l)). split; [reflexivity|]. apply glook_in; auto.
  - rewrite map_map. apply map_ext_in. intros (a, v) Hi. apply (glook_in _ _ _ H1) in Hi. rewrite H2 in Hi. cbn [fst snd]. unfold gtext, gparts_of. fold (gof a (gparts vtext d globals)). unfold gptext in Hi. destruct (gof a (gparts vtext d globals)); [discriminate|]. injection Hi as <-. reflexivity.
Qed.
Lemma nl_seps (l : list bytes) w : ws w -> exists we, ws we /\ forall e, [10] ++ seps [44; 10] l ++ w ++ e = seps [44%N] (map (fun t => [10] ++ t) l) ++ we ++ e.
Proof.
  intro Hw. destruct l as [|x l]; [exists (10 :: w); split; [exact Hw|reflexivity]|]. exists w. split; [exact Hw|]. intro e. rewrite <- (seps_ws [10] (x :: l)) by discriminate. rewrite <- !app_assoc. reflexivity.
Qed.
Lemma gl_reads globals : reads (JObj (gl_obj globals)) ([123; 10] ++ write_globals vtext d q globals ++ [10; 125]).
Proof.
  unfold write_globals. destruct (nl_seps (map (fun p => pp q [9] ++ quoted (aname d (fst p)) ++ [58; 32] ++ quoted (snd p)) (global_vals vtext d globals)) [10] eq_refl) as (we & Hw & E).
  set (its := map (fun p => mkmi (10 :: pp q [9]) (aname d (fst p)) [32] (quoted (snd p)) (JStr (clean (snd p)))) (global_vals vtext d globals)).
  assert (Ev : gl_obj globals = map mi_val its). { unfold gl_obj, its. rewrite map_map. reflexivity. }
  assert (Et : map (fun t => [10] ++ t) (map (fun p => pp q [9] ++ quoted (aname d (fst p)) ++ [58; 32] ++ quoted (snd p)) (global_vals vtext d globals)) = map mi_text its).
  { unfold its. rewrite !map_map. reflexivity. }
  specialize (E [125]). rewrite Et in E. rewrite Ev. pose proof (reads_obj its we Hw) as R. rewrite <- E in R. apply R.
  unfold its. apply Forall_map, Forall_forall. intros (a, v) _. split; [|split; [reflexivity|apply reads_str]]. unfold ws. cbn [mi_w forallb]. apply (pp_ws [9] eq_refl).
Qed.
(* attributes *)
Definition plain_name (n : bytes) : Prop := forallb (fun c => (32 <=? c) && (c <? 128) && negb ((c =? 92) || (c =? 34))) n = true.
Lemma plain_quoted n : plain_name n -> quoted n = [34] ++ n ++ [34] /\ clean n = n.
Proof.
  intro H. split; [unfold quoted; rewrite (jesc_id n H); reflexivity|]. unfold clean. apply filter_id. unfold plain_name in H. rewrite forallb_forall in *. intros c Hc. specialize (H c Hc). unfold storable. lia.
Qed.
Lemma seps_flat x l : seps [44%N] (x :: l) = x ++ flat_map (fun t => [44] ++ t) l.
Proof. revert x. induction l as [|y l IH]; intro x; [cbn; rewrite app_nil_r; reflexivity|]. change (seps [44%N] (x :: y :: l)) with (x ++ [44] ++ seps [44%N] (y :: l)). rewrite IH. cbn [flat_map]. rewrite <- !app_assoc. reflexivity. Qed.
Lemma attr_reads a : reads (attr_obj vtext d a) ([123] ++ quoted (bs "is_global") ++ [58; 32] ++ lit_bool (is_global d a) ++ [44] ++ quoted (bs "is_nested") ++ [58; 32] ++ lit_bool (is_nested d a) ++
  flat_map (fun x => [44] ++ quoted (aname d (fst x)) ++ [58; 32] ++ quoted (vtext (snd x))) (node_path d a) ++ [125]).
Proof.
  set (its := mkmi [] (bs "is_global") [32] (lit_bool (is_global d a)) (JBool (is_global d a)) :: mkmi [] (bs "is_nested") [32] (lit_bool (is_nested d a)) (JBool (is_nested d a)) ::
    map (fun x => mkmi [] (aname d (fst x)) [32] (quoted (vtext (snd x))) (JStr (clean (vtext (snd x))))) (node_path d a)).
  assert (Ev : attr_obj vtext d a = JObj (map mi_val its)). { unfold attr_obj, its. cbn [map]. rewrite map_map. reflexivity. }
  pose proof (reads_obj its [] eq_refl) as R. rewrite <- Ev in R. unfold its in R at 2. cbn [map] in R. rewrite seps_flat in R. cbn [flat_map] in R. rewrite map_map in R.
  assert (Ef : forall l : list (N * value), flat_map (fun t : bytes => [44] ++ t) (map (fun x => mi_text (mkmi [] (aname d (fst x)) [32] (quoted (vtext (snd x))) (JStr (clean (vtext (snd x)))))) l)
     = flat_map (fun x => [44] ++ quoted (aname d (fst x)) ++ [58; 32] ++ quoted (vtext (snd x))) l).
  { induction l as [|x l IH]; [reflexivity|]. cbn [map flat_map]. rewrite IH. reflexivity. }
  rewrite Ef in R. unfold mi_text in R. cbn [mi_w mi_k mi_w2 mi_t] in R. rewrite <- !app_assoc in R. apply R.
  unfold its. constructor; [split; [reflexivity|split; [reflexivity|apply reads_bool]]|]. constructor; [split; [reflexivity|split; [reflexivity|apply reads_bool]]|].
  apply Forall_map, Forall_forall. intros x _. split; [reflexivity|split; [reflexivity|apply reads_str]].
Qed.
Definition at_obj : list (bytes * json) := map (fun a => (aname d a, attr_obj vtext d a)) (attr_list d q).
Lemma at_reads : (forall a, In a (attr_list d q) -> plain_name (aname d a)) -> reads (JObj at_obj) ([123] ++ write_attributes vtext d q ++ [10; 125]).
Proof.
  intro Hn. set (its := map (fun a => mkmi (10 :: pp q [9]) (aname d a) [32] ([123] ++ quoted (bs "is_global") ++ [58; 32] ++ lit_bool (is_global d a) ++ [44] ++ quoted (bs "is_nested") ++ [58; 32] ++ lit_bool (is_nested d a) ++
  flat_map (fun x => [44] ++ quoted (aname d (fst x)) ++ [58; 32] ++ quoted (vtext (snd x))) (node_path d a) ++ [125]) (attr_obj vtext d a)) (attr_list d q)).
  assert (Ev : at_obj = map mi_val its).
  { unfold at_obj, its. rewrite map_map. apply map_ext_in. intros a Ha. unfold mi_val. cbn [mi_k mi_j]. rewrite (proj2 (plain_quoted _ (Hn a Ha))). reflexivity. }
  assert (Et : map (fun t => [10] ++ t) (map (attr_text vtext d q) (attr_list d q)) = map mi_text its).
  { unfold its. rewrite !map_map. apply map_ext_in. intros a Ha. unfold mi_text, attr_text. cbn [mi_w mi_k mi_w2 mi_t]. rewrite (proj1 (plain_quoted _ (Hn a Ha))). rewrite <- !app_assoc. reflexivity. }
  assert (Ew : write_attributes vtext d q ++ [10; 125] = seps [44%N] (map mi_text its) ++ [10] ++ [125]).
  { unfold write_attributes. rewrite <- Et. destruct (attr_list d q) as [|a l]; [reflexivity|]. rewrite <- (seps_ws [10]) by discriminate. rewrite <- !app_assoc. reflexivity. }
  rewrite Ew, Ev. apply reads_obj; [reflexivity|]. unfold its. apply Forall_map, Forall_forall. intros a _. split; [|split; [reflexivity|apply attr_reads]]. unfold ws. cbn [mi_w forallb]. apply (pp_ws [9] eq_refl).
Qed.
End OUT.
