(* C56: json-split output can be read back *)
From Coq Require Import Strings.Ascii Strings.String Sorted.
From Verif Require Import Base VariantModel VariantSpec NamesModel NamesProps TextModel TextProofs TreeModel CaliFileModel AggModel FilterModel RConfigModel FmtModel JsonSpec JsonModel JsonOutSpec JsonProofs JsonProofs2 JsonProps JsonProps2 JsonSplitModel JsonSplitSpec JsonSplitProofs.
Open Scope N_scope.

Lemma reads_null : reads JNull (bs "null").
Proof. split; [discriminate|]. intros rest fuel Hf _. destruct fuel as [|f]; [cbn in Hf; lia|]. reflexivity. Qed.
(* arrays with ", " between the elements *)
Lemma spaced_reads l js w we : ws w -> ws we -> Forall2 (fun t j => reads j t) l js -> reads (JArr js) (91 :: match l with [] => [] | _ => w ++ seps ([44] ++ w) l end ++ we ++ [93]).
Proof.
  intros Hw Hwe HF. 
  assert (Ej : js = map ei_j (map (fun p => mkei w (fst p) (snd p)) (combine l js))).
  { rewrite map_map. clear Hwe. induction HF; cbn; [reflexivity|]. f_equal. exact IHHF. }
  assert (Et : map (fun t => w ++ t) l = map ei_text (map (fun p => mkei w (fst p) (snd p)) (combine l js))).
  { rewrite map_map. clear Ej Hwe. induction HF; cbn; [reflexivity|]. f_equal. exact IHHF. }
  assert (Hok : Forall ei_ok (map (fun p => mkei w (fst p) (snd p)) (combine l js))).
  { apply Forall_map. clear Ej Et Hwe. induction HF; cbn; constructor; auto. split; [exact Hw|exact H]. }
  destruct l as [|x l].
  - inversion HF; subst. apply (reads_arr [] we); [exact Hwe|constructor].
  - pose proof (reads_arr _ we Hwe Hok) as R. rewrite <- Ej, <- Et in R. rewrite <- seps_ws in R by discriminate. exact R.
Qed.

Section SPLIT.
Variable vtext : value -> bytes.
Variable d : mdb.
Variable q : sspec.
Notation cols := (columns d q).
Notation labels := (rec_labels vtext d).

(* ---------------- cells and rows ---------------- *)
Definition cell_txt (h : list hnode) (rec : list entry) (c : scol) (t : bytes) : Prop :=
  if sc_hier c then exists p, t = id_text p /\ match p with None => labels (sc_attrs c) rec = [] | Some i => labels (sc_attrs c) rec <> [] /\ hleads h i (labels (sc_attrs c) rec) end
  else t = match sc_attrs c with a :: _ => imm_text vtext d a rec | [] => [] end.
Lemma cell_ext h h' rec c t : cell_txt h rec c t -> cell_txt (h ++ h') rec c t.
Proof. unfold cell_txt. destruct (sc_hier c); auto. intros (p & E & H). exists p. split; [exact E|]. destruct p; auto. destruct H. split; auto. apply hleads_ext; auto. Qed.
Definition csize (rec : list entry) (c : scol) : nat := if sc_hier c then length (labels (sc_attrs c) rec) else 0%nat.
Definition nsum (l : list nat) : nat := fold_right plus 0%nat l.
Lemma F2_impl {A B} (P Q : A -> B -> Prop) l r : (forall a b, P a b -> Q a b) -> Forall2 P l r -> Forall2 Q l r.
Proof. intros H. induction 1; constructor; auto. Qed.
Lemma cells_ok rec : forall cs h cells, hinv h -> exists h' ts, fold_left (cell vtext d rec) cs (h, cells) = (h ++ h', cells ++ ts) /\ hinv (h ++ h') /\ (length h' <= nsum (map (csize rec) cs))%nat /\ Forall2 (cell_txt (h ++ h') rec) cs ts.
Proof.
  induction cs as [|c cs IH]; intros h cells Hi.
  - exists [], []. rewrite !app_nil_r. split; [reflexivity|]. split; [exact Hi|]. split; [cbn; lia|constructor].
  - cbn [fold_left map nsum fold_right]. fold (nsum (map (csize rec) cs)). unfold cell at 2. cbn [fst snd]. unfold csize at 1. destruct (sc_hier c) eqn:Eh.
    + destruct (get_id_ok h (labels (sc_attrs c) rec) (sc_title c) Hi) as (h1 & p & E & Hi1 & Hn1 & Hp). rewrite E. destruct (IH (h ++ h1) (cells ++ [id_text p]) Hi1) as (h2 & ts & E2 & Hi2 & Hn2 & HF).
      exists (h1 ++ h2), (id_text p :: ts). rewrite E2. rewrite !app_assoc. rewrite <- (app_assoc cells). split; [reflexivity|]. split; [exact Hi2|]. split; [rewrite app_length; lia|]. constructor; [|exact HF].
      apply cell_ext. unfold cell_txt. rewrite Eh. exists p. split; [reflexivity|exact Hp].
    + destruct (IH h (cells ++ [match sc_attrs c with a :: _ => imm_text vtext d a rec | [] => [] end]) Hi) as (h2 & ts & E2 & Hi2 & Hn2 & HF).
      exists h2, (match sc_attrs c with a :: _ => imm_text vtext d a rec | [] => [] end :: ts). rewrite E2. rewrite <- (app_assoc cells). split; [reflexivity|]. split; [exact Hi2|]. split; [lia|]. constructor; [|exact HF]. unfold cell_txt. rewrite Eh. reflexivity.
Qed.
Definition rsize (rec : list entry) : nat := nsum (map (csize rec) cols).
Lemma rows_gen recs : forall h rs, hinv h -> exists h' tss, fold_left (row vtext d q) recs (h, rs) = (h ++ h', rs ++ map row_text tss) /\ hinv (h ++ h') /\ (length h' <= nsum (map rsize recs))%nat /\
  Forall2 (fun rec ts => Forall2 (cell_txt (h ++ h') rec) cols ts) recs tss.
Proof.
  induction recs as [|rec recs IH]; intros h rs Hi.
  - exists [], []. cbn [fold_left map]. rewrite !app_nil_r. split; [reflexivity|]. split; [exact Hi|]. split; [cbn; lia|constructor].
  - cbn [fold_left]. unfold row at 2. cbn [fst snd]. destruct (cells_ok rec cols h [] Hi) as (h1 & ts & E & Hi1 & Hn1 & HF). rewrite E. cbn [app]. destruct (IH (h ++ h1) (rs ++ [row_text ts]) Hi1) as (h2 & tss & E2 & Hi2 & Hn2 & HF2).
    exists (h1 ++ h2), (ts :: tss). rewrite E2. rewrite !app_assoc. rewrite <- (app_assoc rs). split; [reflexivity|]. split; [exact Hi2|]. split; [rewrite app_length; cbn [map nsum fold_right]; unfold rsize at 1; fold (nsum (map rsize recs)); lia|]. constructor; [|exact HF2].
    eapply F2_impl; [|exact HF]. intros c t. apply cell_ext.
Qed.

(* ---------------- conditions ---------------- *)
(* region columns are not metadata of the attributes of single values *)
Definition no_meta (recs : list (list entry)) : Prop :=
  forall rec a v c x, In rec recs -> In (EImm a v) rec -> In c cols -> sc_hier c = true -> In x (node_path d a) -> ~ In (fst x) (sc_attrs c).
(* integers and doubles are printed as JSON numbers *)
Definition numbers_ok (recs : list (list entry)) : Prop :=
  forall rec a v, In rec recs -> first_value d a rec = Some v -> unquoted_type d a = true -> jnum (vtext v).
(* there are fewer than 2^64 path elements *)
Definition paths_ok (recs : list (list entry)) : Prop := N.of_nat (nsum (map rsize recs)) <= W64.

Lemma labels_path recs rec c : no_meta recs -> In rec recs -> In c cols -> sc_hier c = true -> labels (sc_attrs c) rec = region_path vtext d (sc_attrs c) rec.
Proof.
  intros Hm Hr Hc Hh. unfold rec_labels, region_path. f_equal. assert (Hs : forall e, In e rec -> In e rec) by auto. revert Hs. generalize rec at 1 3 4. intro l. induction l as [|e l IH]; intro Hs; [reflexivity|]. cbn [flat_map]. rewrite filter_app, map_app, IH by (intros; apply Hs; right; auto). f_equal.
  destruct e as [i|a v]; [reflexivity|]. cbn [ent_nodes]. specialize (Hm rec a v c). pose proof (Hs _ (or_introl eq_refl)) as Ha. clear IH Hs. induction (node_path d a) as [|x p IHp]; [reflexivity|]. cbn [filter].
  destruct (existsb (fun a0 => fst x =? a0) (sc_attrs c)) eqn:E; [|apply IHp; intros y H1 H2 H3 H4 H5; apply Hm; auto; right; auto].
  exfalso. apply existsb_exists in E. destruct E as (b & Hb & E). apply N.eqb_eq in E. subst b. apply (Hm x Hr Ha Hc Hh); [left; reflexivity|exact Hb].
Qed.
Lemma single_col c : In c cols -> sc_hier c = false -> exists a, sc_attrs c = [a].
Proof.
  unfold columns. intros H Hh. apply in_app_or in H. destruct H as [H|H].
  - apply in_map_iff in H. destruct H as (a & <- & _). eexists. reflexivity.
  - destruct (filter (is_nested d) (sel_attrs d q)); [destruct H|]. destruct H as [<-|[]]. discriminate.
Qed.
Lemma cell_reads recs h rec c t : no_meta recs -> numbers_ok recs -> hinv h -> hbound h -> In rec recs -> In c cols -> cell_txt h rec c t ->
  exists j, reads j t /\ cell_is vtext d (map node_json h) (idf h) rec c j.
Proof.
  intros Hm Hn Hi Hb Hr Hc Ht. unfold cell_txt in Ht. unfold cell_is. destruct (sc_hier c) eqn:Eh.
  - rewrite <- (labels_path recs rec c Hm Hr Hc Eh). destruct Ht as (p & -> & Hp). cbv zeta. destruct p as [i|].
    + destruct Hp as (Hne & Hl). exists (JNum (dec (N.of_nat i))). assert (Hu : u64_ok (N.of_nat i)). { pose proof (hleads_lt _ _ _ Hl). unfold hbound, u64_ok, W64 in *. lia. }
      split; [apply reads_num, dec_json, Hu|]. pose proof (idf_ok h i _ Hi Hl) as Hf. pose proof (leads_ok h i _ Hb Hl) as Hd. destruct (labels (sc_attrs c) rec) as [|x L] eqn:E; [congruence|].
      exists (dec (N.of_nat i)). split; [reflexivity|]. rewrite Hf. split; [apply jnat_dec, Hu|exact Hd].
    + exists JNull. rewrite Hp. split; [apply reads_null|reflexivity].
  - destruct (single_col c Hc Eh) as (a & Ea). rewrite Ea in *. subst t. specialize (Hn rec a). unfold first_value in *. unfold imm_text. destruct (find (fun e => ent_attr d e =? a) rec) as [e|] eqn:Ef; cbn [option_map] in *.
    + destruct (unquoted_type d a) eqn:Eu.
      * exists (JNum (vtext (ent_val d e))). split; [apply reads_num, (Hn _ Hr eq_refl eq_refl)|]. exists a. split; [reflexivity|]. rewrite Ef, Eu. reflexivity.
      * exists (JStr (clean (vtext (ent_val d e)))). split; [apply reads_str|]. exists a. split; [reflexivity|]. rewrite Ef, Eu. reflexivity.
    + exists JNull. split; [apply reads_null|]. exists a. split; [reflexivity|]. rewrite Ef. reflexivity.
Qed.
Lemma row_reads recs h rec ts : no_meta recs -> numbers_ok recs -> hinv h -> hbound h -> In rec recs -> Forall2 (cell_txt h rec) cols ts ->
  exists js, Forall2 (fun t j => reads j t) ts js /\ Forall2 (cell_is vtext d (map node_json h) (idf h) rec) cols js.
Proof.
  intros Hm Hn Hi Hb Hr HF.
  assert (HF' : forall cs' ts', Forall2 (cell_txt h rec) cs' ts' -> (forall c, In c cs' -> In c cols) -> exists js, Forall2 (fun t j => reads j t) ts' js /\ Forall2 (cell_is vtext d (map node_json h) (idf h) rec) cs' js).
  { clear HF ts. intros cs ts HF. induction HF as [|c t cs ts H HF IH]; intro Hc; [exists []; split; constructor|]. destruct (cell_reads recs h rec c t Hm Hn Hi Hb Hr (Hc c (or_introl eq_refl)) H) as (j & H1 & H2). destruct IH as (js & H3 & H4); [intros; apply Hc; right; auto|]. exists (j :: js). split; constructor; auto. }
  apply (HF' cols ts HF). auto.
Qed.
Lemma rows_read recs h : no_meta recs -> numbers_ok recs -> hinv h -> hbound h -> forall rs tss, (forall r, In r rs -> In r recs) -> Forall2 (fun rec ts => Forall2 (cell_txt h rec) cols ts) rs tss ->
  exists data, Forall2 (fun ts js => Forall2 (fun t j => reads j t) ts js) tss data /\ Forall2 (fun rec js => Forall2 (cell_is vtext d (map node_json h) (idf h) rec) cols js) rs data.
Proof.
  intros Hm Hn Hi Hb rs tss Hs HF. induction HF as [|r ts rs tss H HF IH]; [exists []; split; constructor|]. destruct (row_reads recs h r ts Hm Hn Hi Hb (Hs r (or_introl eq_refl)) H) as (js & H1 & H2). destruct IH as (data & H3 & H4); [intros; apply Hs; right; auto|]. exists (js :: data). split; constructor; auto.
Qed.
Lemma meta_reads c : exists j, reads j (bs "{ " ++ meta_text vtext d c ++ bs " }") /\ meta_is vtext d c j.
Proof.
  set (ms := match sc_attrs c with [a] => filter (fun x => (12 <=? fst x) && negb (is_hidden d (fst x))) (tl (node_path d a)) | _ => [] end).
  set (its := mkmi [32] (bs "is_value") [32] (lit_bool (negb (sc_hier c))) (JBool (negb (sc_hier c))) :: map (fun x => mkmi [32] (aname d (fst x)) [32] (quoted (vtext (snd x))) (JStr (clean (vtext (snd x))))) ms).
  assert (Hok : Forall mi_ok its). { unfold its. constructor; [split; [reflexivity|split; [reflexivity|apply reads_bool]]|]. apply Forall_map, Forall_forall. intros x _. split; [reflexivity|split; [reflexivity|apply reads_str]]. }
  exists (JObj (map mi_val its)). split.
  - pose proof (reads_obj its [32] eq_refl Hok) as R. assert (Et : 123 :: seps [44%N] (map mi_text its) ++ [32] ++ [125] = bs "{ " ++ meta_text vtext d c ++ bs " }"); [|rewrite Et in R; exact R].
    unfold its. cbn [map]. rewrite seps_flat. unfold meta_text.
    assert (Em : (match sc_attrs c with [a] => flat_map (fun x => bs ", " ++ quoted (aname d (fst x)) ++ bs ": " ++ quoted (vtext (snd x))) (meta_nodes d a) | _ => [] end) = flat_map (fun x => bs ", " ++ quoted (aname d (fst x)) ++ bs ": " ++ quoted (vtext (snd x))) ms).
    { unfold ms. destruct (sc_attrs c) as [|a [|]]; try reflexivity. f_equal. unfold meta_nodes, tl. apply filter_ext. intro x. rewrite negb_orb. f_equal. lia. }
    rewrite Em. assert (Ef : flat_map (fun t => [44] ++ t) (map mi_text (map (fun x => mkmi [32] (aname d (fst x)) [32] (quoted (vtext (snd x))) (JStr (clean (vtext (snd x))))) ms)) = flat_map (fun x => bs ", " ++ quoted (aname d (fst x)) ++ bs ": " ++ quoted (vtext (snd x))) ms).
    { rewrite map_map. generalize ms. intro l. induction l as [|x l IH]; [reflexivity|]. cbn [map flat_map]. rewrite IH. unfold mi_text. cbn [mi_w mi_k mi_w2 mi_t]. rewrite <- !app_assoc. reflexivity. }
    rewrite Ef. unfold mi_text. cbn [mi_w mi_k mi_w2 mi_t]. change (bs "{ ") with ([123; 32] : bytes). change (bs ": ") with ([58; 32] : bytes). change (bs " }") with ([32; 125] : bytes).
    generalize (flat_map (fun x : N * value => bs ", " ++ quoted (aname d (fst x)) ++ [58; 32] ++ quoted (vtext (snd x))) ms), (quoted (bs "is_value")). clear. intros. destruct (sc_hier c); cbn [negb lit_bool]; repeat (rewrite <- !app_assoc; cbn [app]); reflexivity.
  - unfold meta_is. f_equal. unfold its. cbn [map]. f_equal. rewrite map_map. unfold ms. destruct (sc_attrs c) as [|a [|]]; reflexivity.
Qed.
Lemma metas_read : forall cs, exists js, Forall2 (fun t j => reads j t) (map (fun c => bs "{ " ++ meta_text vtext d c ++ bs " }") cs) js /\ Forall2 (meta_is vtext d) cs js.
Proof. induction cs as [|c cs (js & H1 & H2)]; [exists []; split; constructor|]. destruct (meta_reads c) as (j & H3 & H4). exists (j :: js). split; [cbn [map]|]; constructor; auto. Qed.

(* The output is one JSON object.  Every record has one row in "data" and every row one cell per column.  A cell of a
   region column is null, or the index of a node in "nodes" from which the parent links lead through exactly the
   record's region values; different paths have different nodes.  Other cells are the record's value or null. *)
Theorem C56_split globals recs : no_meta recs -> numbers_ok recs -> paths_ok recs ->
  exists data metas nodes gl ids,
    jread (split_output vtext d q globals recs) = Some (JObj ([(bs "data", JArr (map JArr data)); (bs "columns", JArr (map (fun c => JStr (kept (sc_title c))) cols)); (bs "column_metadata", JArr metas); (bs "nodes", JArr nodes)] ++ gl)) /\
    Forall2 (fun rec js => Forall2 (cell_is vtext d nodes ids rec) cols js) recs data /\
    (forall L1 L2, used vtext d cols recs L1 -> used vtext d cols recs L2 -> ids L1 = ids L2 -> L1 = L2) /\
    Forall2 (meta_is vtext d) cols metas /\ globals_of vtext d globals gl.
Proof.
  intros Hm Hn Hp. assert (Hi0 : hinv []). { split; intros; [destruct i|destruct i]; discriminate. }
  destruct (rows_gen recs [] [] Hi0) as (h & tss & E & Hi & Hl & HF). cbn [app] in *. 
  assert (Hb : hbound h) by (unfold hbound, paths_ok, W64 in *; lia).
  destruct (rows_read recs h Hm Hn Hi Hb recs tss (fun r H => H) HF) as (data & D1 & D2). destruct (metas_read cols) as (metas & M1 & M2).
  exists data, metas, (map node_json h), (gl_obj vtext d globals), (idf h). split; [|split; [exact D2|split; [|split; [exact M2|apply gl_ok]]]].
  2: { intros L1 L2 (N1 & r1 & c1 & R1 & C1 & Q1 & ->) (N2 & r2 & c2 & R2 & C2 & Q2 & ->) He.
       assert (X : forall r c, In r recs -> In c cols -> sc_hier c = true -> region_path vtext d (sc_attrs c) r <> [] -> exists i, hleads h i (region_path vtext d (sc_attrs c) r)).
       { intros r c Hr Hc Hh Hne. assert (Hrow : exists ts, Forall2 (cell_txt h r) cols ts).
         { clear - HF Hr. induction HF as [|r' ts rs tss H HF IH]; [destruct Hr|]. destruct Hr as [->|Hr]; [eauto|auto]. }
         destruct Hrow as (ts & Hrow). assert (Hcell : exists t, cell_txt h r c t). { clear - Hrow Hc. induction Hrow as [|c' t cs ts H HF IH]; [destruct Hc|]. destruct Hc as [->|Hc]; [eauto|auto]. }
         destruct Hcell as (t & Hcell). unfold cell_txt in Hcell. rewrite Hh in Hcell. destruct Hcell as (p & _ & Hcell). rewrite (labels_path recs r c Hm Hr Hc Hh) in Hcell. destruct p as [i|]; [exists i; apply Hcell|congruence]. }
       destruct (X r1 c1 R1 C1 Q1 N1) as (i1 & H1). destruct (X r2 c2 R2 C2 Q2 N2) as (i2 & H2). rewrite (idf_ok h i1 _ Hi H1), (idf_ok h i2 _ Hi H2) in He. assert (i1 = i2) by lia. subst i2. apply (hleads_fun _ _ _ _ H1 H2). }
  (* the text *)
  set (its := [mkmi [10; 32; 32] (bs "data") [32] ([91] ++ seps [44] (map row_text tss) ++ [10; 32; 32] ++ [93]) (JArr (map JArr data));
    mkmi [10; 32; 32] (bs "columns") [32] ([91] ++ spaced (map (fun c => quoted (sc_title c)) cols) ++ [32] ++ [93]) (JArr (map (fun c => JStr (kept (sc_title c))) cols));
    mkmi [10; 32; 32] (bs "column_metadata") [32] ([91] ++ metas_text vtext d cols ++ [32] ++ [93]) (JArr metas);
    mkmi [10; 32; 32] (bs "nodes") [32] ([91] ++ spaced (map node_text h) ++ [32] ++ [93]) (JArr (map node_json h))] ++
    map (fun p => mkmi [10; 32; 32] (aname d (fst p)) [32] (quoted (snd p)) (JStr (clean (snd p)))) (global_vals vtext d globals)).
  assert (Hok : Forall mi_ok its).
  { unfold its. constructor; [|constructor; [|constructor; [|constructor]]].
    - split; [reflexivity|split; [reflexivity|]]. cbn [mi_j mi_t]. 
      assert (G : Forall2 (fun t j => reads j t) (map (fun ts => [91] ++ [32] ++ seps [44; 32] ts ++ [32; 93]) tss) (map JArr data)).
      { clear - D1. induction D1 as [|ts js tss data H D1 IH]; cbn [map]; constructor; auto. destruct ts as [|t ts].
        - inversion H; subst. apply (reads_arr [] [32; 32]); [reflexivity|constructor].
        - exact (spaced_reads (t :: ts) js [32] [32] eq_refl eq_refl H). }
      set (its0 := map (fun p => mkei [10; 32; 32; 32; 32] (fst p) (snd p)) (combine (map (fun ts => [91] ++ [32] ++ seps [44; 32] ts ++ [32; 93]) tss) (map JArr data))).
      assert (Ej : map JArr data = map ei_j its0). { unfold its0. rewrite map_map. clear - G. induction G; cbn; [reflexivity|]. f_equal. exact IHG. }
      assert (Et : map row_text tss = map ei_text its0).
      { unfold its0. rewrite map_map. assert (Em : map row_text tss = map (fun t => [10; 32; 32; 32; 32] ++ t) (map (fun ts => [91] ++ [32] ++ seps [44; 32] ts ++ [32; 93]) tss)) by (rewrite map_map; reflexivity). rewrite Em. clear - G. induction G; cbn; [reflexivity|]. f_equal. exact IHG. }
      rewrite Ej, Et. apply reads_arr; [reflexivity|]. unfold its0. apply Forall_map. clear - G. induction G; cbn; constructor; auto. split; [reflexivity|exact H].
    - split; [reflexivity|split; [reflexivity|]]. cbn [mi_j mi_t]. rewrite <- (map_map sc_title quoted). rewrite <- (map_map sc_title (fun t => JStr (kept t))). generalize (map sc_title cols). intro l. 
      assert (G : Forall2 (fun t j => reads j t) (map quoted l) (map (fun t => JStr (kept t)) l)) by (clear; induction l; cbn [map]; constructor; auto; apply reads_str).
      pose proof (spaced_reads _ _ [32] [32] eq_refl eq_refl G) as R. unfold spaced. exact R.
    - split; [reflexivity|split; [reflexivity|]]. cbn [mi_j mi_t]. unfold metas_text. destruct cols as [|c cs].
      + inversion M2; subst. apply (reads_arr [] [32]); [reflexivity|constructor].
      + pose proof (spaced_reads _ _ [32] [32; 32] eq_refl eq_refl M1) as R. cbn [map] in R. rewrite <- !app_assoc. cbn [map]. cbn [app] in *. rewrite <- ?app_assoc. exact R.
    - split; [reflexivity|split; [reflexivity|]]. cbn [mi_j mi_t].
      assert (G : Forall2 (fun t j => reads j t) (map node_text h) (map node_json h)).
      { assert (G : forall l, (forall n, In n l -> In n h) -> Forall2 (fun t j => reads j t) (map node_text l) (map node_json l)).
        { induction l as [|n l IH]; intro Hs; cbn [map]; constructor; [apply (node_reads h n Hi Hb), Hs; left; reflexivity|apply IH; intros; apply Hs; right; auto]. }
        apply G. auto. }
      pose proof (spaced_reads _ _ [32] [32] eq_refl eq_refl G) as R. unfold spaced. exact R.
    - apply Forall_map, Forall_forall. intros p _. split; [reflexivity|split; [reflexivity|apply reads_str]]. }
  pose proof (reads_obj its [10] eq_refl Hok) as R. pose proof (jread_ok _ [] _ [10] eq_refl eq_refl R) as J.
  assert (Ev : map mi_val its = [(bs "data", JArr (map JArr data)); (bs "columns", JArr (map (fun c => JStr (kept (sc_title c))) cols)); (bs "column_metadata", JArr metas); (bs "nodes", JArr (map node_json h))] ++ gl_obj vtext d globals).
  { unfold its. rewrite map_app, map_map. reflexivity. }
  rewrite Ev in J. refine (eq_trans _ J). f_equal. clear J R Ev Hok. unfold split_output, rows. rewrite E. unfold its. clear its. rewrite map_app. cbn [map app]. rewrite seps_flat. cbn [flat_map].
  assert (Eg : flat_map (fun t => [44] ++ t) (map mi_text (map (fun p => mkmi [10; 32; 32] (aname d (fst p)) [32] (quoted (snd p)) (JStr (clean (snd p)))) (global_vals vtext d globals))) = globals_text vtext d globals).
  { unfold globals_text. rewrite map_map. generalize (global_vals vtext d globals). intro l. induction l as [|p l IH]; [reflexivity|]. cbn [map flat_map]. rewrite IH. unfold mi_text. cbn [mi_w mi_k mi_w2 mi_t]. rewrite <- !app_assoc. reflexivity. }
  rewrite Eg. unfold mi_text, nodes_text. cbn [mi_w mi_k mi_w2 mi_t].
  change (nlin "  ") with ([10; 32; 32] : bytes). change (nlin "  ]") with ([10; 32; 32; 93] : bytes). change (bs ": [") with ([58; 32; 91] : bytes). change (bs " ]") with ([32; 93] : bytes).
  generalize (globals_text vtext d globals), (seps [44%N] (map row_text tss)), (spaced (map (fun c => quoted (sc_title c)) cols)), (metas_text vtext d cols), (spaced (map node_text h)), (quoted (bs "data")), (quoted (bs "columns")), (quoted (bs "column_metadata")), (quoted (bs "nodes")).
  clear. intros. repeat (rewrite <- !app_assoc; cbn [app]). reflexivity.
Qed.

(* The columns: the selected attributes in the order of their names, the nested ones combined in one column. *)
Theorem C56_columns : columns_are d q cols.
Proof.
  destruct (kmap_ok (d_attrs d)) as (HS & HL).
  set (sel := fun a => if ss_all q then negb (is_hidden d a || is_global d a) else (ss_path q && is_nested d a) || existsb (fun s => beqb s (aname d a)) (ss_names q)).
  exists (filter (fun x => sel (snd x)) (kmap (d_attrs d))). split; [apply SS_filter, HS|]. split.
  - intros n a. rewrite filter_In, (look_in _ _ _ HS), HL, alookup_look. cbn [snd]. assert (E : sel a = true <-> sselected d q a); [|rewrite E; tauto].
    unfold sel, sselected. destruct (ss_all q).
    + rewrite negb_true_iff, orb_false_iff. tauto.
    + rewrite orb_true_iff, andb_true_iff, existsb_exists. split; (intros [H|H]; [left; exact H|right]).
      * destruct H as (s & Hs & He). apply beqb_eq in He. subst s. exact Hs.
      * exists (aname d a). split; [exact H|apply beqb_refl].
  - cbv zeta. unfold columns, sel_attrs. fold sel. rewrite filter_map. rewrite !filter_map.
    set (L := filter (fun x => sel (snd x)) (kmap (d_attrs d))). destruct (filter (fun x => is_nested d (snd x)) L) as [|x l].
    + exists []. split; [left; auto|]. rewrite map_map. reflexivity.
    + eexists. split; [right; split; [discriminate|reflexivity]|]. rewrite map_map. reflexivity.
Qed.
End SPLIT.
