(* Proofs: the query over a file, line by line; over several files *)
From Verif Require Import Base VariantModel VariantSpec NamesModel NamesProps TextModel TextProofs TextProofs2 TreeModel TreeProofs CaliFileModel CaliFileProofs CaliFileProofs2 CaliFileProofs3 CaliFileProofs4 CaliFileProofs5 CaliFileProps ArithSpec AggModel AggSpec AggProofs AggProofs2 AggProofs3 AggProofs4 AggProofs5 AggProofs6 FilterModel QFileModel QFileSpec QFileProofs QFileProofs2.
Open Scope N_scope.

Lemma whole_ok src lk es : forall r, Forall2 (same_entry src lk) es r -> exists rec, whole r = Some rec /\ Forall2 (fun e e' => same_entry src lk e (Some e')) es rec.
Proof.
  intros r H. induction H as [|e oe es r He Hr (rec & IH1 & IH2)]; [exists []; split; [reflexivity|constructor]|].
  destruct oe as [e'|]; [|destruct e; contradiction He]. exists (e' :: rec). cbn [whole]. rewrite IH1. split; [reflexivity|constructor; auto].
Qed.
Lemma query_lines_app dparse parse conds X push s a b : query_lines dparse parse conds (X := X) push s (a ++ b) = match query_lines dparse parse conds push s a with Some s1 => query_lines dparse parse conds push s1 b | None => None end.
Proof. revert s. induction a as [|l a IH]; intro s; [reflexivity|]. cbn [app query_lines]. destruct (query_line dparse parse conds push s l); [apply IH|reflexivity]. Qed.
Lemma F2_snoc_r {A B} (P : A -> B -> Prop) l x m : Forall2 P (l ++ [x]) m -> exists m1 y, m = m1 ++ [y] /\ Forall2 P l m1 /\ P x y.
Proof. intro H. apply Forall2_app_inv_l in H as (m1 & m2 & H1 & H2 & ->). inversion H2 as [|? y ? m3 Hy H3]; subst. inversion H3; subst. exists m1, y. auto. Qed.
Lemma nsumf_snoc {A} (f : A -> nat) l x : nsumf f (l ++ [x]) = (nsumf f l + f x)%nat.
Proof. unfold nsumf. rewrite map_app, list_sum_app. cbn. lia. Qed.
Lemma nsumf_app {A} (f : A -> nat) l m : nsumf f (l ++ m) = (nsumf f l + nsumf f m)%nat.
Proof. unfold nsumf. rewrite map_app, list_sum_app. reflexivity. Qed.

Section Stream.
Variables (dfmt : N -> bytes) (dparse : bytes -> option N) (parse : N -> bytes -> value) (conds : list cond).
Variables (X : Type) (push : mdb * X -> list entry -> mdb * X) (D : dict) (keys names : list bytes) (cost : nrec -> nat).
Variable R : list (list entry) -> mdb -> X -> Prop.
Hypothesis R_db : forall recs d d' x, R recs d x -> grow d d' -> wf d' -> R recs d' x.
Hypothesis R_push : forall recs d x rec w, R recs d x -> wf d -> Forall2 (good D keys d) rec w -> N.of_nat (length (d_nodes d) + cost w) <= INV_ID ->
  exists d' x', push (d, x) rec = (d', x') /\ grow d d' /\ wf d' /\ adds names (cost w) d d' /\ R (recs ++ [rec]) d' x'.
Hypothesis fresh_names : forall s, In s names -> dc_mean D s = None.

Lemma adds_jinv k d d' : adds names k d d' -> dext d d' -> jinv D d -> jinv D d'.
Proof.
  intros (A & _) He HJ s M a HM Ha. destruct (A s a Ha) as [H|H]; [eapply mean_dext; [exact He|exact (HJ s M a HM H)]|]. rewrite (fresh_names s H) in HM. discriminate HM.
Qed.
Lemma recs_grow d d' recs W : wf d -> wf d' -> size_ok d' -> grow d d' -> Forall2 (Forall2 (good D keys d)) recs W -> Forall2 (Forall2 (good D keys d')) recs W.
Proof. intros H1 H2 H3 H4. apply Forall2_imp. intros a b. apply Forall2_imp. intros e w. apply (good_grow D keys d d' e w H1 H2 H3 H4). Qed.

Variables (src : N -> option tnode) (rank : N -> nat).
Hypothesis Hs : src_ok src rank.
Hypothesis Hr : in_range64 src.
Hypothesis Ht : src_typed dfmt dparse src.
Hypothesis Hag : agrees D src.
Hypothesis Hpk : plain_keys keys src.

Record inv (ls : list wline) (s : qstate X) (recs : list (list entry)) (W : list nrec) : Prop := mkinv {
  iv_wf : wf (qs_db s);
  iv_j : jinv D (qs_db s);
  iv_s : sinv src (qs_db s) (qs_map s) (wids ls);
  iv_err : qs_err s = false;
  iv_r : R recs (qs_db s) (qs_x s);
  iv_good : Forall2 (Forall2 (good D keys (qs_db s))) recs W }.

Lemma node_inv ls s recs W n : inv ls s recs W -> N.of_nat (length (d_nodes (qs_db s))) < INV_ID -> line_ok dfmt dparse src (WNode n) -> known_id ls (n_attr n) -> (forall p, n_par n = Some p -> p = INV_ID \/ known_id ls p) ->
  exists s', query_line dparse parse conds push s (render dfmt (WNode n)) = Some s' /\ inv (ls ++ [WNode n]) s' recs W /\ (length (d_nodes (qs_db s')) <= S (length (d_nodes (qs_db s))))%nat.
Proof.
  intros [Hw HJ HS He HR HG] Hl (H11 & Hn) Ka Kp. destruct s as [d m err x]. cbn [qs_db qs_map qs_err qs_x] in *. subst err.
  assert (Kp' : par_id n = INV_ID \/ def_ok (wids ls) (par_id n)). { unfold par_id. destruct (n_par n) as [p|]; auto. destruct (Kp p eq_refl); auto. right. apply known_def; auto. }
  assert (Ka' : def_ok (wids ls) (n_attr n)) by (apply known_def; auto).
  destruct (node_line_ok dfmt dparse src rank d m (wids ls) n [] false Hs Hr Ht (proj1 Hw) Hl HS Hn H11 Ka' Kp') as (i & d' & m' & Em & El & Hx & Hd' & Hi' & Hlen).
  assert (Hs' : size_ok d') by (unfold size_ok; lia).
  destruct (merge_node_grow d m (n_id n) (n_attr n) (par_id n) (n_val n) i d' m' Hw Hs' Em) as (Hg & Hw').
  exists (mkqs d' m' false x). split; [unfold query_line; cbn [qs_db qs_map qs_err qs_x]; rewrite El; reflexivity|]. split; [|exact Hlen].
  constructor; cbn [qs_db qs_map qs_err qs_x]; auto.
  - exact (merge_jinv dfmt dparse D src rank d m (wids ls) n i d' m' Hs Ht Hag Hw Hl HS Hn H11 Ka' Kp' Em HJ Hx).
  - rewrite wids_app. cbn [wids flat_map app]. eapply sinv_perm; [|exact Hi']. intro y. rewrite in_app_iff. cbn [In]. tauto.
  - eapply R_db; eauto.
  - exact (recs_grow d d' recs W Hw Hw' Hs' Hg HG).
Qed.
Lemma rec_inv ls s recs W g refs imms w : inv ls s recs W -> N.of_nat (length (d_nodes (qs_db s)) + cost w) < INV_ID -> line_ok dfmt dparse src (WRec g refs imms) -> Forall (known_id ls) refs -> Forall (fun x => known_id ls (fst x)) imms ->
  (g = false -> record_says src (rec_entries refs imms) w /\ forall e, In e (rec_entries refs imms) -> plain_entry src e) ->
  exists s' recs', query_line dparse parse conds push s (render dfmt (WRec g refs imms)) = Some s' /\ inv (ls ++ [WRec g refs imms]) s' recs' (W ++ if g then [] else passing parse D conds [w]) /\ (length (d_nodes (qs_db s')) <= length (d_nodes (qs_db s)) + if g then 0 else cost w)%nat.
Proof.
  intros [Hw HJ HS He HR HG] Hl Hok Kr Ki Hsay. destruct s as [d m err x]. cbn [qs_db qs_map qs_err qs_x] in *. subst err.
  destruct (read_rec_line dfmt dparse src rank d m (wids ls) g refs imms [] Hs Hr (proj1 Hw) ltac:(lia) HS Hok) as (new & E & Hnew).
  { eapply Forall_impl; [|exact Kr]. intros; apply known_def; auto. }
  { eapply Forall_impl; [|exact Ki]. intros; apply known_def; auto. }
  cbn [app] in E. assert (Hwids : wids (ls ++ [WRec g refs imms]) = wids ls) by (rewrite wids_app; cbn [wids flat_map app]; apply app_nil_r).
  destruct g.
  - inversion Hnew; subst new. exists (mkqs d m false x), recs. split; [unfold query_line; cbn [qs_db qs_map qs_err qs_x]; rewrite E; reflexivity|]. split; [|cbn [qs_db]; lia].
    rewrite app_nil_r. constructor; cbn [qs_db qs_map qs_err qs_x]; auto. rewrite Hwids. exact HS.
  - inversion Hnew as [|? r ? new' Hsame Hnil]; subst. inversion Hnil; subst new'. destruct (Hsay eq_refl) as (Hsays & Hplain).
    destruct (whole_ok src (dnode d) _ r Hsame) as (rec & Ew & Hsm).
    assert (Hsz : size_ok d) by (unfold size_ok; lia).
    assert (Hgood : Forall2 (good D keys d) rec w).
    { destruct Hok as (O1 & O2 & _). assert (Oi : forall a v, In (EImm a v) (rec_entries refs imms) -> typed dfmt dparse src a v /\ exists na, src a = Some na /\ n_attr na = 8).
      { intros a v Hin. unfold rec_entries in Hin. apply in_app_or in Hin as [Hin|Hin]; apply in_map_iff in Hin as (z & Ez & Hz); [discriminate Ez|]. injection Ez as <- <-. destruct z as (a, v). exact (O2 a v Hz). }
      assert (Or : forall i, In (ERef i) (rec_entries refs imms) -> exists n, src i = Some n).
      { intros i Hin. unfold rec_entries in Hin. apply in_app_or in Hin as [Hin|Hin]; apply in_map_iff in Hin as (z & Ez & Hz); [|discriminate Ez]. injection Ez as <-. destruct (O1 z Hz) as (n & Hn & _). eauto. }
      clear - Hs Ht Hag Hpk Hw Hsz HJ Hsm Hsays Hplain Oi Or. revert Hsays. revert w. induction Hsm as [|e e' es rec He Hsm IH]; intros w Hsays; inversion Hsays as [|? y ? w' Hy Hw']; subst; [constructor|].
      constructor; [|apply IH; auto; intros; [apply Hplain|eapply Oi|eapply Or]; right; eassumption].
      refine (good_entry dfmt dparse D keys src rank Hs Ht Hag Hpk d Hw Hsz HJ e e' y _ _ _ He Hy).
      - intros a v ->. apply Oi. left. reflexivity.
      - intros i ->. apply Or. left. reflexivity.
      - apply Hplain. left. reflexivity. }
    assert (Ep : pass parse d conds rec = forallb (holds parse D w) conds).
    { pose (q0 := mkq keys false false []). exact (pass_names D q0 d Hw Hsz parse conds rec w Hgood). }
    unfold query_line. cbn [qs_db qs_map qs_err qs_x]. rewrite E. cbn [r_recs r_db r_map r_err]. rewrite Ew. unfold process_record. cbn [fst]. rewrite Ep. unfold passing. cbn [filter]. destruct (forallb (holds parse D w) conds).
    + destruct (R_push recs d x rec w HR Hw Hgood ltac:(lia)) as (d' & x' & Epush & Hg & Hw' & Hadd & HR'). rewrite Epush.
      assert (Hs' : size_ok d') by (destruct Hadd as (_ & L); unfold size_ok; lia).
      exists (mkqs d' m false x'), (recs ++ [rec]). split; [reflexivity|]. split; [|cbn [qs_db]; exact (proj2 Hadd)].
      constructor; cbn [qs_db qs_map qs_err qs_x]; auto.
      * exact (adds_jinv _ d d' Hadd (gr_ext _ _ Hg) HJ).
      * rewrite Hwids. eapply sinv_ext; [apply (gr_ext _ _ Hg)|exact HS].
      * apply Forall2_app; [exact (recs_grow d d' recs W Hw Hw' Hs' Hg HG)|]. constructor; [|constructor]. eapply Forall2_imp; [|exact Hgood]. intros e y. apply (good_grow D keys d d' e y Hw Hw' Hs' Hg).
    + exists (mkqs d m false x), recs. split; [reflexivity|]. split; [|cbn [qs_db]; lia]. rewrite app_nil_r. constructor; cbn [qs_db qs_map qs_err qs_x]; auto. rewrite Hwids. exact HS.
Qed.
Lemma passing_app a b : passing parse D conds (a ++ b) = passing parse D conds a ++ passing parse D conds b.
Proof. apply filter_app. Qed.
Lemma ctx_recs_app a b : ctx_recs (a ++ b) = ctx_recs a ++ ctx_recs b.
Proof. apply flat_map_app. Qed.
Lemma lines_inv ls : rclosed ls -> Forall (line_ok dfmt dparse src) ls -> (forall r e, In r (ctx_recs ls) -> In e r -> plain_entry src e) ->
  forall ws, Forall2 (record_says src) (ctx_recs ls) ws -> forall s recs W, inv [] s recs W -> N.of_nat (length (d_nodes (qs_db s)) + length ls + nsumf cost ws) < INV_ID ->
  exists s' recs', query_lines dparse parse conds push s (map (render dfmt) ls) = Some s' /\ inv ls s' recs' (W ++ passing parse D conds ws) /\ (length (d_nodes (qs_db s')) <= length (d_nodes (qs_db s)) + length ls + nsumf cost ws)%nat.
Proof.
  induction 1 as [|ls n Hc IH Ka Kp|ls g refs imms Hc IH Kr Ki]; intros Hok Hpl ws Hws s recs W Hi Hlen.
  - inversion Hws; subst. exists s, recs. cbn [map query_lines passing filter]. rewrite app_nil_r. split; [reflexivity|]. split; [exact Hi|lia].
  - apply Forall_app in Hok as (Hok & Hl). inversion Hl as [|? ? Hl1 _]; subst. rewrite ctx_recs_app in Hws, Hpl. cbn [ctx_recs flat_map] in Hws, Hpl. rewrite app_nil_r in Hws, Hpl. rewrite app_length in *. cbn [length] in *.
    destruct (IH Hok Hpl ws Hws s recs W Hi ltac:(lia)) as (s1 & recs1 & E1 & Hi1 & L1).
    destruct (node_inv ls s1 recs1 _ n Hi1 ltac:(lia) Hl1 Ka Kp) as (s2 & E2 & Hi2 & L2). exists s2, recs1. rewrite map_app, query_lines_app, E1. cbn [map query_lines]. rewrite E2. split; [reflexivity|]. split; [exact Hi2|lia].
  - apply Forall_app in Hok as (Hok & Hl). inversion Hl as [|? ? Hl1 _]; subst. rewrite ctx_recs_app in Hws, Hpl. rewrite app_length in *. cbn [length] in *. destruct g.
    + cbn [ctx_recs flat_map] in Hws, Hpl. rewrite app_nil_r in Hws, Hpl. destruct (IH Hok Hpl ws Hws s recs W Hi ltac:(lia)) as (s1 & recs1 & E1 & Hi1 & L1).
      destruct Hi1 as [Hw HJ HS He HR HG]. destruct s1 as [d m err x]. cbn [qs_db qs_map qs_err qs_x] in *. subst err.
      destruct (read_rec_line dfmt dparse src rank d m (wids ls) true refs imms [] Hs Hr (proj1 Hw) ltac:(lia) HS Hl1) as (new & E & Hnew).
      { eapply Forall_impl; [|exact Kr]. intros; apply known_def; auto. }
      { eapply Forall_impl; [|exact Ki]. intros; apply known_def; auto. }
      inversion Hnew; subst new. exists (mkqs d m false x), recs1. rewrite map_app, query_lines_app, E1. cbn [map query_lines]. unfold query_line. cbn [qs_db qs_map qs_err qs_x]. rewrite E. cbn [app r_recs r_db r_map r_err].
      split; [reflexivity|]. split; [|cbn [qs_db]; lia]. constructor; cbn [qs_db qs_map qs_err qs_x]; auto. rewrite wids_app. cbn [wids flat_map app]. rewrite app_nil_r. exact HS.
    + change (ctx_recs [WRec false refs imms]) with [rec_entries refs imms] in Hws, Hpl. apply F2_snoc_r in Hws as (ws1 & w & -> & Hws1 & Hw1). rewrite nsumf_snoc in *.
      destruct (IH Hok (fun r e Hr' => Hpl r e (in_or_app _ _ _ (or_introl Hr'))) ws1 Hws1 s recs W Hi ltac:(lia)) as (s1 & recs1 & E1 & Hi1 & L1).
      destruct (rec_inv ls s1 recs1 _ false refs imms w Hi1 ltac:(lia) Hl1 Kr Ki) as (s2 & recs2 & E2 & Hi2 & L2).
      { intros _. split; [exact Hw1|]. intros e He. apply (Hpl (rec_entries refs imms)); [apply in_or_app; right; left; reflexivity|exact He]. }
      exists s2, recs2. rewrite map_app, query_lines_app, E1. cbn [map query_lines]. rewrite E2. split; [reflexivity|]. rewrite passing_app, app_assoc. split; [exact Hi2|lia].
Qed.
End Stream.

(* the lines of a file *)
Lemma file_lines dfmt dparse f : file_ok dfmt dparse f -> rclosed (w_out (fl_writer f)) /\ Forall (line_ok dfmt dparse (fl_src f)) (w_out (fl_writer f)) /\ ctx_recs (w_out (fl_writer f)) = ctx_calls (fl_calls f).
Proof.
  intros (Hs & Hr & Ht & Hc & fuel & Hw). set (w := fl_writer f) in *. set (src := fl_src f) in *.
  assert (Hc' : Forall (fun c => (exists rank, wf_src (c_db c) rank) /\ CaliFileProofs.rec_ok (c_db c) (c_rec c)) (fl_calls f)).
  { eapply Forall_impl; [|exact Hc]. intros c (A & B & C & D & E & F). split; auto. apply Forall_forall. intros [i|a v] He; cbn [entry_node].
    - destruct (E i He) as (n & -> & _). discriminate.
    - destruct (F a v He) as (_ & n & -> & _). discriminate. }
  destruct (write_calls_inv fuel _ Hc' _ _ winv_init Hw) as ((Hcl & _) & Hnodes).
  pose proof (write_calls_recs fuel _ _ _ Hw) as Hrecs. cbn in Hrecs. split; [apply closed_rclosed, Hcl|]. split.
  - apply Forall_forall. intros l Hl. rewrite Forall_forall in Hc. destruct l as [n|g refs imms].
    + destruct (Hnodes n Hl) as [[]|(c & Hin & H11 & Hn)]. split; auto. apply (proj1 (Hc c Hin)). auto.
    + assert (Hin : In (g, refs, imms) (recs_of (w_out w))) by (apply in_flat_map; exists (WRec g refs imms); cbn; auto).
      rewrite Hrecs in Hin. apply in_map_iff in Hin. destruct Hin as (c & Ec & Hin). unfold call_rec in Ec. injection Ec as <- <- <-. destruct (Hc c Hin) as (A & B & C & D & E & F).
      split; [|split; [|split]].
      * intros i Hi. apply refs_in in Hi. destruct (E i Hi) as (n & Hn & H8). exists n. auto.
      * intros a v Hi. apply imms_in in Hi. destruct (F a v Hi) as (T & n & Hn & H8). split; auto. exists n. auto.
      * destruct (c_rec c) as [|[i|a v] r]; [congruence|left; discriminate|right; discriminate].
      * exact D.
  - rewrite ctx_recs_recs, Hrecs. clear. induction (fl_calls f) as [|c cs IH]; [reflexivity|].
    cbn [map flat_map ctx_calls]. unfold call_rec at 1. destruct (c_glob c); cbn; [exact IH|f_equal; exact IH].
Qed.

Section Files.
Variables (dfmt : N -> bytes) (dparse : bytes -> option N) (parse : N -> bytes -> value) (conds : list cond).
Variables (X : Type) (push : mdb * X -> list entry -> mdb * X) (D : dict) (keys names : list bytes) (cost : nrec -> nat).
Variable R : list (list entry) -> mdb -> X -> Prop.
Hypothesis R_db : forall recs d d' x, R recs d x -> grow d d' -> wf d' -> R recs d' x.
Hypothesis R_push : forall recs d x rec w, R recs d x -> wf d -> Forall2 (good D keys d) rec w -> N.of_nat (length (d_nodes d) + cost w) <= INV_ID ->
  exists d' x', push (d, x) rec = (d', x') /\ grow d d' /\ wf d' /\ adds names (cost w) d d' /\ R (recs ++ [rec]) d' x'.
Hypothesis fresh_names : forall s, In s names -> dc_mean D s = None.

Lemma files_inv fs : Forall (file_ok dfmt dparse) fs -> Forall (file_good D keys) fs ->
  forall Ws, Forall2 (fun f ws => Forall2 (record_says (fl_src f)) (ctx_calls (fl_calls f)) ws) fs Ws ->
  forall d x recs W, wf d -> jinv D d -> R recs d x -> Forall2 (Forall2 (good D keys d)) recs W -> N.of_nat (length (d_nodes d) + nlines fs + nsumf cost (concat Ws)) < INV_ID ->
  exists d' x' recs', query_files dparse parse conds push d x false (map (text_of dfmt) fs) = Some (d', x', false) /\ wf d' /\ R recs' d' x' /\ Forall2 (Forall2 (good D keys d')) recs' (W ++ passing parse D conds (concat Ws)) /\
    (length (d_nodes d') <= length (d_nodes d) + nlines fs + nsumf cost (concat Ws))%nat.
Proof.
  induction 1 as [|f fs Hf Hfs IH]; intros Hg Ws HWs d x recs W Hw HJ HR HG Hlen.
  - inversion HWs; subst. exists d, x, recs. cbn [map query_files concat passing filter]. rewrite app_nil_r. split; [reflexivity|]. split; [exact Hw|]. split; [exact HR|]. split; [exact HG|lia].
  - inversion HWs as [|? ws ? Ws' Hws HWs']; subst. inversion Hg as [|? ? (Hag & Hpk & Hpl) Hg']; subst. cbn [map concat] in *. rewrite nsumf_app in Hlen. unfold nlines, nsumf at 1 in Hlen. cbn [map list_sum fold_right] in Hlen. fold (list_sum (map (fun f => length (w_out (fl_writer f))) fs)) in Hlen. fold (nsumf (fun f => length (w_out (fl_writer f))) fs) in Hlen. fold (nlines fs) in Hlen.
    destruct (file_lines dfmt dparse f Hf) as (Hcl & Hok & Hctx). pose proof Hf as (Hs & Hr & Ht & _ & _).
    assert (Hi : inv X D keys R (fl_src f) [] (mkqs d [] false x) recs W).
    { constructor; cbn [qs_db qs_map qs_err qs_x]; auto. constructor; cbn [wids flat_map]; [intros k v H; discriminate H|intros []|intros id []|intros id []|intros id n []]. }
    destruct (lines_inv dfmt dparse parse conds X push D keys names cost R R_db R_push fresh_names (fl_src f) (fl_rank f) Hs Hr Ht Hag Hpk (w_out (fl_writer f)) Hcl Hok) with (ws := ws) (s := mkqs d [] false x) (recs := recs) (W := W) as (s1 & recs1 & E1 & Hi1 & L1); auto.
    { intros r e Hin He. rewrite Hctx in Hin. exact (Hpl r e Hin He). }
    { rewrite Hctx. exact Hws. }
    { cbn [qs_db]. lia. }
    destruct Hi1 as [Hw1 HJ1 _ He1 HR1 HG1]. cbn [qs_db] in L1.
    destruct (IH Hg' Ws' HWs' (qs_db s1) (qs_x s1) recs1 _ Hw1 HJ1 HR1 HG1 ltac:(lia)) as (d' & x' & recs' & E2 & Hw' & HR' & HG' & L2).
    exists d', x', recs'. cbn [query_files]. unfold text_of at 1. rewrite (split_render dfmt dparse (fl_src f) (fl_rank f)) by auto. rewrite E1, He1. split; [exact E2|]. split; [exact Hw'|]. split; [exact HR'|]. split.
    + rewrite (passing_app parse conds D), app_assoc. exact HG'.
    + rewrite nsumf_app. unfold nlines, nsumf at 1. cbn [map list_sum fold_right]. fold (list_sum (map (fun f => length (w_out (fl_writer f))) fs)). fold (nsumf (fun f => length (w_out (fl_writer f))) fs). fold (nlines fs). lia.
Qed.
End Files.
