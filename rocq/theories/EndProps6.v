(* C81: the report of the example program, for all its threads *)
From Verif Require Import Base VariantModel VariantSpec NamesModel NamesProps TextModel TextProofs TextProofs2 TreeModel TreeSpec TreeProofs TreeProofs2 RuntimeModel RuntimeSpec RuntimeProofs RuntimeProofs2 RuntimeProps RuntimeProps3 RuntimeProps4.
From Verif Require Import ArithModel RtAggModel RtAggSpec RFilterModel EventModel TimerModel ProfModel ProfSpec ProfProofs2 ProfProofs5 ProfProps EndProofs.
From Verif Require Import CaliFileModel CaliFileProofs CaliFileProofs2 CaliFileProofs3 CaliFileProofs4 CaliFileProofs5 CaliFileProps ArithSpec AggModel AggSpec AggSpec2 AggProofs2 AggProofs3 FilterModel QFileSpec QFileModel QFileProofs6 QFileProps QFileProps2 EndSpec EndProofs2 EndProps EndProps2 EndProps3 EndProps5.
Open Scope N_scope.

Definition z_R : list (list (list rent)) := Eval vm_compute in
  match prun (fun _ _ => true) x_ea x_cv x_mem y_c (pstart (st y_ops0) y_es 99) y_h with
  | Some p => match aflush (p_db p 1) (pc_info y_c), aflush (p_db p 0) (pc_info y_c) with Some l, Some l' => [l; l'] | _, _ => [] end
  | None => [] end.
Definition z_recs : list (list rent) := Eval vm_compute in concat z_R.
Definition z_calls : list call := map (fun r => mkcall y_lk false (map y_entry r)) z_recs.
Definition z_file : file := mkfile y_lk N.to_nat z_calls (match write_calls 30 z_calls w_init with Some w => w | None => w_init end).
Lemma z_calls_b : forallb call_b z_calls = true. Proof. vm_compute. reflexivity. Qed.
Lemma z_calls_db c : In c z_calls -> c_db c = y_lk. Proof. unfold z_calls. intro H. apply in_map_iff in H as (r & <- & _). reflexivity. Qed.
Lemma z_file_ok : file_ok no_fmt no_parse z_file.
Proof.
  split; [exact y_src|]. split. { intros i n Hn. cbn [fl_src z_file] in Hn. apply dnode_lt in Hn. rewrite y_len in Hn. eapply N.lt_trans; [exact Hn|]. reflexivity. }
  split; [exact y_nodes_ok|]. split; [|exists 30%nat; vm_compute; reflexivity].
  cbn [fl_calls fl_src z_file]. apply Forall_forall. intros cl Hc. pose proof z_calls_b as B. rewrite forallb_forall in B. specialize (B cl Hc). apply andb_true_iff in B as (B1 & B2). apply Nat.leb_le in B1. rewrite forallb_forall in B2.
  unfold call_ok. rewrite (z_calls_db cl Hc). split; [intros i n H; exact H|]. split; [exists N.to_nat; apply (so_wf _ _ y_src)|]. split; [|split; [|split]].
  - intro E. rewrite E in B1. cbn in B1. lia.
  - intros a E. rewrite E in B1. cbn in B1. lia.
  - intros i Hi. specialize (B2 _ Hi). cbn [entry_b] in B2. destruct (y_lk i) as [n|]; [|discriminate]. exists n. split; [reflexivity|]. intro E. rewrite E in B2. discriminate.
  - intros a v Hi. specialize (B2 _ Hi). cbn [entry_b] in B2. apply andb_true_iff in B2 as (B2 & _). apply andb_true_iff in B2 as (B2 & B3). split; [apply typed_b_ok, B2|]. destruct (y_lk a) as [n|]; [|discriminate]. exists n. split; [reflexivity|apply N.eqb_eq, B3].
Qed.
Definition z_W : list nrec := Eval vm_compute in map (fun c => map y_says (ref_first (c_rec c))) z_calls.
Lemma z_written : written [z_file] z_W.
Proof.
  exists [z_W]. split; [|cbn [concat]; rewrite app_nil_r; reflexivity]. constructor; [|constructor].
  assert (E : z_W = map (map y_says) (ctx_calls (fl_calls z_file))) by (vm_compute; reflexivity). rewrite E. cbn [fl_src z_file].
  assert (B : forallb (forallb says_b) (ctx_calls (fl_calls z_file)) = true) by (vm_compute; reflexivity). revert B. generalize (ctx_calls (fl_calls z_file)) as l. induction l as [|r l IH]; intro B; [constructor|]. cbn [forallb map] in *. apply andb_true_iff in B as (B1 & B2).
  constructor; [|apply IH; exact B2]. clear - B1. induction r as [|e r IH]; [constructor|]. cbn [forallb map] in *. apply andb_true_iff in B1 as (B0 & B1). constructor; [apply says_b_ok, B0|apply IH, B1].
Qed.
Lemma z_plain : plain_file z_file.
Proof.
  intros r e Hr He. cbn [fl_src z_file]. assert (B : forallb (forallb (fun e => match e with ERef i => plain_b 9 i | EImm a _ => 12 <=? a end)) (ctx_calls (fl_calls z_file)) = true) by (vm_compute; reflexivity).
  rewrite forallb_forall in B. specialize (B r Hr). rewrite forallb_forall in B. specialize (B e He). destruct e as [i|a v]; cbn [plain_entry]; [apply (plain_b_ok 9), B|apply N.leb_le, B].
Qed.
Lemma z_query_ok : query_ok no_fmt no_parse y_dict (inclusive_query y_sum) [z_file] z_W.
Proof.
  split.
  - constructor; [exact z_file_ok|constructor].
  - constructor; [|constructor]. split; [exact y_agrees|]. split; [intros a s p _ _ _ k []|exact z_plain].
  - intros s M a HM Ha. cbn [dc_mean y_dict] in HM.
    assert (Hs : s = lit_attr_name /\ a = 8 \/ s = lit_alias /\ a = 13 \/ s = lit_unit /\ a = 14).
    { unfold get_attr in Ha. change (d_attrs db_init) with [(lit_unit, 14); (lit_alias, 13); (lit_attr_name, 8)] in Ha. cbn [alookup] in Ha.
      destruct (beqb lit_unit s) eqn:E1; [apply beqb_eq in E1; subst; right; right; split; congruence|]. destruct (beqb lit_alias s) eqn:E2; [apply beqb_eq in E2; subst; right; left; split; congruence|]. destruct (beqb lit_attr_name s) eqn:E3; [apply beqb_eq in E3; subst; left; split; congruence|discriminate Ha]. }
    destruct Hs as [(-> & ->)|[(-> & ->)|(-> & ->)]]; vm_compute in HM; [discriminate HM| |]; (apply (meanf_ok 30); vm_compute; exact HM).
  - intros s Hin. vm_compute in Hin. destruct Hin as [<-|[<-|[]]]; vm_compute; reflexivity.
  - exact z_written.
  - vm_compute. reflexivity.
Qed.
Lemma z_tree i : fl_src z_file i = nodes_of (RuntimeModel.r_tree y_rt) i.
Proof.
  cbn [fl_src z_file]. unfold nodes_of, node_at. rewrite y_ns_ok.
  destruct (N.ltb_spec i 34) as [L|L].
  - rewrite <- (N2Nat.id i). assert (L' : (N.to_nat i < 34)%nat) by lia. revert L'. generalize (N.to_nat i). intro k. do 34 (destruct k as [|k]; [intros _; vm_compute; reflexivity|]). intro; lia.
  - assert (X : y_lk i = None). { destruct (y_lk i) as [n|] eqn:E; [|reflexivity]. apply dnode_lt in E. rewrite y_len in E. lia. } rewrite X. destruct (N.eqb_spec i INV_ID) as [|Ne]; [reflexivity|].
    symmetry. match goal with |- find _ ?l = None => assert (F : forall n, In n l -> n_id n < 34 \/ n_id n = INV_ID) end.
    { intros n Hn. match type of Hn with In _ ?l => assert (B : forallb (fun n => (n_id n <? 34) || (n_id n =? INV_ID)) l = true) by (vm_compute; reflexivity) end. rewrite forallb_forall in B. specialize (B n Hn). apply orb_true_iff in B as [B|B]; [left; apply N.ltb_lt, B|right; apply N.eqb_eq, B]. }
    match goal with |- find _ ?l = None => revert F; generalize l end. intros l F. induction l as [|n l IH]; [reflexivity|]. cbn [find]. destruct (N.eqb_spec (n_id n) i) as [E|_]; [destruct (F n (or_introl eq_refl)); [lia|congruence]|]. apply IH. intros k Hk. apply F. right. exact Hk.
Qed.
Lemma z_file_of : file_of x_mem (RuntimeModel.r_tree y_rt) z_recs z_file.
Proof.
  split; [exact z_tree|]. cbn [fl_calls z_file]. unfold z_calls.
  assert (B : forallb (forallb (fun e => match e with RRef _ => true | RImm _ c => (ts c =? 3) && (word c <? W64) end)) z_recs = true) by (vm_compute; reflexivity). revert B. generalize z_recs as l. induction l as [|r l IH]; intro B; [constructor|]. cbn [forallb map] in *. apply andb_true_iff in B as (B1 & B2).
  constructor; [|apply IH, B2]. split; [reflexivity|]. cbn [c_rec]. clear - B1. induction r as [|e r IH]; [constructor|]. cbn [forallb map] in *. apply andb_true_iff in B1 as (B0 & B1). constructor; [|apply IH, B1].
  destruct e as [i|a [t w]]; cbn [written_entry y_entry]; [reflexivity|]. cbn [ts word] in B0. apply andb_true_iff in B0 as (B0 & B2). apply N.eqb_eq in B0. subst t. split; [reflexivity|]. cbn [word]. apply (b_uint x_mem w). apply N.ltb_lt, B2.
Qed.

Definition z_out := [(Some [], Some (VUint 12, VUint 12)); (Some [(y_fun, VStr [120])], Some (VUint 49, VUint 71)); (Some [(y_fun, VStr [109]); (y_fun, VStr [120])], Some (VUint 22, VUint 22))].
(* both threads: 28 and 21 units in x itself, 22 in m inside x, 12 outside (thread 1, before its first region) *)
Example C81_process_case : exists s0 xs0 s' xs, rt_history y_ops0 s0 xs0 /\ rt_run s0 (prog y_h) = Some (s', xs) /\ not_full (RuntimeModel.r_tree s') /\
  Forall (thread_ok x_ea y_es y_h s') [1; 0] /\
  (forall p R, prun (fun _ _ => true) x_ea x_cv x_mem y_c (pstart s0 y_es 99) y_h = Some p -> Forall2 (fun t recs => aflush (p_db p t) (pc_info y_c) = Some recs) [1; 0] R -> file_of x_mem (RuntimeModel.r_tree s') (concat R) z_file) /\
  query_ok no_fmt no_parse y_dict (inclusive_query y_sum) [z_file] z_W /\
  (forall y a v, In y (places (map (fun t => stretches 0 (bb_regions (RuntimeModel.r_tree s0) (r_tbb s0 t)) (timeline t y_h)) [1; 0])) -> In (a, v) y -> dc_nested y_dict (name_of (RuntimeModel.r_tree s') a) = true) /\
  exists d g out d', aggregate_files no_parse (fun _ _ => VInv) [] (inclusive_query y_sum) [text_of no_fmt z_file] = Some (d, g, false) /\ flush (inclusive_query y_sum) (d, g) = Some (out, d') /\
    map (fun es => match es with [ERef i; EImm a v; EImm b w] => (pathf 30 (dnode d') i, if match get_attr d' (p_sum ++ y_sum), get_attr d' (p_incl ++ y_sum) with Some a', Some b' => (a =? a') && (b =? b') | _, _ => false end then Some (v, w) else None)
                          | [EImm a v; EImm b w] => (Some [], if match get_attr d' (p_sum ++ y_sum), get_attr d' (p_incl ++ y_sum) with Some a', Some b' => (a =? a') && (b =? b') | _, _ => false end then Some (v, w) else None) | _ => (None, None) end) out = z_out.
Proof.
  exists (st y_ops0), (map (fun _ => ODone) y_ops0), y_rt, (map (fun _ => ODone) y_h).
  split; [apply mk_history; [vm_compute; reflexivity|apply st_run; vm_compute; reflexivity|vm_compute; reflexivity]|].
  split; [apply run_of_ok; vm_compute; reflexivity|]. split; [unfold not_full; apply N.ltb_lt; vm_compute; reflexivity|].
  assert (Hmk : forall t, t = 0 \/ t = 1 -> forall n o b, In (n, o) (timeline t y_h) -> op_attr o = Some b -> find_marker y_es (x_ea (at_id b)) = true).
  { intros t Ht n o b Hin Hb. assert (Z : forallb (fun x : N * rop => match op_attr (snd x) with Some b => find_marker y_es (x_ea (at_id b)) | None => true end) (timeline t y_h) = true) by (destruct Ht; subst t; vm_compute; reflexivity).
    rewrite forallb_forall in Z. specialize (Z _ Hin). cbn [snd] in Z. rewrite Hb in Z. exact Z. }
  split. { constructor; [|constructor; [|constructor]].
    - split; [vm_compute; reflexivity|]. split; [apply Hmk; auto|]. split; [cbn; repeat split; (discriminate || reflexivity || exact Logic.I)|reflexivity].
    - split; [vm_compute; reflexivity|]. split; [apply Hmk; auto|]. split; [cbn; repeat split; (discriminate || reflexivity || exact Logic.I)|reflexivity]. }
  split. { intros p R H1 H2. assert (E : match prun (fun _ _ => true) x_ea x_cv x_mem y_c (pstart (st y_ops0) y_es 99) y_h with Some p => match aflush (p_db p 1) (pc_info y_c), aflush (p_db p 0) (pc_info y_c) with Some l, Some l' => Some (l ++ l') | _, _ => None end | None => None end = Some z_recs) by (vm_compute; reflexivity).
    rewrite H1 in E. inversion H2 as [|? r1 ? R1 A1 H3]; subst. inversion H3 as [|? r0 ? R0 A0 H4]; subst. inversion H4; subst. rewrite A1, A0 in E. cbn [concat]. rewrite app_nil_r. assert (Er : r1 ++ r0 = z_recs) by congruence. rewrite Er. exact z_file_of. }
  split; [exact z_query_ok|].
  split. { intros y a v Hy Ha. assert (B : forallb (fun y : ProfSpec.path => forallb (fun z : N * value => beqb y_fun (name_of (RuntimeModel.r_tree y_rt) (fst z))) y) (places (map (fun t => stretches 0 (bb_regions (RuntimeModel.r_tree (st y_ops0)) (r_tbb (st y_ops0) t)) (timeline t y_h)) [1; 0])) = true) by (vm_compute; reflexivity).
    rewrite forallb_forall in B. specialize (B y Hy). rewrite forallb_forall in B. exact (B (a, v) Ha). }
  destruct (aggregate_files no_parse (fun _ _ => VInv) [] (inclusive_query y_sum) [text_of no_fmt z_file]) as [((d, g), e)|] eqn:E; [|vm_compute in E; discriminate E].
  assert (C : match aggregate_files no_parse (fun _ _ => VInv) [] (inclusive_query y_sum) [text_of no_fmt z_file] with Some (d, g, e) => e = false /\ match flush (inclusive_query y_sum) (d, g) with Some (out, d') =>
    map (fun es => match es with [ERef i; EImm a v; EImm b w] => (pathf 30 (dnode d') i, if match get_attr d' (p_sum ++ y_sum), get_attr d' (p_incl ++ y_sum) with Some a', Some b' => (a =? a') && (b =? b') | _, _ => false end then Some (v, w) else None)
                          | [EImm a v; EImm b w] => (Some [], if match get_attr d' (p_sum ++ y_sum), get_attr d' (p_incl ++ y_sum) with Some a', Some b' => (a =? a') && (b =? b') | _, _ => false end then Some (v, w) else None) | _ => (None, None) end) out = z_out | None => False end | None => False end) by (vm_compute; repeat split; reflexivity).
  rewrite E in C. destruct C as (-> & C). exists d, g. destruct (flush (inclusive_query y_sum) (d, g)) as [(out, d')|] eqn:F; [|destruct C]. exists out, d'. split; [reflexivity|]. split; [reflexivity|exact C].
Qed.
