(* C81: the hypotheses are met - a program, its profile, the file and the report *)
From Verif Require Import Base VariantModel VariantSpec NamesModel NamesProps TextModel TextProofs TextProofs2 TreeModel TreeSpec TreeProofs TreeProofs2 RuntimeModel RuntimeSpec RuntimeProofs RuntimeProofs2 RuntimeProps RuntimeProps3 RuntimeProps4.
From Verif Require Import ArithModel RtAggModel RtAggSpec RFilterModel EventModel TimerModel ProfModel ProfSpec ProfProofs2 ProfProofs5 ProfProps EndProofs.
From Verif Require Import CaliFileModel CaliFileProofs CaliFileProofs2 CaliFileProofs3 CaliFileProofs4 CaliFileProofs5 CaliFileProps ArithSpec AggModel AggSpec AggSpec2 AggProofs2 AggProofs3 FilterModel QFileSpec QFileModel QFileProofs6 QFileProps QFileProps2 EndSpec EndProofs2 EndProps.
Open Scope N_scope.

(* attribute names: function, and one letter for the others; t.sum is the name of the total time *)
Definition y_fun : bytes := [102;117;110;99;116;105;111;110].
Definition y_names : list bytes := [[97]; [98]; [99]; [100]; [101]; [116;46;115;117;109]; [103]; [104]; [105]; [106]; [107]; [108]; [109]].
Definition y_sum : bytes := [116;46;115;117;109].
Definition c_op (p a : N) (s : bytes) : list (N * rop) := [(0, OTree (TGetChild 8 (VStr s) (Some p)))].
Definition y_a : attr := mkattr 16 276.
Definition y_ops0 : list (N * rop) :=
  [(0, OTree (TGetChild 10 (VInt 64) (Some 3))); (0, OTree (TGetChild 8 (VStr lit_alias) (Some 12))); (0, OTree (TGetChild 8 (VStr lit_unit) (Some 12)));
   (0, OTree (TGetChild 10 (VInt 276) (Some 3))); (0, OTree (TGetChild 8 (VStr y_fun) (Some 15))); (0, OTree (TGetChild 10 (VInt 1) (Some 2)))]
  ++ map (fun s => (0, OTree (TGetChild 8 (VStr s) (Some 17)))) y_names ++ [(0, OActivate 7); (0, OBegin y_a (VStr [120]))].
Definition y_h : list (N * N * rop) :=
  [(0, 10, OBegin y_a (VStr [109])); (1, 12, OBegin y_a (VStr [120])); (0, 25, OEnd y_a); (0, 30, OBegin y_a (VStr [109])); (1, 33, OEnd y_a);
   (0, 37, OEndCheck y_a (VStr [109])); (0, 50, OSet y_a (VStr [121]))].
Definition y_c : pcfg := mkpc (mkec [] false 0 (mkRF None None) (mkRF None None)) (mktc false 0 0) 7 18 19 0 20 (mkinfo [] [19; 20] [(21, 22, 23, 24); (25, 26, 27, 28)] 29 30).
Definition y_es : esvc := mkes [16] [].
Definition y_x : N * value := (16, VStr [120]).
Definition y_m : N * value := (16, VStr [109]).
Definition y_rt : rt := run_of (st y_ops0) (prog y_h).
Definition y_recs : list (list rent) := Eval vm_compute in
  match prun (fun _ _ => true) x_ea x_cv x_mem y_c (pstart (st y_ops0) y_es 99) y_h with
  | Some p => match aflush (p_db p 0) (pc_info y_c) with Some l => l | None => [] end
  | None => [] end.
Definition y_db : mdb := Eval vm_compute in
  let d1 := snd (create_attribute db_init y_fun T_STRING 276) in
  let d2 := fold_left (fun d s => snd (create_attribute d s T_UINT 1)) y_names d1 in
  let d3 := snd (make_tree_entry d2 [(16, VStr [120]); (16, VStr [109])] ROOT) in
  snd (make_tree_entry d3 [(16, VStr [121])] ROOT).
Definition y_lk : N -> option tnode := dnode y_db.
Lemma y_db_is : y_db = (let d1 := snd (create_attribute db_init y_fun T_STRING 276) in
  let d2 := fold_left (fun d s => snd (create_attribute d s T_UINT 1)) y_names d1 in
  let d3 := snd (make_tree_entry d2 [(16, VStr [120]); (16, VStr [109])] ROOT) in
  snd (make_tree_entry d3 [(16, VStr [121])] ROOT)).
Proof. vm_compute. reflexivity. Qed.
Lemma y_fold l : forall d, db_ok d -> db_ok (fold_left (fun d s => snd (create_attribute d s T_UINT 1)) l d).
Proof. induction l as [|s l IH]; intros d1 H1; [exact H1|]. cbn [fold_left]. apply IH. apply create_attribute_ok. exact H1. Qed.
Lemma y_db_ok : db_ok y_db.
Proof.
  rewrite y_db_is. set (d1 := snd (create_attribute db_init y_fun T_STRING 276)). assert (H1 : db_ok d1) by apply (create_attribute_ok db_init _ _ _ db_init_ok).
  set (d2 := fold_left (fun d s => snd (create_attribute d s T_UINT 1)) y_names d1). assert (H2 : db_ok d2) by apply (y_fold y_names d1 H1).
  set (d3 := snd (make_tree_entry d2 [(16, VStr [120]); (16, VStr [109])] ROOT)). assert (H3 : db_ok d3).
  { apply make_tree_entry_ok; auto. repeat constructor; cbn [fst snd]; try discriminate; vm_compute; reflexivity. }
  apply make_tree_entry_ok; auto. repeat constructor; cbn [fst snd]; try discriminate; vm_compute; reflexivity.
Qed.
Lemma y_len : length (d_nodes y_db) = 34%nat. Proof. vm_compute. reflexivity. Qed.
Lemma y_src : src_ok y_lk N.to_nat. Proof. apply db_src_ok; [apply y_db_ok|rewrite y_len; vm_compute; reflexivity]. Qed.
Lemma y_all (P : tnode -> bool) : forallb P (d_nodes y_db) = true -> forall i n, y_lk i = Some n -> P n = true /\ (12 <= i -> n_id n = i).
Proof.
  intros H i n Hn. unfold y_lk in Hn. split.
  - rewrite dnode_nth in Hn. apply nth_error_In in Hn. rewrite forallb_forall in H. auto.
  - intro Hi. exact (ok_id y_db y_db_ok i n Hn).
Qed.
Definition value_b (v : value) : bool :=
  match v with VStr s => forallb storable s | VInt z => ((-9223372036854775808 <=? z) && (z <? 9223372036854775808))%Z | VUint n => n <? W64 | _ => false end.
Lemma value_b_ok v : value_b v = true -> value_ok no_fmt no_parse v.
Proof.
  destruct v; cbn [value_b value_ok]; try discriminate; auto.
  - intro H. apply andb_true_iff in H as (H1 & H2). unfold s64_ok. lia.
  - intro H. apply N.ltb_lt in H. exact H.
Qed.
Definition typed_b (a : N) (v : value) : bool := value_b v && match climb 9 y_lk a 9 with Some (VType t) => t =? val_type v | _ => false end.
Lemma typed_b_ok a v : typed_b a v = true -> typed no_fmt no_parse y_lk a v.
Proof.
  intro H. apply andb_true_iff in H as (H1 & H2). split; [apply value_b_ok, H1|]. exists 9%nat. destruct (climb 9 y_lk a 9) as [v'|]; [|discriminate]. destruct v'; try discriminate. apply N.eqb_eq in H2. subst. reflexivity.
Qed.
Definition vis_b (a : N) : bool := (a =? 8) || (a =? 10) || match climb 9 y_lk a 10 with Some (VInt z) => (Z.land z HIDDEN =? 0)%Z | _ => false end.
Lemma vis_b_ok a : vis_b a = true -> visible y_lk a.
Proof.
  intros H fuel z E. unfold vis_b in H. destruct (N.eqb_spec a 8) as [E8|_]; [subst a|destruct (N.eqb_spec a 10) as [E10|_]; [subst a|]].
  - assert (X : climb fuel y_lk 8 10 = None) by (destruct fuel as [|[|[|f]]]; vm_compute; reflexivity). congruence.
  - assert (X : climb fuel y_lk 10 10 = None) by (destruct fuel as [|[|[|f]]]; vm_compute; reflexivity). congruence.
  - cbn [orb] in H. destruct (climb 9 y_lk a 10) as [v|] eqn:E2; [|discriminate]. destruct v; try discriminate. apply Z.eqb_eq in H. pose proof (climb_det _ _ _ _ _ _ _ E E2). congruence.
Qed.
Definition node_b (n : tnode) : bool := (n_id n <? 12) || (typed_b (n_attr n) (n_val n) && vis_b (n_attr n)).
Lemma y_nodes_ok i n : y_lk i = Some n -> 12 <= i -> typed no_fmt no_parse y_lk (n_attr n) (n_val n) /\ visible y_lk (n_attr n).
Proof.
  intros Hn Hi. destruct (y_all node_b ltac:(vm_compute; reflexivity) i n Hn) as (H & E). rewrite <- (E Hi) in Hi. unfold node_b in H. apply orb_true_iff in H as [H|H]; [apply N.ltb_lt in H; lia|]. apply andb_true_iff in H as (H1 & H2). split; [apply typed_b_ok, H1|apply vis_b_ok, H2].
Qed.

(* the file *)
Definition y_entry (e : rent) : entry := match e with RRef i => ERef i | RImm a c => EImm a (VUint (word c)) end.
Definition y_calls : list call := map (fun r => mkcall y_lk false (map y_entry r)) y_recs.
Definition y_file : file := mkfile y_lk N.to_nat y_calls (match write_calls 30 y_calls w_init with Some w => w | None => w_init end).
Definition entry_b (e : entry) : bool :=
  match e with
  | ERef i => match y_lk i with Some n => negb (n_attr n =? 8) | None => false end
  | EImm a v => typed_b a v && match y_lk a with Some n => n_attr n =? 8 | None => false end && (12 <=? a)
  end.
Definition call_b (c : call) : bool := (2 <=? length (imms_of (c_rec c)))%nat && forallb entry_b (c_rec c).
Lemma y_calls_b : forallb call_b y_calls = true. Proof. vm_compute. reflexivity. Qed.
Lemma y_calls_db c : In c y_calls -> c_db c = y_lk. Proof. unfold y_calls. intro H. apply in_map_iff in H as (r & <- & _). reflexivity. Qed.
Lemma y_file_ok : file_ok no_fmt no_parse y_file.
Proof.
  split; [exact y_src|]. split. { intros i n Hn. cbn [fl_src y_file] in Hn. apply dnode_lt in Hn. rewrite y_len in Hn. eapply N.lt_trans; [exact Hn|]. reflexivity. }
  split; [exact y_nodes_ok|]. split; [|exists 30%nat; vm_compute; reflexivity].
  cbn [fl_calls fl_src y_file]. apply Forall_forall. intros cl Hc. pose proof y_calls_b as B. rewrite forallb_forall in B. specialize (B cl Hc). apply andb_true_iff in B as (B1 & B2). apply Nat.leb_le in B1. rewrite forallb_forall in B2.
  unfold call_ok. rewrite (y_calls_db cl Hc). split; [intros i n H; exact H|]. split; [exists N.to_nat; apply (so_wf _ _ y_src)|]. split; [|split; [|split]].
  - intro E. rewrite E in B1. cbn in B1. lia.
  - intros a E. rewrite E in B1. cbn in B1. lia.
  - intros i Hi. specialize (B2 _ Hi). cbn [entry_b] in B2. destruct (y_lk i) as [n|]; [|discriminate]. exists n. split; [reflexivity|]. intro E. rewrite E in B2. discriminate.
  - intros a v Hi. specialize (B2 _ Hi). cbn [entry_b] in B2. apply andb_true_iff in B2 as (B2 & _). apply andb_true_iff in B2 as (B2 & B3). split; [apply typed_b_ok, B2|]. destruct (y_lk a) as [n|]; [|discriminate]. exists n. split; [reflexivity|apply N.eqb_eq, B3].
Qed.
(* the dictionary *)
Definition y_dict : dict := mkdict
  (fun s => match get_attr y_db s with Some a => if a =? 8 then None else meanf 30 y_lk a | None => None end)
  (beqb y_fun) (fun s => if existsb (beqb s) y_names then T_UINT else T_STRING).
Definition agree_b (n : tnode) : bool := (n_id n <? 12) || negb (n_attr n =? 8) ||
  match n_val n with
  | VStr s => match get_attr y_db s with Some a => (a =? n_id n) && negb (a =? 8) && match meanf 30 y_lk a with Some _ => true | None => false end | None => false end &&
      match climb 9 y_lk (n_id n) 10 with Some (VInt z) => Bool.eqb (beqb y_fun s) (negb (Z.land z NESTED =? 0)%Z) | _ => false end &&
      match climb 9 y_lk (n_id n) 9 with Some (VType t) => dc_type y_dict s =? t | _ => false end
  | _ => false end.
Lemma y_agrees : agrees y_dict y_lk.
Proof.
  intros a s Ha (n & Hn & H8 & Hs). destruct (y_all agree_b ltac:(vm_compute; reflexivity) a n Hn) as (H & E). specialize (E Ha). unfold agree_b in H. rewrite E, H8, Hs in H.
  assert (L : (a <? 12) = false) by (apply N.ltb_ge; exact Ha). rewrite L in H. cbn [N.eqb negb orb Pos.eqb] in H. apply andb_true_iff in H as (H & H3). apply andb_true_iff in H as (H1 & H2).
  split; [|split].
  - cbn [dc_mean y_dict]. destruct (get_attr y_db s) as [b|]; [|discriminate]. apply andb_true_iff in H1 as (H1 & H4). apply andb_true_iff in H1 as (H1 & H5). apply N.eqb_eq in H1. subst b. destruct (a =? 8); [discriminate|]. destruct (meanf 30 y_lk a) as [M|] eqn:EM; [|discriminate]. exists M. split; [reflexivity|]. apply (meanf_ok 30), EM.
  - cbn [dc_nested y_dict]. destruct (climb 9 y_lk a 10) as [v|] eqn:EC; [|discriminate]. destruct v; try discriminate. apply Bool.eqb_prop in H2. rewrite H2. split.
    + intro Z. exists 9%nat, z. split; [exact EC|]. intro Z0. rewrite Z0 in Z. discriminate.
    + intros (f & z' & E1 & E2). pose proof (climb_det _ _ _ _ _ _ _ E1 EC) as X. injection X as ->. destruct (Z.eqb_spec (Z.land z NESTED) 0); [contradiction|reflexivity].
  - intros f t E1. destruct (climb 9 y_lk a 9) as [v|] eqn:EC; [|discriminate]. destruct v; try discriminate. pose proof (climb_det _ _ _ _ _ _ _ E1 EC) as X. injection X as ->. apply N.eqb_eq in H3. exact H3.
Qed.
Definition uniq_b (n : tnode) : bool := forallb (fun k => negb (n_attr n =? 8) || negb (n_attr k =? 8) || match n_val n, n_val k with VStr s, VStr s' => negb (beqb s s') || (n_id n =? n_id k) | _, _ => true end) (d_nodes y_db).
Lemma y_unique : names_unique y_lk.
Proof.
  intros a b s (n & Hn & N8 & Ns) (k & Hk & K8 & Ks). destruct (y_all uniq_b ltac:(vm_compute; reflexivity) a n Hn) as (H & _). unfold uniq_b in H. rewrite forallb_forall in H.
  assert (Hin : In k (d_nodes y_db)) by (unfold y_lk in Hk; rewrite dnode_nth in Hk; apply nth_error_In in Hk; exact Hk). specialize (H k Hin). rewrite N8, K8, Ns, Ks in H. cbn [N.eqb negb orb Pos.eqb] in H. rewrite (proj2 (beqb_eq s s) eq_refl) in H. cbn [negb orb] in H. apply N.eqb_eq in H.
  rewrite <- (ok_id y_db y_db_ok a n Hn), <- (ok_id y_db y_db_ok b k Hk). exact H.
Qed.
Definition y_says (e : entry) : nentry :=
  match e with
  | ERef i => NRef (match pathf 30 y_lk i with Some p => p | None => [] end)
  | EImm a v => NImm (match y_lk a with Some n => match n_val n with VStr s => s | _ => [] end | None => [] end) v
  end.
Definition y_W : list nrec := Eval vm_compute in map (fun c => map y_says (ref_first (c_rec c))) y_calls.
Definition says_b (e : entry) : bool :=
  match e with ERef i => match pathf 30 y_lk i with Some _ => true | None => false end
  | EImm a v => match y_lk a with Some n => (n_attr n =? 8) && match n_val n with VStr _ => true | _ => false end | None => false end end.
Lemma says_b_ok e : says_b e = true -> says y_lk e (y_says e).
Proof.
  destruct e as [i|a v]; cbn [says_b y_says].
  - destruct (pathf 30 y_lk i) as [p|] eqn:E; [|discriminate]. intros _. constructor. apply (pathf_ok 30), E.
  - destruct (y_lk a) as [n|] eqn:E; [|discriminate]. intro H. apply andb_true_iff in H as (H1 & H2). constructor. exists n. split; [exact E|]. split; [apply N.eqb_eq, H1|]. destruct (n_val n); try discriminate. reflexivity.
Qed.
Lemma y_written : written [y_file] y_W.
Proof.
  exists [y_W]. split; [|cbn [concat]; rewrite app_nil_r; reflexivity]. constructor; [|constructor].
  assert (E : y_W = map (map y_says) (ctx_calls (fl_calls y_file))) by (vm_compute; reflexivity). rewrite E. cbn [fl_src y_file].
  assert (B : forallb (forallb says_b) (ctx_calls (fl_calls y_file)) = true) by (vm_compute; reflexivity). revert B. generalize (ctx_calls (fl_calls y_file)) as l. induction l as [|r l IH]; intro B; [constructor|]. cbn [forallb map] in *. apply andb_true_iff in B as (B1 & B2).
  constructor; [|apply IH; exact B2]. clear - B1. induction r as [|e r IH]; [constructor|]. cbn [forallb map] in *. apply andb_true_iff in B1 as (B0 & B1). constructor; [apply says_b_ok, B0|apply IH, B1].
Qed.
Fixpoint plain_b (fuel : nat) (i : N) : bool := match fuel with O => false | S f => (i =? INV_ID) || match y_lk i with Some n => (12 <=? n_attr n) && plain_b f (par_id n) | None => false end end.
Lemma plain_b_ok fuel : forall i, plain_b fuel i = true -> plain_node y_lk i.
Proof.
  induction fuel as [|f IH]; intros i H; [discriminate|]. cbn [plain_b] in H. destruct (N.eqb_spec i INV_ID) as [E|_]; [subst i; constructor|]. cbn [orb] in H. destruct (y_lk i) as [n|] eqn:E; [|discriminate]. apply andb_true_iff in H as (H1 & H2). apply N.leb_le in H1. eapply pn_node; eauto.
Qed.
Lemma y_plain : plain_file y_file.
Proof.
  intros r e Hr He. cbn [fl_src y_file]. assert (B : forallb (forallb (fun e => match e with ERef i => plain_b 9 i | EImm a _ => 12 <=? a end)) (ctx_calls (fl_calls y_file)) = true) by (vm_compute; reflexivity).
  rewrite forallb_forall in B. specialize (B r Hr). rewrite forallb_forall in B. specialize (B e He). destruct e as [i|a v]; cbn [plain_entry]; [apply (plain_b_ok 9), B|apply N.leb_le, B].
Qed.
Lemma y_query_ok : query_ok no_fmt no_parse y_dict (time_query y_sum) [y_file] y_W.
Proof.
  split.
  - constructor; [exact y_file_ok|constructor].
  - constructor; [|constructor]. split; [exact y_agrees|]. split; [intros a s p _ _ _ k []|exact y_plain].
  - intros s M a HM Ha. cbn [dc_mean y_dict] in HM.
    assert (Hs : s = lit_attr_name /\ a = 8 \/ s = lit_alias /\ a = 13 \/ s = lit_unit /\ a = 14).
    { unfold get_attr in Ha. change (d_attrs db_init) with [(lit_unit, 14); (lit_alias, 13); (lit_attr_name, 8)] in Ha. cbn [alookup] in Ha.
      destruct (beqb lit_unit s) eqn:E1; [apply beqb_eq in E1; subst; right; right; split; congruence|]. destruct (beqb lit_alias s) eqn:E2; [apply beqb_eq in E2; subst; right; left; split; congruence|]. destruct (beqb lit_attr_name s) eqn:E3; [apply beqb_eq in E3; subst; left; split; congruence|discriminate Ha]. }
    destruct Hs as [(-> & ->)|[(-> & ->)|(-> & ->)]]; vm_compute in HM; [discriminate HM| |]; (apply (meanf_ok 30); vm_compute; exact HM).
  - intros s Hin. vm_compute in Hin. destruct Hin as [<-|[]]; vm_compute; reflexivity.
  - exact y_written.
  - vm_compute. reflexivity.
Qed.
Definition y_ns : list tnode := Eval vm_compute in t_nodes (RuntimeModel.r_tree y_rt).
Lemma y_ns_ok : t_nodes (RuntimeModel.r_tree y_rt) = y_ns. Proof. vm_compute. reflexivity. Qed.
Lemma y_tree i : fl_src y_file i = nodes_of (RuntimeModel.r_tree y_rt) i.
Proof.
  cbn [fl_src y_file]. unfold nodes_of, node_at. rewrite y_ns_ok.
  destruct (N.ltb_spec i 34) as [L|L].
  - rewrite <- (N2Nat.id i). assert (L' : (N.to_nat i < 34)%nat) by lia. revert L'. generalize (N.to_nat i). intro k. do 34 (destruct k as [|k]; [intros _; vm_compute; reflexivity|]). intro; lia.
  - assert (X : y_lk i = None). { destruct (y_lk i) as [n|] eqn:E; [|reflexivity]. apply dnode_lt in E. rewrite y_len in E. lia. } rewrite X. destruct (N.eqb_spec i INV_ID) as [|Ne]; [reflexivity|].
    symmetry. match goal with |- find _ ?l = None => assert (F : forall n, In n l -> n_id n < 34 \/ n_id n = INV_ID) end.
    { intros n Hn. match type of Hn with In _ ?l => assert (B : forallb (fun n => (n_id n <? 34) || (n_id n =? INV_ID)) l = true) by (vm_compute; reflexivity) end. rewrite forallb_forall in B. specialize (B n Hn). apply orb_true_iff in B as [B|B]; [left; apply N.ltb_lt, B|right; apply N.eqb_eq, B]. }
    match goal with |- find _ ?l = None => revert F; generalize l end. intros l F. induction l as [|n l IH]; [reflexivity|]. cbn [find]. destruct (N.eqb_spec (n_id n) i) as [E|_]; [destruct (F n (or_introl eq_refl)); [lia|congruence]|]. apply IH. intros k Hk. apply F. right. exact Hk.
Qed.
Lemma y_file_of : file_of x_mem (RuntimeModel.r_tree y_rt) y_recs y_file.
Proof.
  split; [exact y_tree|]. cbn [fl_calls y_file]. unfold y_calls.
  assert (B : forallb (forallb (fun e => match e with RRef _ => true | RImm _ c => (ts c =? 3) && (word c <? W64) end)) y_recs = true) by (vm_compute; reflexivity). revert B. generalize y_recs as l. induction l as [|r l IH]; intro B; [constructor|]. cbn [forallb map] in *. apply andb_true_iff in B as (B1 & B2).
  constructor; [|apply IH, B2]. split; [reflexivity|]. cbn [c_rec]. clear - B1. induction r as [|e r IH]; [constructor|]. cbn [forallb map] in *. apply andb_true_iff in B1 as (B0 & B1). constructor; [|apply IH, B1].
  destruct e as [i|a [t w]]; cbn [written_entry y_entry]; [reflexivity|]. cbn [ts word] in B0. apply andb_true_iff in B0 as (B0 & B2). apply N.eqb_eq in B0. subst t. split; [reflexivity|]. cbn [word]. apply (b_uint x_mem w). apply N.ltb_lt, B2.
Qed.
Example C81_case : exists s0 xs0 s' xs, rt_history y_ops0 s0 xs0 /\ Forall (fun p => plain_op (snd p)) y_ops0 /\ profiling y_c s0 /\
  reports_stats (pc_info y_c) 0 (pc_dur y_c) 21 22 23 24 /\ reports_stats (pc_info y_c) 1 (pc_cnt y_c) 25 26 27 28 /\
  ops_ok s0 (prog y_h) /\ Forall (fun x => plain_op (snd x) /\ leaves_channel (pc_chn y_c) (snd x)) y_h /\
  rt_run s0 (prog y_h) = Some (s', xs) /\ not_full (RuntimeModel.r_tree s') /\ RuntimeModel.r_err s' 0 = false /\
  (forall n o b, In (n, o) (timeline 0 y_h) -> op_attr o = Some b -> find_marker y_es (x_ea (at_id b)) = true) /\
  ordered 0 (timeline 0 y_h) /\ N.of_nat (length (timeline 0 y_h)) < 4294967296 /\
  (forall p recs, prun (fun _ _ => true) x_ea x_cv x_mem y_c (pstart s0 y_es 99) y_h = Some p -> aflush (p_db p 0) (pc_info y_c) = Some recs -> file_of x_mem (RuntimeModel.r_tree s') recs y_file) /\
  query_ok no_fmt no_parse y_dict (time_query y_sum) [y_file] y_W /\ names_unique (fl_src y_file) /\ called (fl_src y_file) 23 y_sum /\ dc_type y_dict y_sum = T_UINT /\
  (forall y a v, In y (stretches 0 (bb_regions (RuntimeModel.r_tree s0) (r_tbb s0 0)) (timeline 0 y_h)) -> In (a, v) (fst (fst y)) -> dc_nested y_dict (name_of (RuntimeModel.r_tree s') a) = true) /\
  exists d g out d', aggregate_files no_parse (fun _ _ => VInv) [] (time_query y_sum) [text_of no_fmt y_file] = Some (d, g, false) /\ flush (time_query y_sum) (d, g) = Some (out, d') /\
    map (fun es => (match es with [ERef i; EImm a v] => (pathf 30 (dnode d') i, if match get_attr d' (p_sum ++ y_sum) with Some b => a =? b | None => false end then Some v else None) | _ => (None, None) end)) out =
      [(Some [(y_fun, VStr [120])], Some (VUint 28)); (Some [(y_fun, VStr [109]); (y_fun, VStr [120])], Some (VUint 22))].
Proof.
  exists (st y_ops0), (map (fun _ => ODone) y_ops0), y_rt, (map (fun _ => ODone) y_h).
  split; [apply mk_history; [vm_compute; reflexivity|apply st_run; vm_compute; reflexivity|vm_compute; reflexivity]|].
  split. { apply Forall_forall. intros x Hx. apply plain_opb_ok. revert x Hx. apply forallb_forall. vm_compute. reflexivity. }
  split. { constructor.
    - replace (r_act (st y_ops0)) with [7] by (vm_compute; reflexivity). left. reflexivity.
    - reflexivity.
    - reflexivity.
    - reflexivity.
    - reflexivity.
    - cbn. lia.
    - apply nodup_b_ok. vm_compute. reflexivity.
    - apply nodup_b_ok. vm_compute. reflexivity.
    - constructor; [|constructor; [|constructor; [|constructor]]]; apply nm_node_ok; vm_compute; reflexivity. }
  split; [split; reflexivity|]. split; [split; reflexivity|]. split; [apply ops_okb_ok; vm_compute; reflexivity|].
  split. { apply Forall_forall. intros x Hx. assert (Z : plain_opb (snd x) && leavesb 7 (snd x) = true) by (revert x Hx; apply forallb_forall; vm_compute; reflexivity).
    apply andb_true_iff in Z as (Z1 & Z2). split; [apply plain_opb_ok|apply leavesb_ok]; auto. }
  split; [apply run_of_ok; vm_compute; reflexivity|]. split; [unfold not_full; apply N.ltb_lt; vm_compute; reflexivity|]. split; [vm_compute; reflexivity|].
  split. { intros n o b Hin Hb. assert (Z : forallb (fun x : N * rop => match op_attr (snd x) with Some b => find_marker y_es (x_ea (at_id b)) | None => true end) (timeline 0 y_h) = true) by (vm_compute; reflexivity).
    rewrite forallb_forall in Z. specialize (Z _ Hin). cbn [snd] in Z. rewrite Hb in Z. exact Z. }
  split; [cbn; repeat split; (discriminate || reflexivity || exact Logic.I)|]. split; [reflexivity|].
  split. { intros p recs H1 H2. assert (E : match prun (fun _ _ => true) x_ea x_cv x_mem y_c (pstart (st y_ops0) y_es 99) y_h with Some p => aflush (p_db p 0) (pc_info y_c) | None => None end = Some y_recs) by (vm_compute; reflexivity).
    rewrite H1 in E. assert (Er : recs = y_recs) by congruence. rewrite Er. exact y_file_of. }
  split; [exact y_query_ok|]. split; [exact y_unique|]. split; [eexists; (split; [vm_compute; reflexivity|split; reflexivity])|]. split; [vm_compute; reflexivity|].
  split. { intros y a v Hy Ha. assert (B : forallb (fun y : ProfSpec.path * N * bool => forallb (fun z : N * value => beqb y_fun (name_of (RuntimeModel.r_tree y_rt) (fst z))) (fst (fst y))) (stretches 0 (bb_regions (RuntimeModel.r_tree (st y_ops0)) (r_tbb (st y_ops0) 0)) (timeline 0 y_h)) = true) by (vm_compute; reflexivity).
    rewrite forallb_forall in B. specialize (B y Hy). rewrite forallb_forall in B. exact (B (a, v) Ha). }
  destruct (aggregate_files no_parse (fun _ _ => VInv) [] (time_query y_sum) [text_of no_fmt y_file]) as [((d, g), e)|] eqn:E; [|vm_compute in E; discriminate E].
  assert (C : match aggregate_files no_parse (fun _ _ => VInv) [] (time_query y_sum) [text_of no_fmt y_file] with Some (d, g, e) => e = false /\ match flush (time_query y_sum) (d, g) with Some (out, d') =>
    map (fun es => (match es with [ERef i; EImm a v] => (pathf 30 (dnode d') i, if match get_attr d' (p_sum ++ y_sum) with Some b => a =? b | None => false end then Some v else None) | _ => (None, None) end)) out =
      [(Some [(y_fun, VStr [120])], Some (VUint 28)); (Some [(y_fun, VStr [109]); (y_fun, VStr [120])], Some (VUint 22))] | None => False end | None => False end) by (vm_compute; repeat split; reflexivity).
  rewrite E in C. destruct C as (-> & C). exists d, g. destruct (flush (time_query y_sum) (d, g)) as [(out, d')|] eqn:F; [|destruct C]. exists out, d'. split; [reflexivity|]. split; [reflexivity|exact C].
Qed.
