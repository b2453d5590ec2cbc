(* C26-C29: the .cali text format and the metadata database *)
From Verif Require Import Base VariantModel VariantSpec NamesModel TextModel TextProofs TextProofs2 TreeModel TreeProofs CaliFileModel CaliFileProofs CaliFileProofs2 CaliFileProofs3 CaliFileProofs4 CaliFileProofs5.

(* ================= C26: escaping ================= *)
(* Characters with an encoding: printable ASCII (and DEL), newline. *)
Definition encodable (s : bytes) : Prop := forall c, In c s -> c = 10 \/ 32 <= c < 128.
(* where a field may end: end of line, the next field or list element *)
Definition separator (rest : bytes) : Prop := rest = [] \/ (exists r, rest = c_comma :: r) \/ (exists r, rest = c_eq :: r).
Lemma separator_term rest : separator rest -> term rest.
Proof. intros [->|[(r & ->)|(r & ->)]]; cbn; auto. Qed.
Lemma encodable_storable s : encodable s -> forallb storable s = true.
Proof. intro H. apply forallb_forall. intros c Hc. specialize (H c Hc). unfold storable, c_nl. lia. Qed.

(* Reading back a written string gives the string, and exactly the rest of the line remains. *)
Theorem C26_escape_roundtrip s rest : encodable s -> separator rest -> read_escaped_word (esc s ++ rest) = (s, rest).
Proof.
  intros He Hr. rewrite read_escaped; [|apply separator_term; auto|].
  - rewrite filter_id; auto. apply encodable_storable; auto.
  - apply Forall_forall. intros c Hc. specialize (He c Hc). unfold byte_ok. lia.
Qed.
(* Any bytes: other characters disappear, nothing else changes; the neighbouring fields never change. *)
Theorem C26_escape_any_bytes s rest : bytes_ok s -> separator rest ->
  read_escaped_word (esc s ++ rest) = (filter (fun c => (c =? 10) || (32 <=? c) && (c <? 128)) s, rest).
Proof.
  intros Hb Hr. rewrite read_escaped; auto; [|apply separator_term; auto]. f_equal. apply filter_ext. intro c. unfold storable, c_nl. rewrite orb_comm. reflexivity.
Qed.
(* The written text is printable, in particular it contains no line break. *)
Theorem C26_escaped_text_printable s c : In c (esc s) -> 32 <= c < 128 /\ c <> c_nl.
Proof. intro H. apply esc_chars in H. unfold c_nl. lia. Qed.
(* encodable strings with distinct contents have distinct encodings *)
Theorem C26_escape_injective s t : encodable s -> encodable t -> esc s = esc t -> s = t.
Proof.
  intros Hs Ht E. pose proof (C26_escape_roundtrip s [] Hs (or_introl eq_refl)) as H1. pose proof (C26_escape_roundtrip t [] Ht (or_introl eq_refl)) as H2.
  rewrite E in H1. congruence.
Qed.
(* The property as stated does not hold: a tab, or any UTF-8 sequence, is dropped. *)
Theorem C26_lossless_refuted :
  read_escaped_word (esc [97; 9; 98]) = ([97; 98], []) /\ read_escaped_word (esc [195; 164]) = ([], []).
Proof. split; reflexivity. Qed.
Example C26_case : encodable [97; 61; 44; 92; 10; 110; 32] /\ separator (c_comma :: [98]) /\ read_escaped_word (esc [97; 61; 44; 92; 10; 110; 32] ++ c_comma :: [98]) = ([97; 61; 44; 92; 10; 110; 32], c_comma :: [98]).
Proof. split; [intros c H; cbn in H; intuition; subst; auto; right; lia|]. split; [right; left; eauto|]. reflexivity. Qed.

(* ================= C27: streams are self-contained ================= *)
(* id is a bootstrap node or defined by one of the lines *)
Definition defined_in (ls : list wline) (id : N) : Prop := id < 11 \/ exists n, In (WNode n) ls /\ n_id n = id.
Definition refers (l : wline) (id : N) : Prop :=
  match l with
  | WNode n => id = n_attr n \/ (n_par n = Some id /\ id <> INV_ID)
  | WRec _ refs imms => In id refs \/ exists v, In (id, v) imms
  end.
Definition self_contained (ls : list wline) : Prop :=
  (forall pre l post id, ls = pre ++ l :: post -> refers l id -> defined_in pre id) /\
  (forall pre n post m, ls = pre ++ WNode n :: post -> In (WNode m) (pre ++ post) -> n_id m <> n_id n).
(* a metadata tree: attributes and parents exist and are older (rank) *)
Definition tree_src (src : N -> option tnode) : Prop := exists rank, wf_src src rank.
Definition known_entries (src : N -> option tnode) (rec : list entry) : Prop := forall e, In e rec -> src (entry_node e) <> None.
Lemma wids_in ls i : In i (wids ls) <-> exists n, In (WNode n) ls /\ n_id n = i.
Proof.
  unfold wids. rewrite in_flat_map. split.
  - intros (l & Hl & Hi). destruct l as [n|]; [|contradiction]. destruct Hi as [<-|[]]. eauto.
  - intros (n & Hn & <-). exists (WNode n). cbn. auto.
Qed.
Lemma known_defined ls i : known_id ls i -> defined_in ls i.
Proof. intros [H|H]; [left; auto|right; apply wids_in; auto]. Qed.

(* All sequences of records, with the tree growing in any way between the calls. *)
Theorem C27_self_contained fuel cs w : Forall (fun c => tree_src (c_db c) /\ known_entries (c_db c) (c_rec c)) cs -> write_calls fuel cs w_init = Some w -> self_contained (w_out w).
Proof.
  intros Hc H. assert (Hc' : Forall (fun c => (exists rank, wf_src (c_db c) rank) /\ rec_ok (c_db c) (c_rec c)) cs).
  { eapply Forall_impl; [|exact Hc]. intros c (A & B). split; auto. apply Forall_forall. exact B. }
  destruct (write_calls_inv fuel cs Hc' _ _ winv_init H) as ((Hcl & _) & _). split.
  - intros pre l post id E Hr. pose proof (closed_at _ Hcl _ _ _ E) as K. apply known_defined. destruct l as [n|g refs imms]; cbn [refers] in Hr.
    + destruct K as (K1 & K2 & _). destruct Hr as [->|(Hp & Hne)]; auto. destruct (K2 _ Hp); auto. contradiction.
    + destruct K as (K1 & K2). rewrite Forall_forall in K1, K2. destruct Hr as [Hr|(v & Hr)]; auto. apply (K2 (id, v)); auto.
  - intros pre n post m E Hm Heq. pose proof (closed_nodup _ Hcl) as ND. rewrite E, wids_app in ND. change (wids (WNode n :: post)) with (n_id n :: wids post) in ND.
    apply NoDup_remove_2 in ND. apply ND. rewrite <- wids_app. apply wids_in. eauto.
Qed.
(* every call terminates: recursion depth is bounded by the depth of the tree *)
Theorem C27_writing_terminates cs : Forall (fun c => tree_src (c_db c)) cs -> exists w f0, forall f, (f0 <= f)%nat -> write_calls f cs w_init = Some w.
Proof. intro H. destruct (write_calls_some cs H w_init) as (f0 & w & E). exists w, f0. intros f Hf. eapply write_calls_mono; eauto. Qed.
(* what is written: one record line per call, in order, with the references and values given; and only nodes of the tree *)
Theorem C27_contents fuel cs w : Forall (fun c => tree_src (c_db c) /\ known_entries (c_db c) (c_rec c)) cs -> write_calls fuel cs w_init = Some w ->
  recs_of (w_out w) = map (fun c => (c_glob c, refs_of (c_rec c), imms_of (c_rec c))) cs /\
  (forall n, In (WNode n) (w_out w) -> exists c, In c cs /\ c_db c (n_id n) = Some n).
Proof.
  intros Hc H. split; [rewrite (write_calls_recs fuel cs _ _ H); reflexivity|].
  assert (Hc' : Forall (fun c => (exists rank, wf_src (c_db c) rank) /\ rec_ok (c_db c) (c_rec c)) cs).
  { eapply Forall_impl; [|exact Hc]. intros c (A & B). split; auto. apply Forall_forall. exact B. }
  intros n Hn. destruct (write_calls_inv fuel cs Hc' _ _ winv_init H) as (_ & S). destruct (S n Hn) as [[]|(c & A & _ & B)]. eauto.
Qed.

(* ================= C28: records survive ================= *)
(* the line level: every record line is read back exactly *)
Theorem C28_record_line_roundtrip (g : bool) refs attrs ts : Forall u64_ok refs -> Forall u64_ok attrs -> Forall encodable ts -> length ts = length attrs ->
  (refs <> [] \/ attrs <> []) -> ts <> [[]] ->
  parse_line (record_line g refs attrs (map esc ts)) = (if g then PGlobals else PCtx) (mkrf refs attrs ts).
Proof.
  intros Hr Ha Ht Hl Hne Hs. rewrite parse_record_line; auto.
  - f_equal. f_equal. clear -Ht. induction Ht as [|t ts H Ht IH]; cbn; auto. rewrite IH, filter_id; auto. apply encodable_storable; auto.
  - eapply Forall_impl; [|exact Ht]. intros t He. apply Forall_forall. intros c Hc. specialize (He c Hc). unfold byte_ok. lia.
  - intros t -> E. apply Hs. f_equal. inversion Ht as [|? ? He _]; subst. pose proof (C26_escape_roundtrip t [] He (or_introl eq_refl)) as R. rewrite E in R. cbn in R. congruence.
Qed.
Theorem C28_node_line_roundtrip id attr t parent : u64_ok id -> u64_ok attr -> (forall p, parent = Some p -> u64_ok p) -> encodable t ->
  parse_line (node_line id attr (esc t) parent) = PNode (mknf id attr (match parent with Some p => p | None => INV_ID end) t).
Proof.
  intros. rewrite parse_node_line; auto.
  - rewrite filter_id; auto. apply encodable_storable; auto.
  - apply Forall_forall. intros c Hc. specialize (H2 c Hc). unfold byte_ok. lia.
Qed.

(* Values: what is written for a value of the attribute's type is read back as that value.
   value_ok: integers in the 64 bit range, encodable strings, type values, booleans, addresses,
   and doubles whose decimal text parses back to themselves. *)
Theorem C28_value_roundtrip dfmt dparse v rest : value_ok dfmt dparse v -> separator rest ->
  exists text, read_escaped_word (write_value dfmt v ++ rest) = (text, rest) /\ make_variant dparse (val_type v) text = v.
Proof.
  intros Hv Hr. exists (filter storable (plain dfmt v)). split; [|apply read_value; auto].
  rewrite write_plain by (apply (value_ok_range dfmt dparse); auto). apply read_escaped; [apply separator_term; auto|]. eapply value_bytes; eauto.
Qed.

(* Streams.  A metadata source (src) whose node values have the types of their attributes; calls
   made while the tree grew (each database is a part of src); records that are not empty, refer
   to existing nodes, and whose immediate values fit their attributes. *)
Definition part_of (db src : N -> option tnode) : Prop := forall i n, db i = Some n -> src i = Some n.
Definition call_ok dfmt dparse (src : N -> option tnode) (c : call) : Prop :=
  part_of (c_db c) src /\ tree_src (c_db c) /\ c_rec c <> [] /\ (forall a, imms_of (c_rec c) <> [(a, VStr [])]) /\
  (forall i, In (ERef i) (c_rec c) -> exists n, c_db c i = Some n /\ n_attr n <> 8) /\
  (forall a v, In (EImm a v) (c_rec c) -> typed dfmt dparse src a v /\ exists n, c_db c a = Some n /\ n_attr n = 8).
(* what a reader sees of a record: references first *)
Definition ref_first (rec : list entry) : list entry := map ERef (refs_of rec) ++ map (fun x => EImm (fst x) (snd x)) (imms_of rec).
Definition ctx_calls (cs : list call) : list (list entry) := flat_map (fun c => if c_glob c then [] else [ref_first (c_rec c)]) cs.
(* several streams read into one database, one after the other *)
Fixpoint read_files dparse (d : mdb) (texts : list bytes) : option (mdb * list (list (list (option entry))) * bool) :=
  match texts with
  | [] => Some (d, [], false)
  | t :: r => match read_stream dparse d t with
              | Some s => match read_files dparse (r_db s) r with Some (d', recs, e) => Some (d', r_recs s :: recs, r_err s || e) | None => None end
              | None => None
              end
  end.
Record file := mkfile { fl_src : N -> option tnode; fl_rank : N -> nat; fl_calls : list call; fl_writer : writer }.
Definition file_ok dfmt dparse (f : file) : Prop :=
  src_ok (fl_src f) (fl_rank f) /\ in_range64 (fl_src f) /\ src_typed dfmt dparse (fl_src f) /\ Forall (call_ok dfmt dparse (fl_src f)) (fl_calls f) /\
  exists fuel, write_calls fuel (fl_calls f) w_init = Some (fl_writer f).
(* an entry of the file and what was read for it: same value and the same chain of attributes and
   values up to the root, in either database (mean), recursively including the attributes' names,
   types and properties *)
Lemma stream_ok dfmt dparse f d : file_ok dfmt dparse f -> db_ok d -> N.of_nat (length (d_nodes d) + length (w_out (fl_writer f))) < INV_ID ->
  exists s, read_stream dparse d (render_stream dfmt (w_out (fl_writer f))) = Some s /\ dext d (r_db s) /\ db_ok (r_db s) /\ r_err s = false /\
    (length (d_nodes (r_db s)) <= length (d_nodes d) + length (w_out (fl_writer f)))%nat /\
    Forall2 (Forall2 (same_entry (fl_src f) (dnode (r_db s)))) (ctx_calls (fl_calls f)) (r_recs s).
Proof.
  intros (Hs & Hr & Ht & Hc & fuel & Hw) Hd Hlen. set (w := fl_writer f) in *. set (src := fl_src f) in *.
  assert (Hc' : Forall (fun c => (exists rank, wf_src (c_db c) rank) /\ rec_ok (c_db c) (c_rec c)) (fl_calls f)).
  { eapply Forall_impl; [|exact Hc]. intros c (A & B & C & D & E & F). split; auto. apply Forall_forall. intros [i|a v] He; cbn [entry_node].
    - destruct (E i He) as (n & -> & _). discriminate.
    - destruct (F a v He) as (_ & n & -> & _). discriminate. }
  destruct (write_calls_inv fuel _ Hc' _ _ winv_init Hw) as ((Hcl & _) & Hnodes).
  pose proof (write_calls_recs fuel _ _ _ Hw) as Hrecs. cbn in Hrecs.
  assert (Hok : Forall (line_ok dfmt dparse src) (w_out w)).
  { apply Forall_forall. intros l Hl. rewrite Forall_forall in Hc. destruct l as [n|g refs imms].
    - destruct (Hnodes n Hl) as [[]|(c & Hin & H11 & Hn)]. split; auto. apply (proj1 (Hc c Hin)). auto.
    - assert (Hin : In (g, refs, imms) (recs_of (w_out w))) by (apply in_flat_map; exists (WRec g refs imms); cbn; auto).
      rewrite Hrecs in Hin. apply in_map_iff in Hin. destruct Hin as (c & Ec & Hin). unfold call_rec in Ec. injection Ec as <- <- <-. destruct (Hc c Hin) as (A & B & C & D & E & F).
      split; [|split; [|split]].
      + intros i Hi. apply refs_in in Hi. destruct (E i Hi) as (n & Hn & H8). exists n. auto.
      + intros a v Hi. apply imms_in in Hi. destruct (F a v Hi) as (T & n & Hn & H8). split; auto. exists n. auto.
      + destruct (c_rec c) as [|[i|a v] r]; [congruence|left; discriminate|right; discriminate].
      + exact D. }
  destruct (read_closed dfmt dparse src (fl_rank f) d (w_out w) Hs Hr Ht Hd Hcl Hok Hlen) as (s & E & X & Hd' & _ & He & Hl & Hf).
  exists s. unfold read_stream. rewrite (split_render dfmt dparse src (fl_rank f)) by auto. split; auto. split; auto. split; auto. split; auto. split; auto.
  replace (ctx_calls (fl_calls f)) with (ctx_recs (w_out w)); auto. rewrite ctx_recs_recs, Hrecs. clear. induction (fl_calls f) as [|c cs IH]; [reflexivity|].
  cbn [map flat_map ctx_calls]. unfold call_rec at 1. destruct (c_glob c); cbn; [exact IH|f_equal; exact IH].
Qed.
Lemma files_ok dfmt dparse fs : Forall (file_ok dfmt dparse) fs -> forall d, db_ok d ->
  N.of_nat (length (d_nodes d) + list_sum (map (fun f => length (w_out (fl_writer f))) fs)) < INV_ID ->
  exists d' recs, read_files dparse d (map (fun f => render_stream dfmt (w_out (fl_writer f))) fs) = Some (d', recs, false) /\ db_ok d' /\ dext d d' /\ (length (d_nodes d') <= length (d_nodes d) + list_sum (map (fun f => length (w_out (fl_writer f))) fs))%nat /\
    Forall2 (fun f rs => Forall2 (Forall2 (same_entry (fl_src f) (dnode d'))) (ctx_calls (fl_calls f)) rs) fs recs.
Proof.
  induction 1 as [|f fs Hf Hfs IH]; intros d Hd Hlen.
  - exists d, []. cbn. split; auto. split; auto. split; [apply dext_refl|]. split; [lia|constructor].
  - cbn [map list_sum fold_right] in Hlen. destruct (stream_ok dfmt dparse f d Hf Hd) as (s & E & X & Hd1 & He & Hl & Hr); [lia|].
    destruct (IH (r_db s) Hd1) as (d' & recs & E2 & Hd2 & X2 & L2 & R2); [unfold list_sum in *; lia|]. cbn [map read_files]. rewrite E, E2, He. exists d', (r_recs s :: recs). split; auto. split; auto. split; [eapply dext_trans; eauto|]. split; [cbn [list_sum fold_right] in *; unfold list_sum in *; lia|].
    constructor; auto. eapply Forall2_imp; [|exact Hr]. intros a b. apply Forall2_imp. intros e oe. apply same_ext. intros i n Hn. eapply dext_node; eauto.
Qed.
(* Any number of files, each written by any sequence of calls, read into a new database: no error,
   no crash, and every record of every file is there with the same contents. *)
Theorem C28_files_roundtrip dfmt dparse fs : Forall (file_ok dfmt dparse) fs -> 15 + N.of_nat (list_sum (map (fun f => length (w_out (fl_writer f))) fs)) < INV_ID ->
  exists d recs, read_files dparse db_init (map (fun f => render_stream dfmt (w_out (fl_writer f))) fs) = Some (d, recs, false) /\
    Forall2 (fun f rs => Forall2 (Forall2 (same_entry (fl_src f) (dnode d))) (ctx_calls (fl_calls f)) rs) fs recs.
Proof.
  intros Hf Hlen. destruct (files_ok dfmt dparse fs Hf db_init db_init_ok) as (d & recs & E & _ & _ & _ & H); [|exists d, recs; auto].
  assert (L : length (d_nodes db_init) = 15%nat) by (vm_compute; reflexivity). rewrite L. lia.
Qed.
(* the same in terms of paths: attribute names and values from a node up to the root *)
Definition same_path (src lk : N -> option tnode) (e : entry) (oe : option entry) : Prop :=
  match e, oe with
  | ERef i, Some (ERef j) => exists l, path src i l /\ path lk j l
  | EImm a v, Some (EImm b w) => v = w /\ exists na nb name, src a = Some na /\ n_val na = VStr name /\ lk b = Some nb /\ n_val nb = VStr name
  | _, _ => False
  end.
Lemma vstr_of v : val_type v = T_STRING -> exists s, v = VStr s.
Proof. destruct v; cbn; intro H; try discriminate H; eauto. Qed.
(* the value of an attribute node is its name *)
Lemma attr_named dfmt dparse src rank a na : src_ok src rank -> src_typed dfmt dparse src -> src a = Some na -> n_attr na = 8 -> exists name, n_val na = VStr name.
Proof.
  intros Hs Ht Ha H8. destruct (N.lt_ge_cases a 12) as [Hlt|Hge].
  - rewrite (so_boot _ _ Hs a Hlt) in Ha. unfold boot_node in Ha. revert Ha. assert (Hk : (N.to_nat a < 12)%nat) by lia. generalize (N.to_nat a) Hk. intros k Hk'.
    do 12 (destruct k as [|k]; [cbn; intro Ha; injection Ha as <-; try discriminate H8; cbn; eauto|]). lia.
  - destruct (Ht a na Ha Hge) as ((_ & fuel & Hc) & _). rewrite H8 in Hc. apply vstr_of.
    assert (E : climb 2 src 8 9 = Some (VType T_STRING)).
    { cbn [climb]. rewrite (so_boot _ _ Hs 8) by lia. change (boot_node 8) with (Some (mkn 8 8 (VStr lit_attr_name) (Some 3))). cbn [n_attr n_par]. change (8 =? 9) with false. cbv iota. rewrite (so_boot _ _ Hs 3) by lia. reflexivity. }
    destruct (Nat.le_ge_cases fuel 2) as [L|L]; [pose proof (climb_mono _ _ _ _ _ Hc 2%nat L) as Q|pose proof (climb_mono _ _ _ _ _ E fuel L) as Q]; congruence.
Qed.
Lemma path_exists dfmt dparse src rank : src_ok src rank -> src_typed dfmt dparse src -> forall i M, mean src i M -> (i = INV_ID \/ exists n, src i = Some n) -> exists l, path src i l.
Proof.
  intros Hs Ht. assert (B : forall i, i < 12 -> exists l, path src i l).
  { assert (B1 : forall i, i < 12 -> i <> 8 -> i <> 9 -> i <> 10 -> exists l, path src i l).
    { intros i Hi N8 N9 N10. assert (Hb : exists v, boot_node i = Some (mkn i 9 v (Some ROOT))).
      { unfold boot_node. assert (Hk : (N.to_nat i < 12)%nat) by lia. rewrite <- (N2Nat.id i) in N8, N9, N10 |- *. rewrite Nat2N.id. revert Hk N8 N9 N10. generalize (N.to_nat i). intros k Hk N8 N9 N10.
        do 12 (destruct k as [|k]; [cbn; solve [eauto|exfalso; lia]|]). lia. }
      destruct Hb as (v & Hb). eexists. eapply path_node; [rewrite (so_boot _ _ Hs) by auto; exact Hb|cbn [n_attr]; rewrite (so_boot _ _ Hs) by lia; reflexivity|reflexivity|constructor]. }
    intros i Hi. destruct (N.eq_dec i 8) as [->|N8]; [|destruct (N.eq_dec i 9) as [->|N9]; [|destruct (N.eq_dec i 10) as [->|N10]; [|auto]]].
    - destruct (B1 3) as (l & Hl); try lia. eexists. eapply path_node; [rewrite (so_boot _ _ Hs) by lia; reflexivity|cbn [n_attr]; rewrite (so_boot _ _ Hs) by lia; reflexivity|reflexivity|exact Hl].
    - destruct (B1 7) as (l & Hl); try lia. eexists. eapply path_node; [rewrite (so_boot _ _ Hs) by lia; reflexivity|cbn [n_attr]; rewrite (so_boot _ _ Hs) by lia; reflexivity|reflexivity|exact Hl].
    - destruct (B1 1) as (l & Hl); try lia. eexists. eapply path_node; [rewrite (so_boot _ _ Hs) by lia; reflexivity|cbn [n_attr]; rewrite (so_boot _ _ Hs) by lia; reflexivity|reflexivity|exact Hl]. }
  induction 1 as [|i Hi|i n ma mp Hi Hn Hl Hma IHa Hmp IHp]; intros Hex.
  - exists []. constructor.
  - auto.
  - destruct (so_attr _ _ Hs i n Hl Hi) as (na & Hna & H8). destruct (attr_named dfmt dparse src rank _ na Hs Ht Hna H8) as (name & Hname).
    destruct IHp as (l & Hp); [apply (so_par _ _ Hs i n Hl Hi)|]. eexists. eapply path_node; eauto.
Qed.
Lemma same_entry_path dfmt dparse src rank d e oe : src_ok src rank -> src_typed dfmt dparse src -> db_ok d -> N.of_nat (length (d_nodes d)) <= INV_ID ->
  match e with ERef i => exists n, src i = Some n | EImm a v => exists na, src a = Some na /\ n_attr na = 8 end ->
  same_entry src (dnode d) e oe -> same_path src (dnode d) e oe.
Proof.
  intros Hs Ht Hd Hl He H. destruct e as [i|a v], oe as [[j|b w]|]; cbn in *; auto.
  - destruct H as (M & H1 & H2). destruct (path_exists dfmt dparse src rank Hs Ht i M H1) as (l & Hp); [right; auto|]. exists l. split; auto.
    eapply (path_mean src (dnode d)); eauto; [apply (src_lk _ _ Hs)|apply db_lk; auto].
  - destruct H as (-> & M & H1 & H2). split; auto. destruct He as (na & Hna & H8). destruct (attr_named dfmt dparse src rank a na Hs Ht Hna H8) as (name & Hname).
    assert (HM : M <> MRoot) by (intro E; subst M; apply mean_root_inv in H1; subst a; rewrite (so_inv _ _ Hs) in Hna; discriminate).
    destruct (mean_exists_node (dnode d) (db_lk d Hd Hl) b M H2 HM) as (nb & Hnb). exists na, nb, name. split; auto. split; auto. split; auto.
    rewrite <- Hname. symmetry. exact (mean_val src (dnode d) (src_lk _ _ Hs) (db_lk d Hd Hl) a b M na nb H1 H2 Hna Hnb).
Qed.
Theorem C28_files_same_paths dfmt dparse fs : Forall (file_ok dfmt dparse) fs -> 15 + N.of_nat (list_sum (map (fun f => length (w_out (fl_writer f))) fs)) < INV_ID ->
  exists d recs, read_files dparse db_init (map (fun f => render_stream dfmt (w_out (fl_writer f))) fs) = Some (d, recs, false) /\
    Forall2 (fun f rs => Forall2 (Forall2 (same_path (fl_src f) (dnode d))) (ctx_calls (fl_calls f)) rs) fs recs.
Proof.
  intros Hf Hlen. destruct (files_ok dfmt dparse fs Hf db_init db_init_ok) as (d & recs & E & Hd & X & HL & H).
  { assert (L : length (d_nodes db_init) = 15%nat) by (vm_compute; reflexivity). rewrite L. lia. }
  assert (L : length (d_nodes db_init) = 15%nat) by (vm_compute; reflexivity). rewrite L in HL.
  exists d, recs. split; auto. clear E X L. assert (Hd64 : N.of_nat (length (d_nodes d)) <= INV_ID) by lia. clear HL Hlen. revert recs H. induction Hf as [|f fs F Hf IH]; intros recs H; inversion H as [|? rs ? recs' H1 H2]; subst; constructor; auto.
  destruct F as (Hs & Hr & Ht & Hc & _). clear -Hs Ht Hd Hd64 Hc H1. revert rs H1. induction Hc as [|c cs Hc Hcs IH]; intros rs H1; cbn [ctx_calls flat_map] in *; [inversion H1; constructor|].
  fold (ctx_calls cs) in *. destruct (c_glob c); [cbn [app] in *; auto|]. cbn [app] in *. inversion H1 as [|? r ? rs' R1 R2]; subst. constructor; auto.
  destruct Hc as (Hp & _ & _ & _ & C1 & C2). clear - Hs Ht Hd Hd64 Hp C1 C2 R1.
  assert (G : forall e, In e (ref_first (c_rec c)) -> match e with ERef i => exists n, fl_src f i = Some n | EImm a v => exists na, fl_src f a = Some na /\ n_attr na = 8 end).
  { intros e He. unfold ref_first in He. apply in_app_iff in He. destruct He as [He|He]; apply in_map_iff in He.
    - destruct He as (i & <- & Hi). apply refs_in in Hi. destruct (C1 i Hi) as (n & Hn & _). eauto.
    - destruct He as ((a, v) & <- & Hi). apply imms_in in Hi. destruct (C2 a v Hi) as (_ & n & Hn & H8). cbn. exists n. auto. }
  revert R1 G. generalize (ref_first (c_rec c)) as es. intros es R1. induction R1 as [|e oe es r Hx Hxs IH]; intro G; constructor.
  - eapply same_entry_path; eauto. apply G. left; auto.
  - apply IH. intros e' He'. apply G. right; auto.
Qed.

(* What does not survive.  An empty record is an error line; a record whose only immediate value is
   the empty string loses it; *)
Theorem C28_empty_record_refuted : parse_line (record_line false [] [] []) = PError.
Proof. reflexivity. Qed.
Theorem C28_single_empty_string_refuted : parse_line (record_line false [] [20] [esc []]) = PCtx (mkrf [] [20] []).
Proof. vm_compute. reflexivity. Qed.
(* a node with a pointer value (or any text that does not parse) crashes the reader: the line
   below is what the writer produces for it *)
Definition ex_ptr_attr : mdb := snd (create_attribute db_init [112] T_PTR 0).
Theorem C28_pointer_node_refuted dparse : exists s,
  read_lines dparse (mkrs ex_ptr_attr [] [] false) [node_line 20 16 (esc (hex 255)) None] = s /\ s = None.
Proof. eexists. split; [vm_compute; reflexivity|reflexivity]. Qed.
(* values of hidden attributes are replaced by an empty value *)
Definition ex_hidden_attr : mdb := snd (create_attribute db_init [104] T_STRING 128).
Theorem C28_hidden_value_refuted dparse : exists s n, read_lines dparse (mkrs ex_hidden_attr [] [] false) [node_line 20 16 (esc [97]) None] = Some s /\
  dnode (r_db s) 17 = Some n /\ map_id (r_map s) 20 = 17 /\ n_attr n = 16 /\ n_val n = VUsr [].
Proof. eexists. eexists. split; [vm_compute; reflexivity|]. cbn [r_db r_map]. split; [vm_compute; reflexivity|]. repeat split. Qed.

(* ---- a case ---- *)
(* any well-formed database can be written: it satisfies the hypotheses on sources *)
Lemma db_src_ok d : db_ok d -> N.of_nat (length (d_nodes d)) < INV_ID -> src_ok (dnode d) N.to_nat.
Proof.
  intros Hd Hl. pose proof (db_len12 d Hd) as L12. constructor.
  - intros i Hi. apply (ok_boot d Hd i Hi).
  - intros i n Hn Hi. split; [apply (ok_id d Hd); auto|]. destruct (N.eq_dec i 11) as [->|Hne].
    + rewrite (ok_boot d Hd 11) in Hn by lia. injection Hn as <-. cbn. split; [left; lia|]. intros p Hp. injection Hp as <-. left. reflexivity.
    + destruct (ok_node d Hd i n Hn) as (A & B & C & _); [lia|]. pose proof (dnode_lt _ _ _ Hn). split.
      * destruct (N.lt_ge_cases (n_attr n) 11); [left; auto|right]. split; [apply dnode_some; lia|lia].
      * intros p Hp. unfold par_id in C. rewrite Hp in C. destruct C as [C|C]; [left; auto|right]. destruct (N.lt_ge_cases p 11); [left; auto|right]. split; [apply dnode_some; lia|lia].
  - apply (db_lk d Hd). lia.
  - intros i n Hn Hi. destruct (ok_node d Hd i n Hn Hi) as (A & B & _). unfold is_attr in B. destruct (dnode d (n_attr n)) as [na|] eqn:E; [|discriminate]. exists na. split; auto. apply N.eqb_eq; auto.
  - intros i n Hn Hi. destruct (ok_node d Hd i n Hn Hi) as (_ & _ & C & _). destruct C as [C|C]; [left; auto|right]. apply dnode_some. apply dnode_lt in Hn. lia.
  - intros i n Hn. destruct (N.lt_ge_cases i 12) as [Hlt|Hge].
    + rewrite (ok_boot d Hd i Hlt) in Hn. unfold boot_node in Hn. revert Hn. assert (Hk : (N.to_nat i < 12)%nat) by lia. generalize (N.to_nat i) Hk. intros k Hk'.
      do 12 (destruct k as [|k]; [cbn; intro Hn; injection Hn as <-; discriminate|]). lia.
    + apply (ok_node d Hd i n Hn Hge).
  - intros i n j m Hn Hi Hj Hm E. assert (Hm' : dnode d j = Some m) by (rewrite (ok_boot d Hd j Hj); exact Hm). pose proof (ok_uniq d Hd i j n m Hn Hm' E). lia.
Qed.
Definition s_region : bytes := [114;101;103;105;111;110].
Definition s_count : bytes := [99;111;117;110;116].
Definition ex_db : mdb :=
  let d1 := snd (create_attribute db_init s_region T_STRING 20) in
  let d2 := snd (create_attribute d1 s_count T_INT 1) in
  snd (make_tree_entry d2 [(16, VStr [109;97;105;110]); (16, VStr [97;44;98;61;99;10])] ROOT).
Lemma ex_db_ok : db_ok ex_db.
Proof.
  unfold ex_db. set (d1 := snd (create_attribute db_init s_region T_STRING 20)). assert (H1 : db_ok d1) by apply (create_attribute_ok db_init _ _ _ db_init_ok).
  set (d2 := snd (create_attribute d1 s_count T_INT 1)). assert (H2 : db_ok d2) by apply (create_attribute_ok d1 _ _ _ H1).
  apply make_tree_entry_ok; auto. repeat constructor; cbn [fst snd]; try discriminate; vm_compute; reflexivity.
Qed.
Definition no_fmt : N -> bytes := fun _ => [].
Definition no_parse : bytes -> option N := fun _ => None.
Lemma ex_nodes : forall i n, dnode ex_db i = Some n -> 12 <= i -> typed no_fmt no_parse (dnode ex_db) (n_attr n) (n_val n) /\ visible (dnode ex_db) (n_attr n).
Proof.
  assert (V : forall a, (a = 8 \/ a = 10 \/ a = 16) -> visible (dnode ex_db) a).
  { intros a Ha fuel z H. assert (E : exists z', climb 3 (dnode ex_db) a 10 = Some (VInt z') /\ Z.land z' HIDDEN = 0%Z \/ (forall f, climb f (dnode ex_db) a 10 = None)).
    { destruct Ha as [->|[->| ->]].
      - exists 0%Z. right. intro f. destruct f as [|[|[|f]]]; vm_compute; reflexivity.
      - exists 0%Z. right. intro f. destruct f as [|[|[|f]]]; vm_compute; reflexivity.
      - exists 20%Z. left. split; vm_compute; reflexivity. }
    destruct E as (z' & [(E & Hz)|E]); [|congruence]. destruct (Nat.le_ge_cases fuel 3) as [L|L]; [pose proof (climb_mono _ _ _ _ _ H 3%nat L) as Q|pose proof (climb_mono _ _ _ _ _ E fuel L) as Q]; congruence. }
  intros i n Hn Hi. pose proof (dnode_lt _ _ _ Hn) as Hl. assert (L : length (d_nodes ex_db) = 21%nat) by (vm_compute; reflexivity). rewrite L in Hl.
  rewrite dnode_nth in Hn. assert (Hk : (12 <= N.to_nat i < 21)%nat) by lia. revert Hn Hk. generalize (N.to_nat i). intros k Hn Hk.
  do 12 (destruct k as [|k]; [lia|]). vm_compute in Hn.
  do 9 (destruct k as [|k]; [injection Hn as <-; cbn [n_attr n_val]; split; [split; [cbn; try reflexivity; unfold s64_ok; lia|exists 5%nat; vm_compute; reflexivity]|apply V; auto]|]). lia.
Qed.
Definition ex_rec : list entry := [ERef 20; EImm 18 (VInt (-7))].
Definition ex_rec2 : list entry := [EImm 18 (VInt 42); ERef 19].
Definition ex_calls : list call := [mkcall (dnode ex_db) false ex_rec; mkcall (dnode ex_db) false ex_rec2].
Definition ex_file : file := mkfile (dnode ex_db) N.to_nat ex_calls (match write_calls 30 ex_calls w_init with Some w => w | None => w_init end).
Lemma ex_file_ok : file_ok no_fmt no_parse ex_file.
Proof.
  assert (L : length (d_nodes ex_db) = 21%nat) by (vm_compute; reflexivity).
  assert (Hs : src_ok (dnode ex_db) N.to_nat) by (apply db_src_ok; [apply ex_db_ok|rewrite L; vm_compute; reflexivity]).
  assert (T : forall z, s64_ok z -> typed no_fmt no_parse (dnode ex_db) 18 (VInt z)) by (intros z Hz; split; [exact Hz|exists 5%nat; vm_compute; reflexivity]).
  split; [exact Hs|]. split. { intros i n Hn. cbn in Hn. apply dnode_lt in Hn. rewrite L in Hn. eapply N.lt_trans; [exact Hn|]. reflexivity. }
  split; [exact ex_nodes|]. split; [|exists 30%nat; vm_compute; reflexivity].
  cbn [fl_calls fl_src ex_file ex_calls].
  assert (G : forall z r, s64_ok z -> (r = 19 \/ r = 20) -> forall rec, (rec = [ERef r; EImm 18 (VInt z)] \/ rec = [EImm 18 (VInt z); ERef r]) -> call_ok no_fmt no_parse (dnode ex_db) (mkcall (dnode ex_db) false rec)).
  { intros z r Hz Hr rec Hrec. unfold call_ok; cbn [c_db c_rec].
    split; [intros i n H; exact H|]. split; [exists N.to_nat; apply Hs|]. split; [destruct Hrec; subst rec; discriminate|]. split; [destruct Hrec; subst rec; intro a; cbn; discriminate|]. split.
    - intros i Hi. assert (i = r) by (destruct Hrec; subst rec; cbn in Hi; intuition congruence). subst i. destruct Hr; subst r; eexists; (split; [vm_compute; reflexivity|discriminate]).
    - intros a v Hi. assert (a = 18 /\ v = VInt z) as (-> & ->) by (destruct Hrec; subst rec; cbn in Hi; intuition congruence). split; [apply T; auto|]. eexists. split; [vm_compute; reflexivity|reflexivity]. }
  constructor; [apply (G (-7)%Z 20); auto; unfold s64_ok; lia|]. constructor; [apply (G 42%Z 19); auto; unfold s64_ok; lia|constructor].
Qed.
(* two copies of the file: the output is not empty, the theorem applies *)
Example C28_case : length (w_out (fl_writer ex_file)) = 8%nat /\
  exists d recs, read_files no_parse db_init (map (fun f => render_stream no_fmt (w_out (fl_writer f))) [ex_file; ex_file]) = Some (d, recs, false) /\
    Forall2 (fun f rs => Forall2 (Forall2 (same_path (fl_src f) (dnode d))) (ctx_calls (fl_calls f)) rs) [ex_file; ex_file] recs.
Proof.
  split; [vm_compute; reflexivity|]. apply C28_files_same_paths; [constructor; [apply ex_file_ok|constructor; [apply ex_file_ok|constructor]]|]. vm_compute. reflexivity.
Qed.
Example C27_case : write_calls 30 ex_calls w_init = Some (fl_writer ex_file) /\ self_contained (w_out (fl_writer ex_file)) /\ Forall (fun c => tree_src (c_db c) /\ known_entries (c_db c) (c_rec c)) ex_calls.
Proof.
  assert (H : Forall (fun c => tree_src (c_db c) /\ known_entries (c_db c) (c_rec c)) ex_calls).
  { destruct ex_file_ok as (Hs & _). repeat constructor; try (exists N.to_nat; apply Hs); intros e [<-|[<-|[]]]; vm_compute; discriminate. }
  assert (E : write_calls 30 ex_calls w_init = Some (fl_writer ex_file)) by (vm_compute; reflexivity).
  split; [exact E|]. split; [eapply C27_self_contained; eauto|exact H].
Qed.

(* ================= C29: merging metadata ================= *)
(* Any number of streams with arbitrary ids (srcs), interleaved in any order with other uses of the
   database; hist_ok: each stream defines a node after the nodes it refers to (C27, C72; it
   may define a node again, as files written by several threads do), database users pass valid attribute and parent handles. *)
Definition d_start : dstate := (db_init, fun _ => []).
Theorem C29_merge_preserves_meaning srcs ranks ops : (forall s, src_ok (srcs s) (ranks s)) -> hist_ok srcs d_start [] ops -> 15 + N.of_nat (total_cost ops) < INV_ID ->
  exists d maps, drun d_start ops = Some (d, maps) /\
    (* the node an id is mapped to stands for the same thing *)
    (forall s id, In id (defined s ops) -> exists M, mean (srcs s) id M /\ mean (dnode d) (map_id (maps s) id) M) /\
    (forall s id l, In id (defined s ops) -> path (srcs s) id l -> path (dnode d) (map_id (maps s) id) l) /\
    (* two ids are mapped to one node exactly if they stand for the same thing *)
    (forall s t i j, In i (defined s ops) -> In j (defined t ops) -> (map_id (maps s) i = map_id (maps t) j <-> exists M, mean (srcs s) i M /\ mean (srcs t) j M)).
Proof.
  intros Hs Hok Hlen. assert (L : length (d_nodes db_init) = 15%nat) by (vm_compute; reflexivity).
  destruct (drun_ok srcs ranks ops Hs d_start [] (hinv_init srcs) Hok) as ((d, maps) & E & (Hd & Hi) & X & HL & _).
  { cbn [d_start fst]. rewrite L. lia. }
  cbn [fst snd app] in *. assert (Hl : N.of_nat (length (d_nodes d)) <= INV_ID) by (cbn [d_start fst] in HL; rewrite L in HL; lia).
  exists d, maps. split; auto. split; [|split].
  - intros s id Hid. apply (si_mean _ _ _ _ (Hi s) id Hid).
  - intros s id l Hid Hp. destruct (si_mean _ _ _ _ (Hi s) id Hid) as (M & H1 & H2). eapply (path_mean (srcs s) (dnode d)); eauto; [apply (src_lk _ _ (Hs s))|apply db_lk; auto].
  - intros s t i j Hi' Hj'. destruct (si_mean _ _ _ _ (Hi s) i Hi') as (M & H1 & H2). destruct (si_mean _ _ _ _ (Hi t) j Hj') as (M' & H1' & H2'). split.
    + intro Heq. rewrite Heq in H2. rewrite (mean_fun _ _ _ H2 _ H2') in H1. eauto.
    + intros (M0 & A & B). rewrite (mean_fun _ _ _ H1 _ A) in H2. rewrite (mean_fun _ _ _ H1' _ B) in H2'. eapply mean_inj; eauto.
Qed.
(* later operations never change what was there: nodes keep their ids and contents, mappings stay *)
Theorem C29_mappings_are_stable srcs ranks ops1 ops2 : (forall s, src_ok (srcs s) (ranks s)) -> hist_ok srcs d_start [] (ops1 ++ ops2) -> 15 + N.of_nat (total_cost (ops1 ++ ops2)) < INV_ID ->
  exists d1 m1 d2 m2, drun d_start ops1 = Some (d1, m1) /\ drun d_start (ops1 ++ ops2) = Some (d2, m2) /\
    (forall s id, In id (defined s ops1) -> map_id (m2 s) id = map_id (m1 s) id) /\ (forall i n, dnode d1 i = Some n -> dnode d2 i = Some n).
Proof.
  intros Hs Hok Hlen. assert (L : length (d_nodes db_init) = 15%nat) by (vm_compute; reflexivity).
  assert (TC : total_cost (ops1 ++ ops2) = (total_cost ops1 + total_cost ops2)%nat).
  { clear. induction ops1 as [|o r IH]; cbn [app total_cost fold_right]; auto. fold (total_cost (r ++ ops2)) (total_cost r). lia. }
  assert (S : forall st b, hist_ok srcs st b (ops1 ++ ops2) -> hist_ok srcs st b ops1 /\ (forall st1, drun st ops1 = Some st1 -> hist_ok srcs st1 (b ++ ops1) ops2) /\ (forall st1, drun st ops1 = Some st1 -> drun st (ops1 ++ ops2) = drun st1 ops2)).
  { clear. induction ops1 as [|o r IH]; intros st b H; cbn [app drun] in *.
    - split; [constructor|]. rewrite app_nil_r. split; intros st1 E; injection E as <-; auto.
    - inversion H as [|? ? ? ? Ho Hr]; subst. split.
      + constructor; auto. intros st1 E. apply (IH st1). auto.
      + split; intros st1 E; destruct (dstep st o) as [st0|] eqn:E0; try discriminate; destruct (IH st0 (b ++ [o]) (Hr st0 eq_refl)) as (_ & A & B); auto. rewrite <- app_assoc in A. apply A; auto. }
  destruct (S d_start [] Hok) as (Hok1 & Hok2 & Hrun). clear S.
  destruct (drun_ok srcs ranks ops1 Hs d_start [] (hinv_init srcs) Hok1) as ((d1, m1) & E1 & Hh1 & X1 & L1 & _); [cbn [d_start fst]; rewrite L; lia|]. cbn [app] in *.
  destruct (drun_ok srcs ranks ops2 Hs (d1, m1) ops1 Hh1 (Hok2 _ E1)) as ((d2, m2) & E2 & Hh2 & X2 & L2 & M2); [cbn [d_start fst] in *; rewrite L in L1; lia|].
  exists d1, m1, d2, m2. split; auto. split; [rewrite (Hrun _ E1); auto|]. split; [exact M2|]. intros i n Hn. cbn [fst] in X2. eapply dext_node; eauto.
Qed.
(* importing nodes from another database (e.g. the running program's tree): same thing *)
Theorem C29_import_preserves_meaning src rank dom d0 id n : src_ok src rank -> (forall i n, src i = Some n -> In i dom) -> db_ok d0 -> N.of_nat (length (d_nodes d0) + length dom) < INV_ID -> src id = Some n ->
  exists i d, (forall fuel, (S (rank id) < fuel)%nat -> import_node fuel src d0 id = Some (Some i, d)) /\ (exists M, mean src id M /\ mean (dnode d) i M) /\ (forall l, path src id l -> path (dnode d) i l) /\
    db_ok d /\ (forall j m, dnode d0 j = Some m -> dnode d j = Some m).
Proof.
  intros Hs Hdom Hd0 Hlen Hn.
  assert (I0 : imported src dom d0 d0) by (split; auto; split; [apply dext_refl|intros k Hk; lia]).
  assert (mono : forall f id d r, import_node f src d id = Some r -> import_node (S f) src d id = Some r).
  { clear. induction f as [|f IH]; intros id d r H; [discriminate|]. remember (S f) as g eqn:Eg. cbn [import_node]. rewrite Eg in H. cbn [import_node] in H.
    destruct (id =? INV_ID); auto. destruct (src id) as [n|]; auto. destruct (id <? 12); auto.
    destruct (import_node f src d (n_attr n)) as [([a|], d1)|] eqn:E1; try discriminate. rewrite (IH _ _ _ E1).
    destruct (import_node f src d1 _) as [(p, d2)|] eqn:E2; try discriminate. rewrite (IH _ _ _ E2). auto. }
  destruct (import_ok src rank dom d0 Hs Hdom Hlen (S (S (rank id))) id n d0) as (i & d & M & E & I & X & A & B & C); auto.
  exists i, d. split. { intros fuel Hf. assert (Hf' : (S (S (rank id)) <= fuel)%nat) by lia. clear Hf. induction Hf'; auto. }
  pose proof (imported_len _ _ _ _ I) as HL. destruct I as (Hd & He & _).
  split; [eauto|]. split; [|split; auto; intros j m; eapply dext_node; eauto].
  intros l Hl. eapply (path_mean src (dnode d)); eauto; [apply (src_lk _ _ Hs)|apply db_lk; auto; lia].
Qed.
(* two streams that use the same ids for different nodes *)
Definition ex_db2 : mdb :=
  let d1 := snd (create_attribute db_init s_count T_INT 1) in
  let d2 := snd (create_attribute d1 s_region T_STRING 20) in
  snd (make_tree_entry d2 [(18, VStr [109;97;105;110])] ROOT).
Lemma ex_db2_ok : db_ok ex_db2.
Proof.
  unfold ex_db2. set (d1 := snd (create_attribute db_init s_count T_INT 1)). assert (H1 : db_ok d1) by apply (create_attribute_ok db_init _ _ _ db_init_ok).
  set (d2 := snd (create_attribute d1 s_region T_STRING 20)). assert (H2 : db_ok d2) by apply (create_attribute_ok d1 _ _ _ H1).
  apply make_tree_entry_ok; auto. constructor; [|constructor]. cbn [fst snd]. split; [vm_compute; reflexivity|discriminate].
Qed.
Definition ex_srcs (s : N) : N -> option tnode := if s =? 0 then dnode ex_db else dnode ex_db2.
Definition ex_op (s id : N) : dop := match ex_srcs s id with Some n => OpNode s n | None => OpAttr [] 0 0 end.
Definition ex_ops : list dop := [ex_op 0 15; ex_op 0 16; ex_op 1 15; ex_op 0 19; ex_op 1 16; OpAttr [120] T_UINT 0; ex_op 1 17; ex_op 0 16; ex_op 1 18; ex_op 1 19; ex_op 0 20].
Lemma ex_hist : hist_ok ex_srcs d_start [] ex_ops.
Proof.
  unfold ex_ops. generalize d_start. intro st.
  assert (G : forall st b s id n r, ex_srcs s id = Some n -> n_id n = id -> 11 <= id -> mem (n_attr n) (defined s b) || (n_attr n <? 12) = true -> mem (par_id n) (defined s b) || (par_id n <? 12) || (par_id n =? INV_ID) = true ->
    (forall st1, hist_ok ex_srcs st1 (b ++ [OpNode s n]) r) -> hist_ok ex_srcs st b (OpNode s n :: r)).
  { clear st. intros st b s id n r H1 H2 H3 H4 H5 H7. apply hist_cons; [|intros st1 _; apply H7]. subst id. cbn [op_ok]. split; auto. split; auto.
    split. { apply orb_true_iff in H4. destruct H4 as [H4|H4]; [right; apply mem_in; auto|left; lia]. }
    apply orb_true_iff in H5. destruct H5 as [H5|H5]; [|left; lia]. right. apply orb_true_iff in H5. destruct H5 as [H5|H5]; [right; apply mem_in; auto|left; lia]. }
  Ltac node_step G s id := match goal with |- hist_ok _ _ _ (ex_op s id :: _) => let n := eval vm_compute in (ex_srcs s id) in match n with Some ?n =>
    change (ex_op s id) with (OpNode s n); apply (G _ _ s id n); [vm_compute; reflexivity|reflexivity|vm_compute; discriminate|vm_compute; reflexivity|vm_compute; reflexivity|intros; cbn [app]] end end.
  node_step G 0 15. node_step G 0 16. node_step G 1 15. node_step G 0 19. node_step G 1 16. apply hist_cons; [exact Logic.I|intros; cbn [app]]. node_step G 1 17. eapply (G _ _ 0 16); [vm_compute; reflexivity|reflexivity|vm_compute; discriminate|vm_compute; reflexivity|vm_compute; reflexivity|intros; cbn [app]]. node_step G 1 18. node_step G 1 19. node_step G 0 20. constructor.
Qed.
Example C29_case : (forall s, src_ok (ex_srcs s) N.to_nat) /\ hist_ok ex_srcs d_start [] ex_ops /\ 15 + N.of_nat (total_cost ex_ops) < INV_ID /\
  exists d m, drun d_start ex_ops = Some (d, m) /\ map_id (m 0) 19 = map_id (m 1) 19 /\ map_id (m 0) 16 <> map_id (m 1) 16 /\ map_id (m 0) 16 = map_id (m 1) 18.
Proof.
  split. { intro s. unfold ex_srcs. destruct (s =? 0); [apply (db_src_ok ex_db ex_db_ok); vm_compute; reflexivity|apply (db_src_ok ex_db2 ex_db2_ok); vm_compute; reflexivity]. }
  split; [apply ex_hist|]. split; [vm_compute; reflexivity|].
  destruct (drun d_start ex_ops) as [(d, m)|] eqn:E; [|vm_compute in E; discriminate]. exists d, m. split; auto.
  assert (F : match drun d_start ex_ops with Some (_, m) => map_id (m 0) 19 = map_id (m 1) 19 /\ map_id (m 0) 16 <> map_id (m 1) 16 /\ map_id (m 0) 16 = map_id (m 1) 18 | None => False end)
    by (vm_compute; split; [reflexivity|split; [discriminate|reflexivity]]).
  rewrite E in F. exact F.
Qed.
