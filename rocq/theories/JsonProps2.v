(* C55, continued: the object layout, values, examples *)
From Coq Require Import Strings.Ascii Strings.String Sorted.
From Verif Require Import Base VariantModel VariantSpec NamesModel NamesProps TextModel TextProofs TreeModel CaliFileModel AggModel FilterModel RConfigModel FmtModel TreeFmtProps2 JsonSpec JsonModel JsonOutSpec JsonProofs JsonProofs2 JsonProps.
Open Scope N_scope.

Section OUT.
Variable vtext : value -> bytes.
Variable d : mdb.
Variable q : jspec.
Lemma filter_map {A B} (f : A -> B) (p : B -> bool) l : filter p (map f l) = map f (filter (fun x => p (f x)) l).
Proof. induction l as [|x l IH]; [reflexivity|]. cbn [map filter]. destruct (p (f x)); cbn [map]; rewrite IH; reflexivity. Qed.
Lemma SS_filter {A} (R : A -> A -> Prop) p l : StronglySorted R l -> StronglySorted R (filter p l).
Proof. induction 1 as [|x l H IH Hf]; cbn [filter]; [constructor|]. destruct (p x); auto. constructor; auto. rewrite Forall_forall in *. intros y Hy. apply filter_In in Hy. apply Hf, Hy. Qed.
Lemma look_sel (f : bytes -> N) l k a : look (map (fun s => (s, f s)) l) k = Some a <-> In k l /\ a = f k.
Proof.
  induction l as [|s l IH]; cbn [map look In]; [split; [discriminate|tauto]|]. destruct (beqb s k) eqn:E.
  - apply beqb_eq in E. subst s. split; [intro H; injection H as <-; auto|intros (_ & ->); reflexivity].
  - rewrite IH. split; [tauto|]. intros ([->|H] & Hb); [rewrite beqb_refl in E; discriminate|auto].
Qed.
Lemma at_ok : attrs_of vtext d q (at_obj vtext d q).
Proof.
  set (L0 := kmap (if is_empty (js_sel q) then d_attrs d else map (fun s => (s, match get_attr d s with Some a => a | None => INV_ID end)) (js_sel q))).
  assert (Ha : attr_list d q = map snd (filter (fun x => negb (is_hidden d (snd x)) && (js_sep_nested q || negb (is_nested d (snd x)))) L0)).
  { unfold attr_list, L0. assert (E : forall l, filter (fun a => negb (is_hidden d a)) (if js_sep_nested q then map snd l else filter (fun a => negb (is_nested d a)) (map snd l)) = map snd (filter (fun x : bytes * N => negb (is_hidden d (snd x)) && (js_sep_nested q || negb (is_nested d (snd x)))) l)).
    { intro l. rewrite <- (filter_map snd (fun a => negb (is_hidden d a) && (js_sep_nested q || negb (is_nested d a)))). generalize (map snd l). intro l0. destruct (js_sep_nested q); cbn [orb].
      - apply filter_ext. intro a. rewrite andb_true_r. reflexivity.
      - induction l0 as [|a l0 IH]; [reflexivity|]. cbn [filter]. destruct (is_nested d a); cbn [negb]; [rewrite andb_false_r; exact IH|]. rewrite andb_true_r. cbn [filter]. destruct (negb (is_hidden d a)); rewrite IH; reflexivity. }
    destruct (is_empty (js_sel q)); apply E. }
  destruct (kmap_ok (if is_empty (js_sel q) then d_attrs d else map (fun s => (s, match get_attr d s with Some a => a | None => INV_ID end)) (js_sel q))) as (HS & HL). fold L0 in HS, HL.
  exists (filter (fun x => negb (is_hidden d (snd x)) && (js_sep_nested q || negb (is_nested d (snd x)))) L0). split; [apply SS_filter, HS|]. split.
  - intros n a. rewrite filter_In, (look_in _ _ _ HS), HL. cbn [snd]. rewrite andb_true_iff, orb_true_iff, !negb_true_iff.
    assert (E : look (if is_empty (js_sel q) then d_attrs d else map (fun s => (s, match get_attr d s with Some a0 => a0 | None => INV_ID end)) (js_sel q)) n = Some a <->
      (js_sel q = [] /\ alookup (d_attrs d) n = Some a \/ In n (js_sel q) /\ a = match get_attr d n with Some a0 => a0 | None => INV_ID end)).
    { rewrite alookup_look. destruct (js_sel q) as [|s l] eqn:Es; cbn [is_empty].
      - cbn [In]. tauto.
      - rewrite (look_sel (fun s => match get_attr d s with Some a0 => a0 | None => INV_ID end)). split; [tauto|]. intros [(H & _)|H]; [discriminate|exact H]. }
    rewrite E. destruct (is_nested d a), (js_sep_nested q); intuition congruence.
  - unfold at_obj. rewrite Ha, map_map. reflexivity.
Qed.

(* Object layout: one JSON object with the records, the globals and the attributes. *)
Theorem C55_object globals recs : js_layout q = JObject -> plain_ok vtext d q recs -> (forall a, In a (attr_list d q) -> plain_name (aname d a)) ->
  exists objs gl at', jread (json_output vtext d q globals recs) = Some (JObj [(bs "records", JArr (map JObj objs)); (bs "globals", JObj gl); (bs "attributes", JObj at')]) /\
    Forall2 (object_of vtext d q) (filter (has_member vtext d q) recs) objs /\ globals_of vtext d globals gl /\ attrs_of vtext d q at'.
Proof.
  intros Hl Hp Hn. destruct (objs_ok vtext d q recs Hp) as (objs & Ho & Hf). exists objs, (gl_obj vtext d globals), (at_obj vtext d q). split; [|split; [exact Hf|split; [apply gl_ok|apply at_ok]]].
  pose proof (arr_reads _ _ Ho) as R1. pose proof (gl_reads vtext d q globals) as R2. pose proof (at_reads vtext d q Hn) as R3.
  set (its := [mkmi [10] (bs "records") [32] (arr_text (map (rec_text q) (mems vtext d q recs))) (JArr (map JObj objs));
               mkmi [10] (bs "globals") [32] ([123; 10] ++ write_globals vtext d q globals ++ [10; 125]) (JObj (gl_obj vtext d globals));
               mkmi [10] (bs "attributes") [32] ([123] ++ write_attributes vtext d q ++ [10; 125]) (JObj (at_obj vtext d q))]).
  assert (Hi : Forall mi_ok its). { unfold its. constructor; [split; [reflexivity|split; [reflexivity|exact R1]]|]. constructor; [split; [reflexivity|split; [reflexivity|exact R2]]|]. constructor; [split; [reflexivity|split; [reflexivity|exact R3]]|constructor]. }
  pose proof (reads_obj its [10] eq_refl Hi) as R. pose proof (jread_ok _ [] _ [10] eq_refl eq_refl R) as J.
  change (map mi_val its) with [(bs "records", JArr (map JObj objs)); (bs "globals", JObj (gl_obj vtext d globals)); (bs "attributes", JObj (at_obj vtext d q))] in J. rewrite <- J. f_equal.
  unfold json_output, flush. destruct (print_all vtext d q recs) as (Hm & Hj). rewrite Hm, Hj, Hl.
  assert (E : (match mems vtext d q recs with [] => [] | l => begin_records q ++ seps [44; 10] (map (rec_text q) l) end) ++ (if (length (mems vtext d q recs) =? 0)%nat then begin_records q else []) ++ end_records q
    = [123] ++ ([10] ++ quoted (bs "records") ++ [58] ++ [32]) ++ arr_text (map (rec_text q) (mems vtext d q recs))).
  { unfold begin_records, end_records, arr_text. rewrite Hl. destruct (mems vtext d q recs); cbn [map length Nat.eqb]; [reflexivity|]. rewrite <- !app_assoc. reflexivity. }
  rewrite !app_assoc. rewrite <- (app_assoc (match mems vtext d q recs with [] => [] | l => begin_records q ++ seps [44; 10] (map (rec_text q) l) end)). rewrite E.
  unfold its. cbn [map seps]. unfold mi_text. cbn [mi_w mi_k mi_w2 mi_t]. change (bs ": {") with ([58; 32; 123] : bytes). generalize (write_globals vtext d q globals), (write_attributes vtext d q), (arr_text (map (rec_text q) (mems vtext d q recs))), (quoted (bs "records")), (quoted (bs "globals")), (quoted (bs "attributes")).
  clear. intros g a r k1 k2 k3. repeat (rewrite <- !app_assoc; cbn [app]). reflexivity.
Qed.
End OUT.

(* ---------------- values ---------------- *)
(* the integer a JSON number text without a fraction stands for *)
Definition jint (t : bytes) : Z := let (s, r) := jsign t in let n := fold_left (fun a c => (a * 10 + Z.of_N (c - 48))%Z) r 0%Z in match s with [] => n | _ => (- n)%Z end.
Lemma dec_json n : u64_ok n -> jnum (dec n) /\ forallb digit (dec n) = true /\ fold_left (fun a c => (a * 10 + Z.of_N (c - 48))%Z) (dec n) 0%Z = Z.of_N n.
Proof.
  intro H. assert (E : exists l, wr_digits 10 24 n [] = Some l).
  { apply (wr_digits_some 10 (or_introl eq_refl)); [discriminate|]. change (10 ^ N.of_nat 24) with 1000000000000000000000000. unfold u64_ok, W64 in H. lia. }
  destruct E as (l & E). assert (Ed : dec n = l) by (unfold dec, write_uint64; rewrite E; reflexivity). rewrite Ed. apply (wr_digits_spec 10 (or_introl eq_refl)) in E. destruct E as (ds & -> & A & B & C & D & F). rewrite app_nil_r.
  assert (Hd : forallb digit ds = true). { rewrite forallb_forall. rewrite Forall_forall in B. intros c Hc. apply B in Hc. apply dchar10 in Hc. unfold digit. lia. }
  split; [|split; [exact Hd|]].
  - destruct ds as [|c t]; [congruence|]. pose proof (jn_intro false c t None Hd) as J. cbn [app] in J. rewrite app_nil_r in J. apply J; [|discriminate].
    intros ->. destruct (N.eq_dec n 0) as [->|Hn]; [injection (F eq_refl) as ->; reflexivity|]. specialize (D Hn). cbn in D. congruence.
  - rewrite <- C. clear - B. assert (G : forall a, fold_left (fun a c => (a * 10 + Z.of_N (c - 48))%Z) ds (Z.of_N a) = Z.of_N (dfold 10 ds a)).
    { induction B as [|c ds Hc _ IH]; intro a; [reflexivity|]. change (dfold 10 (c :: ds) a) with (dfold 10 ds (a * 10 + dv 10 c)). cbn [fold_left]. apply dchar10 in Hc. destruct Hc as (H1 & H2). rewrite H2. rewrite <- IH. f_equal. lia. }
    exact (G 0).
Qed.
Lemma jnum_neg t : jnum t -> forallb digit t = true -> jnum (45 :: t).
Proof.
  intros H Hd. destruct H as [neg c t fr H1 H2 H3]. destruct neg; [discriminate Hd|]. exact (jn_intro true c t fr H1 H2 H3).
Qed.
Lemma jsign_digits t : forallb digit t = true -> jsign t = ([], t).
Proof. destruct t as [|c t]; [reflexivity|]. cbn [forallb]. intro H. apply andb_true_iff in H. destruct H as (H & _). unfold digit in H. unfold jsign. destruct c as [|p]; [reflexivity|]. do 6 (try (destruct p as [p|p|]; try reflexivity)). cbn in H. discriminate. Qed.
Lemma num_scalar t : jnum t -> scalar t /\ scalar_of t = JNum t.
Proof.
  intro H. pose proof (jnum_chars t H) as Hc. split; [right; right; exact H|]. unfold scalar_of.
  destruct (beqb t (bs "true")) eqn:E1; [apply beqb_eq in E1; subst; discriminate Hc|]. destruct (beqb t (bs "false")) eqn:E2; [apply beqb_eq in E2; subst; discriminate Hc|]. reflexivity.
Qed.
(* Integer values are JSON numbers that stand for the same integer. *)
Theorem C55_integers dtext v z : (v = VInt z /\ s64_ok z \/ exists n, v = VUint n /\ u64_ok n /\ z = Z.of_N n) ->
  let t := to_string dtext v in scalar t /\ scalar_of t = JNum t /\ jint t = z.
Proof.
  intros H t. assert (G : forall n, u64_ok n -> scalar (dec n) /\ scalar_of (dec n) = JNum (dec n) /\ jint (dec n) = Z.of_N n).
  { intros n Hn. destruct (dec_json n Hn) as (H1 & H2 & H3). destruct (num_scalar _ H1). split; [auto|]. split; [auto|]. unfold jint. rewrite jsign_digits by auto. exact H3. }
  destruct H as [(-> & Hz)|(n & -> & Hn & ->)]; [|apply G, Hn]. unfold t. cbn [to_string]. unfold s64_ok in Hz. destruct (Z.ltb_spec z 0).
  - assert (Hu : u64_ok (Z.to_N (- z))) by (unfold u64_ok, W64; lia). destruct (dec_json _ Hu) as (H1 & H2 & H3). pose proof (jnum_neg _ H1 H2) as Hj. destruct (num_scalar _ Hj). split; [auto|]. split; [auto|].
    unfold jint. change (jsign (c_minus :: dec (Z.to_N (- z)))) with ([45], dec (Z.to_N (- z))). cbv beta iota zeta. rewrite H3. lia.
  - assert (Hu : u64_ok (Z.to_N z)) by (unfold u64_ok, W64; lia). destruct (G _ Hu) as (H1 & H2 & H3). split; [auto|]. split; [auto|]. rewrite H3. lia.
Qed.
(* Texts of printable ASCII characters and newlines are read back unchanged. *)
Theorem C55_text dtext s : forallb printable s = true -> kept (to_string dtext (VStr s)) = s.
Proof.
  intro H. cbn [to_string]. assert (E : (match rev s with 0 :: r => rev r | _ => s end) = s).
  { destruct (rev s) as [|c r] eqn:E; [reflexivity|]. destruct c as [|p]; [|reflexivity]. assert (Hi : In 0 s) by (apply in_rev; rewrite E; left; reflexivity). rewrite forallb_forall in H. specialize (H 0 Hi). discriminate. }
  transitivity (kept s); [f_equal; exact E|apply filter_id, H].
Qed.
(* Records whose unquoted values are integers, truth values and doubles with a number text are readable. *)
Definition json_value (dtext : N -> bytes) (v : value) : Prop :=
  match v with VInt z => s64_ok z | VUint n => u64_ok n | VBool _ => True | VDouble b => jnum (dtext b) | VStr _ | VUsr _ => False | _ => False end.
Theorem C55_readable dtext d q recs : (forall rec a v, In rec recs -> In (EImm a v) rec -> attr_type d a <> T_STRING -> attr_type d a <> T_USR -> json_value dtext v) -> plain_ok (to_string dtext) d q recs.
Proof.
  intros H rec K t Hr Ht. unfold plains in Ht. apply in_flat_map in Ht. destruct Ht as ((k, p) & Hp & Ht). cbn [fst snd] in Ht. destruct (beqb k K); [|destruct Ht]. destruct p as [x|x|x]; try destruct Ht as [|[]]; try contradiction. subst x.
  unfold parts in Hp. apply filter_In in Hp. destruct Hp as (Hp & _). apply in_flat_map in Hp. destruct Hp as ([i|a v] & He & Hp); [apply in_map_iff in Hp; destruct Hp as (y & Hy & _); discriminate|].
  destruct (shown d q a); [|destruct Hp]. destruct Hp as [Hp|[]]. destruct (js_quote_all q || (attr_type d a =? T_STRING) || (attr_type d a =? T_USR)) eqn:E; [discriminate|]. injection Hp as _ <-.
  apply orb_false_iff in E. destruct E as (E & E3). apply orb_false_iff in E. destruct E as (_ & E2). apply N.eqb_neq in E2, E3. specialize (H rec a v Hr He E2 E3). destruct v as [|s|z|n|s|n|b|b|n|n]; cbn [json_value] in H; try contradiction.
  - apply (C55_integers dtext (VInt z) z). left. auto.
  - apply (C55_integers dtext (VUint n) (Z.of_N n)). right. eauto.
  - right. right. exact H.
  - destruct b; [left|right; left]; reflexivity.
Qed.

(* ---------------- examples ---------------- *)
Definition no_dtext (b : N) : bytes := bs "0.000000".
Definition jq (l : jlayout) (pretty : bool) : jspec := mkjs [] [(e_tm, bs "Time")] l pretty false false.
Example C55_example : jread (json_output (to_string no_dtext) edb (jq JRecords true) [] erecs) = Some (JArr [
   JObj [(bs "path", JStr (bs "main/foo/inner")); (bs "Time", JNum (bs "50"))];
   JObj [(bs "path", JStr (bs "main/bar")); (bs "Time", JNum (bs "20"))];
   JObj [(bs "path", JStr (bs "main")); (bs "Time", JNum (bs "5"))];
   JObj [(bs "path", JStr (bs "main/foo")); (bs "Time", JNum (bs "10"))];
   JObj [(bs "path", JStr (bs "main/bar")); (bs "Time", JNum (bs "30"))]]).
Proof. vm_compute. reflexivity. Qed.
Example C55_example_conditions : plain_ok (to_string no_dtext) edb (jq JObject false) erecs /\ (forall a, In a (attr_list edb (jq JObject false)) -> plain_name (aname edb a)).
Proof.
  split.
  - apply C55_readable. assert (E : forallb (forallb (fun e => match e with EImm _ (VInt z) => (-1000 <=? z)%Z && (z <=? 1000)%Z | EImm _ _ => false | _ => true end)) erecs = true) by (vm_compute; reflexivity).
    intros rec a v Hr Hi _ _. rewrite forallb_forall in E. specialize (E rec Hr). rewrite forallb_forall in E. specialize (E _ Hi). cbn in E. destruct v; try discriminate. cbn. unfold s64_ok. lia.
  - assert (E : forallb (fun a => forallb (fun c => (32 <=? c) && (c <? 128) && negb ((c =? 92) || (c =? 34))) (aname edb a)) (attr_list edb (jq JObject false)) = true) by (vm_compute; reflexivity). rewrite forallb_forall in E. exact E.
Qed.
Definition jobj_out : option json := Eval vm_compute in jread (json_output (to_string no_dtext) edb (jq JObject false) [ERef (en ["main"; "bar"]%string); EImm (ea e_tm) (VInt 7)] [er ["main"]%string (Some 5%Z)]).
Example C55_object_example : exists at', jobj_out = Some (JObj [(bs "records", JArr [JObj [(bs "path", JStr (bs "main")); (bs "Time", JNum (bs "5"))]]); (bs "globals", JObj [(bs "function", JStr (bs "main/bar")); (bs "time", JStr (bs "7"))]); (bs "attributes", JObj at')]).
Proof. eexists. vm_compute. reflexivity. Qed.

(* Findings.  Addresses are printed as hexadecimal digits without quotes: 16 becomes the JSON number 10,
   and 255 makes the output unreadable. *)
Definition xdb : mdb := Eval vm_compute in snd (create_attribute (snd (create_attribute db_init (bs "addr") T_ADDR 1)) (bs "a""b") T_INT 1).
Definition xat (s : string) : N := match get_attr xdb (bs s) with Some a => a | None => 0 end.
Definition sel_addr (l : jlayout) : jspec := mkjs [bs "addr"] [] l false false false.
Theorem C55_address_refuted : exists recs recs', 
  recs = [[EImm (xat "addr") (VAddr 16)]] /\ jread (json_output (to_string no_dtext) xdb (sel_addr JRecords) [] recs) = Some (JArr [JObj [(bs "addr", JNum (bs "10"))]]) /\
  recs' = [[EImm (xat "addr") (VAddr 255)]] /\ jread (json_output (to_string no_dtext) xdb (sel_addr JRecords) [] recs') = None.
Proof. eexists. eexists. split; [reflexivity|]. split; [vm_compute; reflexivity|]. split; [reflexivity|]. vm_compute. reflexivity. Qed.
(* In the split layout, two records are not one JSON text. *)
Theorem C55_split_refuted : exists recs, length recs = 2%nat /\ jread (json_output (to_string no_dtext) edb (jq JSplit false) [] recs) = None.
Proof. exists [er ["main"]%string (Some 5%Z); er ["main"]%string (Some 6%Z)]. split; [reflexivity|]. vm_compute. reflexivity. Qed.
(* In the object layout, an attribute name with a quote makes the output unreadable. *)
Theorem C55_attribute_name_refuted : exists recs, recs = [[EImm (xat "a""b") (VInt 1)]] /\
  jread (json_output (to_string no_dtext) xdb (mkjs [] [] JObject false false false) [] recs) = None /\
  jread (json_output (to_string no_dtext) xdb (mkjs [] [] JRecords false false false) [] recs) = Some (JArr [JObj [(bs "a""b", JNum (bs "1"))]]).
Proof. eexists. split; [reflexivity|]. split; vm_compute; reflexivity. Qed.
(* Characters outside printable ASCII are lost: two different strings have the same output. *)
Theorem C55_characters_refuted : exists s s', s <> s' /\ bytes_ok s /\ bytes_ok s' /\ kept (to_string no_dtext (VStr s)) = kept (to_string no_dtext (VStr s')).
Proof. exists [65; 195; 164], [65; 9]. split; [discriminate|]. split; [repeat constructor|]. split; [repeat constructor|]. reflexivity. Qed.
