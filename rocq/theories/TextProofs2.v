(* Parsing of whole lines and of values *)
From Verif Require Import Base VariantModel VariantSpec NamesModel TextModel TextProofs.

Lemma cont_term (r : bytes) : (r = [] \/ exists q, r = c_comma :: q) -> term r.
Proof. intros [->|(q & ->)]; cbn; auto. Qed.
Lemma pre_f (key s : bytes) : is_prefix key s = false -> matches key s = None.
Proof. apply matches_diff. Qed.

Section NodeLoop.
Variables (fid fattr fpar : N) (fdata : bytes).
Lemma nl_id k n rest : u64_ok n -> term rest ->
  node_loop (S k) (m_id ++ dec n ++ rest) (mknf fid fattr fpar fdata) =
  match matches_c c_comma rest with Some r' => node_loop k r' (mknf n fattr fpar fdata) | None => mknf n fattr fpar fdata end.
Proof.
  intros H Ht. destruct (dec_spec n H) as (_ & Hne & _ & _). cbn [node_loop].
  rewrite (pre_f m_attr) by reflexivity. rewrite (pre_f m_data) by reflexivity.
  rewrite matches_app by (destruct (dec n); [congruence|discriminate]). rewrite read_u64_dec by auto. reflexivity.
Qed.
Lemma nl_attr k n rest : u64_ok n -> term rest ->
  node_loop (S k) (m_attr ++ dec n ++ rest) (mknf fid fattr fpar fdata) =
  match matches_c c_comma rest with Some r' => node_loop k r' (mknf fid n fpar fdata) | None => mknf fid n fpar fdata end.
Proof.
  intros H Ht. destruct (dec_spec n H) as (_ & Hne & _ & _). cbn [node_loop].
  rewrite matches_app by (destruct (dec n); [congruence|discriminate]). rewrite read_u64_dec by auto. reflexivity.
Qed.
Lemma nl_par k n rest : u64_ok n -> term rest ->
  node_loop (S k) (m_parent ++ dec n ++ rest) (mknf fid fattr fpar fdata) =
  match matches_c c_comma rest with Some r' => node_loop k r' (mknf fid fattr n fdata) | None => mknf fid fattr n fdata end.
Proof.
  intros H Ht. destruct (dec_spec n H) as (_ & Hne & _ & _). cbn [node_loop].
  rewrite (pre_f m_attr) by reflexivity. rewrite (pre_f m_data) by reflexivity. rewrite (pre_f m_id) by reflexivity.
  rewrite matches_app by (destruct (dec n); [congruence|discriminate]). rewrite read_u64_dec by auto. reflexivity.
Qed.
Lemma nl_data k t rest : bytes_ok t -> term rest -> (esc t ++ rest <> []) ->
  node_loop (S k) (m_data ++ esc t ++ rest) (mknf fid fattr fpar fdata) =
  match matches_c c_comma rest with Some r' => node_loop k r' (mknf fid fattr fpar (filter storable t)) | None => mknf fid fattr fpar (filter storable t) end.
Proof.
  intros H Ht Hn. cbn [node_loop]. rewrite (pre_f m_attr) by reflexivity. rewrite matches_app by auto. rewrite read_escaped by auto. reflexivity.
Qed.
Lemma nl_data_empty k : node_loop (S k) m_data (mknf fid fattr fpar fdata) = mknf fid fattr fpar fdata.
Proof. reflexivity. Qed.
End NodeLoop.

Lemma esc_nil_filter t : esc t = [] -> filter storable t = [].
Proof.
  induction t as [|c t IH]; [reflexivity|]. unfold esc. cbn [flat_map]. fold (esc t). intro H. apply app_eq_nil in H. destruct H as (H1 & H2). cbn [filter]. rewrite (IH H2).
  unfold esc1, ctrl, c_nl in H1. destruct ((c <? 32) || (128 <=? c)) eqn:E.
  - destruct (N.eqb_spec c 10); [discriminate|]. unfold storable, c_nl. replace ((32 <=? c) && (c <? 128) || (c =? 10)) with false by lia. reflexivity.
  - destruct ((c =? c_bs) || (c =? c_comma) || (c =? c_eq)); discriminate.
Qed.

Lemma parse_node_line id attr t parent : u64_ok id -> u64_ok attr -> (forall p, parent = Some p -> u64_ok p) -> bytes_ok t ->
  parse_line (node_line id attr (esc t) parent) = PNode (mknf id attr (match parent with Some p => p | None => INV_ID end) (filter storable t)).
Proof.
  intros Hi Ha Hp Hb.
  set (tail := match parent with Some p => if p =? INV_ID then [] else k_parent ++ dec p | None => [] end).
  assert (E : node_line id attr (esc t) parent = m_rec_node ++ (m_id ++ dec id ++ c_comma :: (m_attr ++ dec attr ++ c_comma :: (m_data ++ esc t ++ tail)))) by reflexivity.
  rewrite E. unfold parse_line. rewrite matches_app by discriminate. f_equal.
  set (L := length _). 
  assert (HL : (4 <= S L)%nat). { unfold L. rewrite !app_length. cbn. lia. }
  destruct L as [|[|[|L]]]; try lia.
  rewrite nl_id; [|auto|cbn; auto]. cbn [matches_c]. change (c_comma =? c_comma) with true. cbn iota.
  rewrite nl_attr; [|auto|cbn; auto]. cbn [matches_c]. change (c_comma =? c_comma) with true. cbn iota.
  assert (T : (tail = [] /\ (match parent with Some p => p | None => INV_ID end) = INV_ID) \/ exists p, parent = Some p /\ tail = c_comma :: (m_parent ++ dec p)).
  { unfold tail. destruct parent as [p|]; auto. destruct (N.eqb_spec p INV_ID); [subst; auto|right; exists p; auto]. }
  destruct T as [(-> & ->)|(p & -> & ->)].
  - rewrite app_nil_r. destruct (esc t) as [|x r] eqn:Et.
    + rewrite app_nil_r, nl_data_empty. rewrite (esc_nil_filter t Et). reflexivity.
    + rewrite <- Et. rewrite <- (app_nil_r (esc t)). rewrite nl_data; [reflexivity|auto|cbn; auto|rewrite Et; discriminate].
  - rewrite nl_data; [|auto|cbn; auto|destruct (esc t); discriminate]. cbn [matches_c]. change (c_comma =? c_comma) with true. cbn iota.
    rewrite <- (app_nil_r (dec p)). rewrite nl_par; [reflexivity|apply Hp; auto|cbn; auto].
Qed.

Section RecLoop.
Variables (frefs fattrs : list N) (fdatas : list bytes).
Definition cont k (f : rfields) (r : bytes) := match matches_c c_comma r with Some r' => rec_loop k r' f | None => f end.
Lemma id_list_spec n l rest : u64_ok n -> Forall u64_ok l -> (rest = [] \/ exists r, rest = c_comma :: r) ->
  read_id_list (dec n ++ eq_list (map dec l) ++ rest) = (n :: l, rest).
Proof.
  intros Hn Hl Hr. unfold read_id_list.
  rewrite (read_list_spec (fun s => read_u64 s 0) dec (fun x => x) u64_ok); auto.
  - rewrite map_id. reflexivity.
  - intros b r Hb Ht. apply read_u64_dec; auto.
  - rewrite !app_length. pose proof (eq_list_length (map dec l)) as Q. rewrite map_length in Q. lia.
Qed.
Lemma string_list_spec t l rest : bytes_ok t -> Forall bytes_ok l -> (rest = [] \/ exists r, rest = c_comma :: r) ->
  read_string_list (esc t ++ eq_list (map esc l) ++ rest) = (map (filter storable) (t :: l), rest).
Proof.
  intros Ht Hl Hr. unfold read_string_list.
  rewrite (read_list_spec read_escaped_word esc (filter storable) bytes_ok); auto.
  - intros b r Hb HT. apply read_escaped; auto.
  - rewrite !app_length. pose proof (eq_list_length (map esc l)) as Q. rewrite map_length in Q. lia.
Qed.
Lemma rl_ref k n l rest : u64_ok n -> Forall u64_ok l -> (rest = [] \/ exists r, rest = c_comma :: r) ->
  rec_loop (S k) (m_ref ++ dec n ++ eq_list (map dec l) ++ rest) (mkrf frefs fattrs fdatas) = cont k (mkrf (n :: l) fattrs fdatas) rest.
Proof.
  intros Hn Hl Hr. destruct (dec_spec n Hn) as (_ & Hne & _ & _). cbn [rec_loop].
  rewrite matches_app by (destruct (dec n); [congruence|discriminate]). rewrite id_list_spec by auto. reflexivity.
Qed.
Lemma rl_attr k n l rest : u64_ok n -> Forall u64_ok l -> (rest = [] \/ exists r, rest = c_comma :: r) ->
  rec_loop (S k) (m_attr ++ dec n ++ eq_list (map dec l) ++ rest) (mkrf frefs fattrs fdatas) = cont k (mkrf frefs (n :: l) fdatas) rest.
Proof.
  intros Hn Hl Hr. destruct (dec_spec n Hn) as (_ & Hne & _ & _). cbn [rec_loop]. rewrite (pre_f m_ref) by reflexivity.
  rewrite matches_app by (destruct (dec n); [congruence|discriminate]). rewrite id_list_spec by auto. reflexivity.
Qed.
Lemma rl_data k t l : bytes_ok t -> Forall bytes_ok l -> (esc t ++ eq_list (map esc l) <> []) ->
  rec_loop (S k) (m_data ++ esc t ++ eq_list (map esc l)) (mkrf frefs fattrs fdatas) = mkrf frefs fattrs (map (filter storable) (t :: l)).
Proof.
  intros Ht Hl Hn. cbn [rec_loop]. rewrite (pre_f m_ref) by reflexivity. rewrite (pre_f m_attr) by reflexivity.
  rewrite matches_app by auto. rewrite <- (app_nil_r (eq_list _)). rewrite string_list_spec by auto. reflexivity.
Qed.
End RecLoop.

Lemma parse_record_line (g : bool) refs attrs ts :
  Forall u64_ok refs -> Forall u64_ok attrs -> Forall bytes_ok ts -> length ts = length attrs ->
  (refs <> [] \/ attrs <> []) -> (forall t, ts = [t] -> esc t <> []) ->
  parse_line (record_line g refs attrs (map esc ts)) = (if g then PGlobals else PCtx) (mkrf refs attrs (map (filter storable) ts)).
Proof.
  intros Hr Ha Ht Hl Hne Hsp.
  set (imm := match attrs with [] => [] | _ => k_attr0 ++ eq_list (map dec attrs) ++ k_data0 ++ eq_list (map esc ts) end).
  assert (IMM : forall k rf, (2 <= k)%nat -> match imm with [] => mkrf rf [] [] | _ :: r => rec_loop k r (mkrf rf [] []) end = mkrf rf attrs (map (filter storable) ts)).
  { intros k rf Hk. unfold imm. destruct attrs as [|a attrs]; [destruct ts; [reflexivity|discriminate]|]. destruct ts as [|t ts]; [discriminate|].
    inversion Ha as [|? ? Ha1 Ha2]; subst. inversion Ht as [|? ? Ht1 Ht2]; subst.
    destruct k as [|[|k]]; try lia.
    change (match k_attr0 ++ eq_list (map dec (a :: attrs)) ++ k_data0 ++ eq_list (map esc (t :: ts)) with [] => mkrf rf [] [] | _ :: r => rec_loop (S (S k)) r (mkrf rf [] []) end)
      with (rec_loop (S (S k)) (m_attr ++ (dec a ++ eq_list (map dec attrs)) ++ c_comma :: (m_data ++ esc t ++ eq_list (map esc ts))) (mkrf rf [] [])).
    rewrite <- app_assoc. rewrite rl_attr; eauto. unfold cont. cbn [matches_c]. change (c_comma =? c_comma) with true. cbn iota.
    rewrite rl_data; auto. destruct ts as [|t' ts]; [|destruct (esc t); discriminate]. cbn [map]. unfold eq_list. cbn [flat_map]. rewrite app_nil_r. apply Hsp. reflexivity. }
  assert (Hi : imm = [] \/ exists r, imm = c_comma :: r) by (unfold imm; destruct attrs; [auto|right; eexists; reflexivity]).
  assert (BODY : forall k, (3 <= k)%nat -> exists r, (match refs with [] => [] | _ => k_ref0 ++ eq_list (map dec refs) end) ++ imm = c_comma :: r /\ r <> [] /\ rec_loop k r (mkrf [] [] []) = mkrf refs attrs (map (filter storable) ts)).
  { intros k Hk. destruct refs as [|x refs].
    - cbn [app]. destruct attrs as [|a attrs]; [destruct Hne; congruence|]. destruct Hi as [Hi|(r & Hi)]; [discriminate|]. exists r. split; auto.
      specialize (IMM k [] ltac:(lia)). rewrite Hi in IMM. split; auto. unfold imm in Hi. injection Hi as <-. discriminate.
    - inversion Hr as [|? ? Hr1 Hr2]; subst. exists (m_ref ++ (dec x ++ eq_list (map dec refs)) ++ imm). split; [reflexivity|]. split; [discriminate|].
      destruct k as [|k]; [lia|]. rewrite <- app_assoc. rewrite rl_ref; auto. unfold cont. destruct Hi as [Hi|(r & Hi)].
      + specialize (IMM 2%nat (x :: refs) ltac:(lia)). rewrite Hi in *. exact IMM.
      + specialize (IMM k (x :: refs) ltac:(lia)). rewrite Hi in *. cbn [matches_c]. change (c_comma =? c_comma) with true. exact IMM. }
  assert (E : record_line g refs attrs (map esc ts) = (if g then rec_globals else rec_ctx) ++ (match refs with [] => [] | _ => k_ref0 ++ eq_list (map dec refs) end) ++ imm) by reflexivity.
  rewrite E. clear E.
  assert (BL : exists r, (match refs with [] => [] | _ => k_ref0 ++ eq_list (map dec refs) end) ++ imm = c_comma :: r /\ (3 <= S (length r))%nat).
  { destruct refs as [|x refs]; [|eexists; split; [reflexivity|cbn [length]; lia]].
    destruct attrs as [|a attrs]; [destruct Hne; congruence|]. unfold imm. eexists; split; [reflexivity|]. cbn [length]; lia. }
  destruct BL as (r & Er & Hlen). destruct (BODY (S (length r)) Hlen) as (r' & Er' & Hrne & Hb). rewrite Er in Er'. injection Er' as <-. rewrite Er.
  destruct g; unfold parse_line.
  - rewrite (pre_f m_rec_node) by reflexivity. rewrite (pre_f m_rec_ctx) by reflexivity.
    change (rec_globals ++ c_comma :: r) with (m_rec_globals ++ r). rewrite matches_app by auto. rewrite Hb. reflexivity.
  - rewrite (pre_f m_rec_node) by reflexivity.
    change (rec_ctx ++ c_comma :: r) with (m_rec_ctx ++ r). rewrite matches_app by auto. rewrite Hb. reflexivity.
Qed.

(* ---------- values ---------- *)
Section Val.
Variables (dfmt : N -> bytes) (dparse : bytes -> option N).
Lemma acc_digits_spec base ds : Forall (dchar base) ds -> forall a any, acc_digits base ds a any = (dfold base ds a, match ds with [] => any | _ => true end).
Proof.
  induction ds as [|c ds IH]; intros Hf a any; [reflexivity|]. inversion Hf as [|? ? Hc Hd]; subst. cbn [acc_digits]. destruct Hc as (d & E). rewrite E, IH by auto.
  unfold dfold; cbn [fold_left]. unfold dv at 3. rewrite E. destruct ds; reflexivity.
Qed.
Lemma str_to_uint64_spec ds : Forall (dchar 10) ds -> forall a any, str_to_uint64 ds (wrap64 a) any = (if (match ds with [] => any | _ => true end) then Some (wrap64 (dfold 10 ds a)) else None).
Proof.
  induction ds as [|c ds IH]; intros Hf a any; [reflexivity|]. inversion Hf as [|? ? Hc Hd]; subst. destruct (dchar10 c Hc) as (Hr & Hv). cbn [str_to_uint64].
  unfold isdigit. replace ((48 <=? c) && (c <=? 57)) with true by lia. rewrite wrap_step, IH by auto. unfold dfold; cbn [fold_left]. rewrite Hv. destruct ds; reflexivity.
Qed.
Lemma cstr_id s : forallb storable s = true -> cstr s = s.
Proof.
  induction s as [|c s IH]; [reflexivity|]. cbn [forallb cstr]. intro H. apply andb_true_iff in H. destruct H as (H1 & H2). rewrite IH by auto.
  unfold storable, c_nl in H1. destruct (N.eqb_spec c 0); [lia|reflexivity].
Qed.
Lemma hd_dchar ds base : base = 10 \/ base = 16 -> Forall (dchar base) ds -> skip_ws ds = ds /\ sign_of ds = (false, ds).
Proof.
  intros Hb Hf. destruct ds as [|c ds]; [split; reflexivity|]. inversion Hf as [|? ? Hc Hd]; subst.
  assert (48 <= c < 128) by (destruct Hb; subst base; [apply dchar10 in Hc|apply dchar16 in Hc]; lia). cbn [skip_ws sign_of]. unfold isspace, c_minus, c_plus.
  replace ((c =? 32) || (9 <=? c) && (c <=? 13)) with false by lia. replace (c =? 45) with false by lia. replace (c =? 43) with false by lia. auto.
Qed.
Lemma strtoll_int z : s64_ok z -> strtoll (if (z <? 0)%Z then c_minus :: dec (Z.to_N (- z)) else dec (Z.to_N z)) = Some z.
Proof.
  intro H. unfold s64_ok in H. destruct (Z.ltb_spec z 0).
  - assert (U : u64_ok (Z.to_N (- z))) by (unfold u64_ok, W64; lia). destruct (dec_spec _ U) as (_ & Hne & Hf & Hv).
    unfold strtoll. cbn [skip_ws]. change (isspace c_minus) with false. cbn iota. cbn [sign_of]. change (c_minus =? c_minus) with true. cbn iota.
    rewrite acc_digits_spec, Hv by auto. destruct (dec (Z.to_N (- z))); [congruence|]. cbv zeta. f_equal. unfold LLONG_MIN, LLONG_MAX. lia.
  - assert (U : u64_ok (Z.to_N z)) by (unfold u64_ok, W64; lia). destruct (dec_spec _ U) as (_ & Hne & Hf & Hv).
    destruct (hd_dchar _ 10 (or_introl eq_refl) Hf) as (H1 & H2). unfold strtoll. rewrite H1, H2.
    rewrite acc_digits_spec, Hv by auto. destruct (dec (Z.to_N z)); [congruence|]. cbv zeta. f_equal. unfold LLONG_MIN, LLONG_MAX. lia.
Qed.
Lemma skip_0x_digits ds : Forall (dchar 16) ds -> skip_0x ds = ds.
Proof.
  intros Hf. destruct ds as [|c [|x [|d r]]]; try reflexivity; [destruct c as [|[[]|[[]|[[]|[[]|[[]|[[]| |]|]|]|]|]|]]; reflexivity| |].
  - destruct c as [|p]; try reflexivity. repeat (destruct p; try reflexivity).
  - inversion Hf as [|? ? Hc Hd]; subst. inversion Hd as [|? ? Hx Hr]; subst. apply dchar16 in Hx. 
    assert (E : (x =? 120) || (x =? 88) = false) by lia. unfold skip_0x. rewrite E. cbn [andb].
    destruct c as [|p]; try reflexivity. repeat (destruct p; try reflexivity).
Qed.
Lemma stoull16_hex n : u64_ok n -> stoull 16 (hex n) = Some n.
Proof.
  intro U. destruct (hex_spec n U) as (Hne & Hf & Hv & _). destruct (hd_dchar _ 16 (or_intror eq_refl) Hf) as (H1 & H2).
  unfold stoull. rewrite H1, H2. change (16 =? 16) with true. cbn iota. rewrite skip_0x_digits, acc_digits_spec, Hv by auto.
  destruct (hex n); [congruence|]. unfold u64_ok in U. replace (n <? W64) with true by lia. reflexivity.
Qed.

(* the unescaped text of a value *)
Definition plain (v : value) : bytes :=
  match v with
  | VInv => []
  | VInt z => if (z <? 0)%Z then c_minus :: dec (Z.to_N (- z)) else dec (Z.to_N z)
  | VDouble b => dfmt b
  | VUint n => dec n
  | VStr s => s
  | VType t => type2string t
  | VUsr s => usr_text s
  | VAddr n => hex n
  | VBool b => if b then [116;114;117;101] else [102;97;108;115;101]
  | VPtr p => hex p
  end.
Definition in_range (v : value) : Prop :=
  match v with
  | VInt z => s64_ok z | VUint n | VAddr n | VPtr n => u64_ok n | VType t => t <= MAXTYPE
  | VDouble b => forallb noesc (dfmt b) = true | _ => True end.
Lemma write_plain v : in_range v -> write_value dfmt v = esc (plain v).
Proof.
  clear dparse. destruct v; cbn [in_range write_value plain]; intro H; auto; symmetry; apply esc_id.
  - unfold s64_ok in H. destruct (Z.ltb_spec z 0).
    + cbn [forallb]. rewrite (dchar_noesc 10); [reflexivity|auto|]. apply dec_spec. unfold u64_ok, W64; lia.
    + apply (dchar_noesc 10); auto. apply dec_spec. unfold u64_ok, W64; lia.
  - apply (dchar_noesc 10); auto. apply dec_spec; auto.
  - exact H.
  - assert (C : forallb (fun i => forallb noesc (type2string (N.of_nat i))) (seq 0 10) = true) by (vm_compute; reflexivity).
    rewrite forallb_forall in C. specialize (C (N.to_nat t)). rewrite N2Nat.id in C. apply C. apply in_seq. unfold MAXTYPE in H. lia.
Qed.
Lemma plain_storable v : in_range v -> (match v with VStr s => forallb storable s = true | VUsr _ => False | _ => True end) -> forallb storable (plain v) = true.
Proof.
  clear dparse. destruct v; cbn [in_range plain]; intros H Hs; auto; try contradiction; try (apply noesc_storable).
  - unfold s64_ok in H. destruct (Z.ltb_spec z 0).
    + cbn [forallb]. rewrite (dchar_noesc 10); [reflexivity|auto|]. apply dec_spec. unfold u64_ok, W64; lia.
    + apply (dchar_noesc 10); auto. apply dec_spec. unfold u64_ok, W64; lia.
  - apply (dchar_noesc 10); auto. apply dec_spec; auto.
  - apply (dchar_noesc 16); auto. apply hex_spec; auto.
  - exact H.
  - destruct b; reflexivity.
  - assert (C : forallb (fun i => forallb noesc (type2string (N.of_nat i))) (seq 0 10) = true) by (vm_compute; reflexivity).
    rewrite forallb_forall in C. specialize (C (N.to_nat t)). rewrite N2Nat.id in C. apply C. apply in_seq. unfold MAXTYPE in H. lia.
  - apply (dchar_noesc 16); auto. apply hex_spec; auto.
Qed.

(* values that survive: everything but blobs, pointers and the empty value; strings of
   storable characters; doubles as far as their text does *)
Definition value_ok (v : value) : Prop :=
  match v with
  | VInv | VUsr _ | VPtr _ => False
  | VStr s => forallb storable s = true
  | VInt z => s64_ok z
  | VUint n | VAddr n => u64_ok n
  | VBool _ => True
  | VType t => t <= MAXTYPE /\ t <> T_INV
  | VDouble b => forallb noesc (dfmt b) = true /\ dparse (dfmt b) = Some b /\ dfmt b <> []
  end.
Lemma value_ok_range v : value_ok v -> in_range v.
Proof. destruct v; cbn; tauto. Qed.
Lemma value_ok_storable v : value_ok v -> forallb storable (plain v) = true.
Proof. intro H. apply plain_storable; [apply value_ok_range; auto|]. destruct v; auto. Qed.
Lemma drop_nul_id s : forallb storable s = true -> drop_last_nul s = s.
Proof.
  intro H. unfold drop_last_nul. destruct (rev s) as [|c r] eqn:E; auto. destruct c; auto. exfalso.
  rewrite forallb_forall in H. assert (In 0 s) by (apply in_rev; rewrite E; left; auto). specialize (H 0 H0). discriminate.
Qed.
Lemma type_rt t : t <= MAXTYPE -> string2type (type2string t) = t.
Proof.
  intros H. assert (C : forallb (fun i => string2type (type2string (N.of_nat i)) =? N.of_nat i) (seq 0 10) = true) by (vm_compute; reflexivity).
  rewrite forallb_forall in C. specialize (C (N.to_nat t)). rewrite N2Nat.id in C. apply N.eqb_eq. apply C. apply in_seq. unfold MAXTYPE in H. lia.
Qed.
Lemma make_variant_plain v : value_ok v -> make_variant dparse (val_type v) (plain v) = v.
Proof.
  intro H. pose proof (value_ok_storable v H) as Hs.
  assert (C : forall ty, ty <> T_INV -> ty <> T_USR -> ty <> T_STRING -> make_variant dparse ty (plain v) = from_string dparse ty (plain v)).
  { intros ty A B D. unfold make_variant. destruct (N.eqb_spec ty T_INV); [congruence|]. destruct (N.eqb_spec ty T_USR); [congruence|]. destruct (N.eqb_spec ty T_STRING); [congruence|reflexivity]. }
  destruct v; cbn [value_ok val_type] in *; try contradiction; try (rewrite C by discriminate; unfold from_string; rewrite (cstr_id _ Hs)).
  - change (2 =? T_STRING) with false. change (2 =? T_INT) with true. cbn iota. cbn [plain]. rewrite strtoll_int by auto. reflexivity.
  - change (3 =? T_STRING) with false. change (3 =? T_INT) with false. change (3 =? T_ADDR) with false. change (3 =? T_UINT) with true. cbn iota. cbn [plain].
    destruct (dec_spec n H) as (_ & Hne & Hf & Hv). change 0 with (wrap64 0). rewrite str_to_uint64_spec by auto. rewrite Hv, wrap64_id by auto. destruct (dec n); [congruence|reflexivity].
  - unfold make_variant. change (4 =? T_INV) with false. change (4 =? T_USR) with false. change (4 =? T_STRING) with true. cbn iota. cbn [plain]. rewrite drop_nul_id by auto. reflexivity.
  - change (5 =? T_STRING) with false. change (5 =? T_INT) with false. change (5 =? T_ADDR) with true. cbn iota. cbn [plain]. rewrite stoull16_hex by auto. reflexivity.
  - change (6 =? T_STRING) with false. change (6 =? T_INT) with false. change (6 =? T_ADDR) with false. change (6 =? T_UINT) with false. change (6 =? T_DOUBLE) with true. cbn iota. cbn [plain]. destruct H as (_ & -> & _). reflexivity.
  - destruct b; reflexivity.
  - cbn [plain]. change (8 =? T_STRING) with false. change (8 =? T_INT) with false. change (8 =? T_ADDR) with false. change (8 =? T_UINT) with false. change (8 =? T_DOUBLE) with false. change (8 =? T_BOOL) with false. change (8 =? T_TYPE) with true. cbn iota.
    destruct H as (H1 & H2). rewrite type_rt by auto. destruct (N.eqb_spec t T_INV); [congruence|reflexivity].
Qed.
Lemma read_value v : value_ok v -> make_variant dparse (val_type v) (filter storable (plain v)) = v.
Proof. intro H. rewrite filter_id by (apply value_ok_storable; auto). apply make_variant_plain; auto. Qed.
Lemma value_bytes v : value_ok v -> bytes_ok (plain v).
Proof. intro H. apply Forall_forall. intros c Hc. pose proof (value_ok_storable v H) as Hs. rewrite forallb_forall in Hs. specialize (Hs c Hc). unfold storable, c_nl in Hs. unfold byte_ok. lia. Qed.
End Val.
