(* The JSON reader of JsonSpec on the texts written by the JSON formatter *)
From Coq Require Import Strings.Ascii Strings.String.
From Verif Require Import Base VariantModel VariantSpec NamesModel TextModel TextProofs TreeModel CaliFileModel AggModel FilterModel RConfigModel FmtModel JsonSpec JsonModel.
Open Scope N_scope.

Definition ws (w : bytes) : Prop := forallb jws w = true.
Lemma skip_ws' w s : ws w -> skip (w ++ s) = skip s.
Proof. induction w as [|c w IH]; [reflexivity|]. unfold ws. cbn [forallb app skip]. intro H. apply andb_true_iff in H. destruct H as (-> & H). apply IH, H. Qed.
Lemma skip_nw c s : jws c = false -> skip (c :: s) = c :: s.
Proof. intro H. cbn [skip]. rewrite H. reflexivity. Qed.

(* the characters a JSON string written by the formatter carries *)
Definition clean (s : bytes) : bytes := filter storable s.
Lemma clean_cons c s : clean (c :: s) = if storable c then c :: clean s else clean s.
Proof. reflexivity. Qed.
Lemma jchars_esc : forall s rest, jchars (jesc s ++ 34 :: rest) = Some (clean s, rest).
Proof.
  induction s as [|c s IH]; intro rest; [reflexivity|]. unfold jesc. cbn [flat_map]. fold (jesc s). rewrite <- app_assoc, clean_cons.
  unfold jesc1, ctrl, storable, c_nl, c_bs, c_n. destruct (N.eqb_spec c 10) as [->|H10].
  - change ((10 <? 32) || (128 <=? 10)) with true. change (((32 <=? 10) && (10 <? 128)) || true) with true. cbn [app]. cbn [jchars].
    change (92 =? 34) with false. change (92 =? 92) with true. cbv iota. change (unescape 110) with (Some 10). cbv iota. rewrite IH. reflexivity.
  - destruct (N.ltb_spec c 32); cbn [orb app].
    + replace ((32 <=? c) && (c <? 128) || false) with false by lia. apply IH.
    + destruct (N.leb_spec 128 c).
      { replace ((32 <=? c) && (c <? 128) || false) with false by lia. cbn [app]. apply IH. }
      replace ((32 <=? c) && (c <? 128) || false) with true by lia.
      destruct (N.eqb_spec c 92) as [->|H92].
      { cbn [orb app jchars]. change (92 =? 34) with false. change (92 =? 92) with true. cbv iota. change (unescape 92) with (Some 92). cbv iota. rewrite IH. reflexivity. }
      destruct (N.eqb_spec c 34) as [->|H34].
      { cbn [orb app jchars]. change (92 =? 34) with false. change (92 =? 92) with true. cbv iota. change (unescape 34) with (Some 34). cbv iota. rewrite IH. reflexivity. }
      cbn [orb app jchars]. replace (c =? 34) with false by lia. replace (c =? 92) with false by lia. replace ((c <? 32) || (127 <? c)) with false by lia.
      rewrite IH. reflexivity.
Qed.

Definition term (rest : bytes) : Prop := match rest with [] => True | c :: _ => jws c = true \/ c = 44 \/ c = 93 \/ c = 125 end.
Definition reads (j : json) (t : bytes) : Prop := t <> [] /\ forall rest fuel, (length t <= fuel)%nat -> term rest -> jval fuel (t ++ rest) = Some (j, rest).

Lemma jval_ws f w s : ws w -> jval f (w ++ s) = jval f s.
Proof. intro H. destruct f; [reflexivity|]. cbn [jval]. rewrite (skip_ws' w s H). reflexivity. Qed.
Lemma jmem_ws f w s : ws w -> jmembers f (w ++ s) = jmembers f s.
Proof. intro H. destruct f; [reflexivity|]. cbn [jmembers]. rewrite (skip_ws' w s H). reflexivity. Qed.

Lemma m125 {A} (s : bytes) (x : bytes -> A) (y : A) : (match s with 125 :: r => x r | _ => y end) = match s with c :: r => if c =? 125 then x r else y | [] => y end.
Proof. destruct s as [|c r]; [reflexivity|]. destruct (N.eqb_spec c 125) as [->|H]; [reflexivity|]. destruct c as [|p]; [reflexivity|]. do 7 (try (destruct p as [p|p|]; try reflexivity)). congruence. Qed.
Lemma m93 {A} (s : bytes) (x : bytes -> A) (y : A) : (match s with 93 :: r => x r | _ => y end) = match s with c :: r => if c =? 93 then x r else y | [] => y end.
Proof. destruct s as [|c r]; [reflexivity|]. destruct (N.eqb_spec c 93) as [->|H]; [reflexivity|]. destruct c as [|p]; [reflexivity|]. do 7 (try (destruct p as [p|p|]; try reflexivity)). congruence. Qed.

(* strings *)
Lemma jval_str f s rest : jval (S f) (quoted s ++ rest) = Some (JStr (clean s), rest).
Proof. unfold quoted. cbn [app]. rewrite <- app_assoc. cbn [app jval skip]. change (jws 34) with false. cbv iota. change (34 =? 34) with true. cbv iota. rewrite jchars_esc. reflexivity. Qed.
Lemma reads_str s : reads (JStr (clean s)) (quoted s).
Proof. split; [discriminate|]. intros rest fuel H _. destruct fuel; [unfold quoted in H; cbn in H; lia|]. apply jval_str. Qed.

(* members: white space, quoted key, colon, white space, text of the value *)
Record mitem := mkmi { mi_w : bytes; mi_k : bytes; mi_w2 : bytes; mi_t : bytes; mi_j : json }.
Definition mi_ok (m : mitem) : Prop := ws (mi_w m) /\ ws (mi_w2 m) /\ reads (mi_j m) (mi_t m).
Definition mi_text (m : mitem) : bytes := mi_w m ++ quoted (mi_k m) ++ [58] ++ mi_w2 m ++ mi_t m.
Definition mi_val (m : mitem) : bytes * json := (clean (mi_k m), mi_j m).

Lemma term_ws w c rest : ws w -> (c = 44 \/ c = 93 \/ c = 125) -> term (w ++ c :: rest).
Proof. intros H Hc. destruct w as [|x w]; cbn; [tauto|]. unfold ws in H. cbn in H. apply andb_true_iff in H. tauto. Qed.
Lemma mi_len m : (length (mi_text m) = length (mi_w m) + length (quoted (mi_k m)) + 1 + length (mi_w2 m) + length (mi_t m))%nat.
Proof. unfold mi_text. rewrite !app_length. cbn. lia. Qed.
Lemma jmem_one f m r : mi_ok m -> (length (mi_text m) <= f)%nat -> term r ->
  jmembers (S f) (mi_text m ++ r) = match skip r with
            | 44 :: r4 => match jmembers f r4 with Some (l, rest) => Some (mi_val m :: l, rest) | None => None end
            | 125 :: rest => Some ([mi_val m], rest)
            | _ => None
            end.
Proof.
  intros (H1 & H2 & H3 & H4) Hf Ht. rewrite mi_len in Hf. unfold mi_text. rewrite <- !app_assoc. rewrite jmem_ws by auto. cbn [jmembers].
  unfold quoted at 1. cbn [app]. rewrite skip_nw by reflexivity. rewrite <- app_assoc. cbn [app]. rewrite jchars_esc. cbv iota beta.
  rewrite skip_nw by reflexivity. rewrite jval_ws by auto. rewrite H4 by (auto; lia). reflexivity.
Qed.
Lemma jmem_items we rest : ws we -> forall items f, Forall mi_ok items -> items <> [] -> (length (seps [44%N] (map mi_text items)) < f)%nat ->
  jmembers f (seps [44%N] (map mi_text items) ++ we ++ 125 :: rest) = Some (map mi_val items, rest).
Proof.
  intro Hw. induction items as [|m items IH]; intros f HF Hne Hl; [congruence|]. inversion HF as [|? ? Hm HF']; subst. destruct f as [|f]; [lia|].
  destruct items as [|m' items].
  - cbn [map seps] in *. rewrite jmem_one; [|auto|lia|apply term_ws; auto]. rewrite (skip_ws' we _ Hw), skip_nw by reflexivity. reflexivity.
  - cbn [map] in *. change (seps [44%N] (mi_text m :: mi_text m' :: map mi_text items)) with (mi_text m ++ [44] ++ seps [44%N] (mi_text m' :: map mi_text items)) in *.
    rewrite !app_length in Hl. cbn [length] in Hl. rewrite <- !app_assoc. rewrite jmem_one; [|auto|lia|cbn; tauto]. cbn [app]. rewrite skip_nw by reflexivity. 
    rewrite IH; [reflexivity|auto|discriminate|lia].
Qed.
Lemma quoted_hd s : exists r, quoted s = 34 :: r.
Proof. eexists. reflexivity. Qed.
Lemma seps_hd sep x l : exists r, seps sep (x :: l) = x ++ r.
Proof. destruct l; [exists []; cbn; rewrite app_nil_r; reflexivity|]. eexists. reflexivity. Qed.
Lemma reads_obj items we : ws we -> Forall mi_ok items -> reads (JObj (map mi_val items)) (123 :: seps [44%N] (map mi_text items) ++ we ++ [125]).
Proof.
  intros Hw HF. split; [discriminate|]. intros rest fuel Hf _. destruct fuel as [|f]; [cbn in Hf; lia|]. cbn [app jval]. rewrite skip_nw by reflexivity.
  change (123 =? 34) with false. change (123 =? 123) with true. cbv iota. rewrite <- !app_assoc. cbn [app]. cbn [length] in Hf. rewrite !app_length in Hf. cbn [length] in Hf.
  rewrite m125. destruct items as [|m items].
  - cbn [map seps app]. rewrite (skip_ws' we _ Hw), skip_nw by reflexivity. change (125 =? 125) with true. reflexivity.
  - rewrite jmem_items; [|auto|auto|discriminate|lia].
    cbn [map]. destruct (seps_hd [44] (mi_text m) (map mi_text items)) as (r & ->). inversion HF as [|? ? (H1 & _) _]; subst.
    unfold mi_text. rewrite <- !app_assoc. rewrite (skip_ws' _ _ H1). unfold quoted. cbn [app]. rewrite skip_nw by reflexivity. reflexivity.
Qed.

(* arrays: white space and text of the value *)
Record eitem := mkei { ei_w : bytes; ei_t : bytes; ei_j : json }.
Definition ei_ok (m : eitem) : Prop := ws (ei_w m) /\ reads (ei_j m) (ei_t m).
Definition ei_text (m : eitem) : bytes := ei_w m ++ ei_t m.
Lemma jel_one f m r : ei_ok m -> (length (ei_text m) <= f)%nat -> term r ->
  jelements (S f) (ei_text m ++ r) = match skip r with
      | 44 :: r' => match jelements f r' with Some (l, rest) => Some (ei_j m :: l, rest) | None => None end
      | 93 :: rest => Some ([ei_j m], rest)
      | _ => None
      end.
Proof.
  intros (H1 & H3 & H4) Hf Ht. unfold ei_text in *. rewrite app_length in Hf. rewrite <- !app_assoc. cbn [jelements]. rewrite jval_ws by auto. rewrite H4 by (auto; lia). reflexivity.
Qed.
Lemma jel_items we rest : ws we -> forall items f, Forall ei_ok items -> items <> [] -> (length (seps [44%N] (map ei_text items)) < f)%nat ->
  jelements f (seps [44%N] (map ei_text items) ++ we ++ 93 :: rest) = Some (map ei_j items, rest).
Proof.
  intro Hw. induction items as [|m items IH]; intros f HF Hne Hl; [congruence|]. inversion HF as [|? ? Hm HF']; subst. destruct f as [|f]; [lia|].
  destruct items as [|m' items].
  - cbn [map seps] in *. rewrite jel_one; [|auto|lia|apply term_ws; auto]. rewrite (skip_ws' we _ Hw), skip_nw by reflexivity. reflexivity.
  - cbn [map] in *. change (seps [44%N] (ei_text m :: ei_text m' :: map ei_text items)) with (ei_text m ++ [44] ++ seps [44%N] (ei_text m' :: map ei_text items)) in *.
    rewrite !app_length in Hl. cbn [length] in Hl. rewrite <- !app_assoc. rewrite jel_one; [|auto|lia|cbn; tauto]. cbn [app]. rewrite skip_nw by reflexivity. 
    rewrite IH; [reflexivity|auto|discriminate|lia].
Qed.
Lemma reads_hd j t r : reads j t -> match skip (t ++ r) with c :: _ => (c =? 93) = false | [] => True end \/ ~ term [].
Proof.
  intros (_ & H). left. specialize (H [] (length t) (Nat.le_refl _) Logic.I). rewrite app_nil_r in H. destruct (length t) as [|f]; [discriminate|]. cbn [jval] in H.
  assert (E : forall s, skip s <> [] -> skip (s ++ r) = skip s ++ r).
  { induction s as [|c s IH]; cbn [skip app]; [congruence|]. destruct (jws c); auto. }
  destruct (skip t) as [|c r'] eqn:Es; [discriminate|]. rewrite (E t) by (rewrite Es; discriminate). rewrite Es. cbn [app].
  destruct (N.eqb_spec c 93) as [->|]; [|reflexivity]. discriminate H.
Qed.
Lemma reads_arr items we : ws we -> Forall ei_ok items -> reads (JArr (map ei_j items)) (91 :: seps [44%N] (map ei_text items) ++ we ++ [93]).
Proof.
  intros Hw HF. split; [discriminate|]. intros rest fuel Hf _. destruct fuel as [|f]; [cbn in Hf; lia|]. cbn [app jval]. rewrite skip_nw by reflexivity.
  change (91 =? 34) with false. change (91 =? 123) with false. change (91 =? 91) with true. cbv iota. rewrite <- !app_assoc. cbn [app]. cbn [length] in Hf. rewrite !app_length in Hf. cbn [length] in Hf.
  rewrite m93. destruct items as [|m items].
  - cbn [map seps app]. rewrite (skip_ws' we _ Hw), skip_nw by reflexivity. change (93 =? 93) with true. reflexivity.
  - rewrite jel_items; [|auto|auto|discriminate|lia].
    cbn [map]. destruct (seps_hd [44] (ei_text m) (map ei_text items)) as (r & ->). inversion HF as [|? ? (H1 & H2) _]; subst.
    unfold ei_text. rewrite <- !app_assoc. rewrite (skip_ws' _ _ H1). destruct (reads_hd _ _ (r ++ we ++ 93 :: rest) H2) as [Hh|Hh]; [|exfalso; apply Hh; exact Logic.I].
    destruct (skip (ei_t m ++ r ++ we ++ 93 :: rest)) as [|c x]; [reflexivity|]. rewrite Hh. reflexivity.
Qed.

(* a whole text *)
Lemma jread_ok j w t w2 : ws w -> ws w2 -> reads j t -> jread (w ++ t ++ w2) = Some j.
Proof.
  intros H1 H2 (_ & H). unfold jread. rewrite jval_ws by auto. rewrite H.
  - rewrite <- (app_nil_r w2). rewrite (skip_ws' w2 [] H2). reflexivity.
  - rewrite !app_length. lia.
  - destruct w2 as [|c w2]; cbn; auto. unfold ws in H2. cbn in H2. apply andb_true_iff in H2. tauto.
Qed.

(* numbers and literals *)
Lemma span_app l r : forallb digit l = true -> match r with c :: _ => digit c = false | [] => True end -> span_digits (l ++ r) = (l, r).
Proof.
  induction l as [|c l IH]; cbn [forallb app]; intros H Hr.
  - destruct r as [|c r]; [reflexivity|]. cbn [span_digits]. rewrite Hr. reflexivity.
  - apply andb_true_iff in H. destruct H as (Hc & H). cbn [span_digits]. rewrite Hc, IH by auto. reflexivity.
Qed.
Lemma term_nodigit rest : term rest -> match rest with c :: _ => digit c = false | [] => True end.
Proof. destruct rest as [|c r]; cbn; auto. unfold jws, digit. intro H. lia. Qed.
Lemma jnumber_ok t rest : jnum t -> term rest -> jnumber (t ++ rest) = Some (t, rest).
Proof.
  intros H Ht. destruct H as [neg d t fr Hd H0 Hf]. unfold jnumber.
  assert (E : jsign (((if neg then [45] else []) ++ d :: t ++ match fr with Some f => 46 :: f | None => [] end) ++ rest)
              = ((if neg then [45] else []), (d :: t) ++ match fr with Some f => 46 :: f | None => [] end ++ rest)).
  { destruct neg; cbn [app]; [rewrite <- app_assoc; reflexivity|]. rewrite <- app_assoc. cbn [forallb] in Hd. apply andb_true_iff in Hd. destruct Hd as (Hd & _). unfold digit in Hd. unfold jsign.
    destruct d as [|p]; [reflexivity|]. do 6 (try (destruct p as [p|p|]; try reflexivity)). cbn in Hd. discriminate. }
  rewrite E.
  rewrite span_app; [|exact Hd|].
  2: { destruct fr as [f|]; cbn [app]; [reflexivity|]. apply term_nodigit, Ht. }
  assert (E0 : (d =? 48) && negb (match t with [] => true | _ => false end) = false).
  { destruct (N.eqb_spec d 48) as [e|]; [rewrite (H0 e)|]; reflexivity. }
  rewrite E0. destruct fr as [f|]; cbn [app].
  - destruct (Hf f eq_refl) as (Hn & Hfd). rewrite span_app; [|exact Hfd|apply term_nodigit, Ht]. destruct f as [|x f]; [congruence|]. reflexivity.
  - rewrite app_nil_r. destruct rest as [|c rest]; [reflexivity|]. assert (c <> 46) by (cbn in Ht; unfold jws in Ht; lia).
    destruct c as [|p]; [reflexivity|]. do 6 (try (destruct p as [p|p|]; try reflexivity)). congruence.
Qed.
Lemma reads_num t : jnum t -> reads (JNum t) t.
Proof.
  intro H. split; [destruct H as [[]]; discriminate|]. intros rest fuel Hf Ht. assert (Hne : t <> []) by (destruct H as [[]]; discriminate).
  destruct fuel as [|f]; [destruct t; [congruence|cbn in Hf; lia]|]. pose proof (jnumber_ok t rest H Ht) as E.
  assert (Hh : exists c r, t = c :: r /\ (c = 45 \/ digit c = true)).
  { destruct H as [[] d t fr Hd _ _]; cbn [app]; [eexists; eexists; split; [reflexivity|auto]|]. cbn [forallb] in Hd. apply andb_true_iff in Hd. eexists; eexists; split; [reflexivity|tauto]. }
  destruct Hh as (c & r & -> & Hc). cbn [app] in *. cbn [jval]. unfold digit in Hc. rewrite skip_nw by (unfold jws; lia).
  replace (c =? 34) with false by lia. replace (c =? 123) with false by lia. replace (c =? 91) with false by lia. replace (c =? 116) with false by lia. replace (c =? 102) with false by lia. replace (c =? 110) with false by lia.
  rewrite E. reflexivity.
Qed.
Lemma reads_bool b : reads (JBool b) (lit_bool b).
Proof. split; [destruct b; discriminate|]. intros rest fuel Hf _. destruct fuel as [|f]; [destruct b; cbn in Hf; lia|]. destruct b; reflexivity. Qed.
