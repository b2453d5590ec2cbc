(* Proofs about the text format: digits, escaping, line parsing *)
From Verif Require Import Base VariantModel VariantSpec NamesModel TextModel.

(* ---------- digits ---------- *)
Definition dchar (base c : N) : Prop := exists d, digval base c = Some d.
Definition dv (base c : N) : N := match digval base c with Some d => d | None => 0 end.
Definition dfold (base : N) (ds : bytes) (a : N) : N := fold_left (fun a c => a * base + dv base c) ds a.

Definition digch (d : N) : N := if d <? 10 then 48 + d else 87 + d.
Lemma digval_digch base d : base = 10 \/ base = 16 -> d < base -> digval base (digch d) = Some d.
Proof.
  intros Hb Hd. unfold digval, hexval, isdigit, digch.
  destruct (N.ltb_spec d 10).
  - replace ((48 <=? 48 + d) && (48 + d <=? 57)) with true by lia.
    replace (48 + d - 48) with d by lia. replace (d <? base) with true by lia. reflexivity.
  - replace ((48 <=? 87 + d) && (87 + d <=? 57)) with false by lia.
    replace ((97 <=? 87 + d) && (87 + d <=? 102)) with true by lia.
    replace (87 + d - 87) with d by lia. replace (d <? base) with true by lia. reflexivity.
Qed.
Lemma dfold_app base a b k : dfold base (a ++ b) k = dfold base b (dfold base a k).
Proof. apply fold_left_app. Qed.
Lemma wr_digits_spec base : base = 10 \/ base = 16 -> forall fuel n acc l, wr_digits base fuel n acc = Some l ->
  exists ds, l = ds ++ acc /\ ds <> [] /\ Forall (dchar base) ds /\ dfold base ds 0 = n /\ (n <> 0 -> match ds with c :: _ => c <> 48 | [] => True end) /\ (n = 0 -> ds = [48]).
Proof.
  intros Hb. induction fuel as [|f IH]; intros n acc l H; [discriminate|]. cbn [wr_digits] in H.
  fold (digch (n mod base)) in H.
  assert (Hm : n mod base < base) by (apply N.mod_lt; lia).
  pose proof (digval_digch base (n mod base) Hb Hm) as Hd.
  assert (Hdm : n = base * (n / base) + n mod base) by (apply N.div_mod; lia).
  destruct (N.ltb_spec 0 (n / base)).
  - apply IH in H. destruct H as (ds & -> & Hn & Hf & Hv & Hz & _). exists (ds ++ [digch (n mod base)]). split; [rewrite <- app_assoc; reflexivity|].
    split; [destruct ds; discriminate|]. split; [apply Forall_app; split; auto; constructor; [eexists; eauto|constructor]|].
    split. { rewrite dfold_app, Hv. unfold dfold; cbn [fold_left]. unfold dv; rewrite Hd. lia. }
    split; [|intro E; exfalso; assert (n / base = 0) by (rewrite E; apply N.div_0_l; lia); lia].
    intros _. destruct ds; [congruence|]. cbn [app]. apply Hz. lia.
  - injection H as <-. assert (E0 : n / base = 0) by lia. rewrite E0 in Hdm. assert (En : n mod base = n) by lia. rewrite En in *.
    exists [digch n]. split; [reflexivity|]. split; [discriminate|]. split; [constructor; [eexists; eauto|constructor]|].
    split; [unfold dfold; cbn [fold_left]; unfold dv; rewrite Hd; lia|]. split.
    + intro Hz. unfold digch. destruct (N.ltb_spec n 10); lia.
    + intros ->. reflexivity.
Qed.
Lemma wr_digits_some base : base = 10 \/ base = 16 -> forall fuel n acc, fuel <> O -> n < base ^ N.of_nat fuel -> exists l, wr_digits base fuel n acc = Some l.
Proof.
  intros Hb. induction fuel as [|f IH]; intros n acc Hf H; [congruence|]. cbn [wr_digits].
  destruct (N.ltb_spec 0 (n / base)); [|eauto]. apply IH.
  - intro E. subst f. change (N.of_nat 1) with 1 in H. rewrite N.pow_1_r in H. assert (n / base = 0) by (apply N.div_small; lia). lia.
  - rewrite Nat2N.inj_succ, N.pow_succ_r' in H. apply N.div_lt_upper_bound; lia.
Qed.
(* write_uint64 never leaves its 24-byte buffer, and writes the digits of the number *)
Lemma dec_spec n : u64_ok n -> write_uint64 n = Some (dec n) /\ dec n <> [] /\ Forall (dchar 10) (dec n) /\ dfold 10 (dec n) 0 = n.
Proof.
  intro H. destruct (wr_digits_some 10 (or_introl eq_refl) 24 n []) as (l & E); [discriminate|change (10 ^ N.of_nat 24) with 1000000000000000000000000; unfold u64_ok, W64 in H; lia|].
  unfold dec, write_uint64. rewrite E. apply wr_digits_spec in E; auto. destruct E as (ds & -> & A & B & C & _). rewrite app_nil_r. auto.
Qed.
Lemma hex_spec n : u64_ok n -> hex n <> [] /\ Forall (dchar 16) (hex n) /\ dfold 16 (hex n) 0 = n /\ (n <> 0 -> match hex n with c :: _ => c <> 48 | [] => True end) /\ (n = 0 -> hex n = [48]).
Proof.
  intro H. destruct (wr_digits_some 16 (or_intror eq_refl) 24 n []) as (l & E); [discriminate|change (16 ^ N.of_nat 24) with 79228162514264337593543950336; unfold u64_ok, W64 in H; lia|].
  unfold hex. rewrite E. apply wr_digits_spec in E; auto. destruct E as (ds & -> & A & B & C & D & F). rewrite app_nil_r. auto.
Qed.
Lemma dchar10 c : dchar 10 c -> 48 <= c <= 57 /\ dv 10 c = c - 48.
Proof.
  intros (d & H). unfold dv. rewrite H. unfold digval, hexval, isdigit in H.
  destruct ((48 <=? c) && (c <=? 57)) eqn:E1; [destruct (c - 48 <? 10); [injection H as <-; lia|discriminate]|].
  destruct ((97 <=? c) && (c <=? 102)) eqn:E2; [destruct (N.ltb_spec (c - 87) 10); [lia|discriminate]|].
  destruct ((65 <=? c) && (c <=? 70)) eqn:E3; [destruct (N.ltb_spec (c - 55) 10); [lia|discriminate]|discriminate].
Qed.
Lemma dchar16 c : dchar 16 c -> (48 <= c <= 57) \/ (97 <= c <= 102) \/ (65 <= c <= 70).
Proof.
  intros (d & H). unfold digval, hexval, isdigit in H.
  destruct ((48 <=? c) && (c <=? 57)) eqn:E1; [lia|].
  destruct ((97 <=? c) && (c <=? 102)) eqn:E2; [lia|].
  destruct ((65 <=? c) && (c <=? 70)) eqn:E3; [lia|discriminate].
Qed.

(* ---------- terminators ---------- *)
Definition term (rest : bytes) : Prop := match rest with [] => True | c :: _ => c = c_eq \/ c = c_comma end.
Lemma wrap_step a d : wrap64 (wrap64 a * 10 + d) = wrap64 (a * 10 + d).
Proof. unfold wrap64. rewrite <- N.add_mod_idemp_l, N.mul_mod_idemp_l, N.add_mod_idemp_l by discriminate. reflexivity. Qed.
Lemma char_digit_ok c : 48 <= c <= 57 -> char_digit c = c - 48.
Proof.
  intro H. unfold char_digit. destruct (N.ltb_spec c 128); [|lia]. unfold wrap64. replace (c + W64 - 48) with (c - 48 + 1 * W64) by (unfold W64; lia).
  rewrite N.mod_add by discriminate. apply N.mod_small. unfold W64; lia.
Qed.
Lemma read_u64_digits ds rest : term rest -> Forall (dchar 10) ds -> forall a, read_u64 (ds ++ rest) (wrap64 a) = (wrap64 (dfold 10 ds a), rest).
Proof.
  intros Ht. induction ds as [|c ds IH]; intros Hf a.
  - cbn [app]. unfold dfold; cbn [fold_left]. destruct rest as [|x r]; [reflexivity|]. cbn [read_u64]. destruct Ht as [->| ->]; reflexivity.
  - inversion Hf as [|? ? Hc Hd]; subst. destruct (dchar10 c Hc) as (Hr & Hv). cbn [app read_u64].
    unfold c_eq, c_comma. replace ((c =? 61) || (c =? 44)) with false by lia.
    rewrite char_digit_ok by lia. rewrite wrap_step, IH by auto. unfold dfold; cbn [fold_left]. rewrite Hv. reflexivity.
Qed.
Lemma read_u64_dec n rest : u64_ok n -> term rest -> read_u64 (dec n ++ rest) 0 = (n, rest).
Proof.
  intros H Ht. destruct (dec_spec n H) as (_ & _ & Hf & Hv). change 0 with (wrap64 0). rewrite read_u64_digits by auto. rewrite Hv, wrap64_id by auto. reflexivity.
Qed.

(* ---------- escaping ---------- *)
(* the characters the format can carry *)
Definition storable (c : N) : bool := ((32 <=? c) && (c <? 128)) || (c =? c_nl).
Lemma word_loop rest : term rest -> forall s w, bytes_ok s -> read_word_loop (esc s ++ rest) false w = (rev w ++ filter storable s, rest).
Proof.
  intros Ht. induction s as [|c s IH]; intros w Hb.
  - cbn [esc flat_map app filter]. rewrite app_nil_r. destruct rest as [|x r]; [reflexivity|]. cbn [read_word_loop]. destruct Ht as [->| ->]; reflexivity.
  - inversion Hb as [|? ? Hc Hs]; subst. unfold esc. cbn [flat_map]. fold (esc s). rewrite <- app_assoc.
    unfold esc1, ctrl. cbn [filter]. unfold storable at 1. unfold c_nl, c_bs, c_comma, c_eq, c_n in *.
    destruct (N.eqb_spec c 10) as [->|H10].
    + change ((10 <? 32) || (128 <=? 10)) with true. change ((32 <=? 10) && (10 <? 128) || true) with true. cbn iota.
      change ([92; 110] ++ esc s ++ rest) with (92 :: 110 :: (esc s ++ rest)). cbn [read_word_loop]. unfold c_eq, c_comma, c_bs, c_n, c_nl.
      change ((92 =? 61) || (92 =? 44)) with false. change (92 =? 92) with true. change (110 =? 110) with true. cbn iota.
      rewrite IH by auto. cbn [rev]. rewrite <- app_assoc. reflexivity.
    + destruct (N.ltb_spec c 32); cbn [orb].
      * replace ((32 <=? c) && (c <? 128) || false) with false by lia. cbn [app]. apply IH; auto.
      * destruct (N.leb_spec 128 c).
        { replace ((32 <=? c) && (c <? 128) || false) with false by lia. cbn [app]. apply IH; auto. }
        replace ((32 <=? c) && (c <? 128) || false) with true by lia.
        destruct ((c =? 92) || (c =? 44) || (c =? 61)) eqn:E.
        { change ([92; c] ++ esc s ++ rest) with (92 :: c :: (esc s ++ rest)). cbn [read_word_loop]. unfold c_eq, c_comma, c_bs, c_n. 
          change ((92 =? 61) || (92 =? 44)) with false. change (92 =? 92) with true. cbn iota.
          replace (c =? 110) with false by lia. rewrite IH by auto. cbn [rev]. rewrite <- app_assoc. reflexivity. }
        { change ([c] ++ esc s ++ rest) with (c :: (esc s ++ rest)). cbn [read_word_loop]. unfold c_eq, c_comma, c_bs.
          replace ((c =? 61) || (c =? 44)) with false by lia. replace (c =? 92) with false by lia. rewrite IH by auto. cbn [rev]. rewrite <- app_assoc. reflexivity. }
Qed.
Lemma read_escaped s rest : term rest -> bytes_ok s -> read_escaped_word (esc s ++ rest) = (filter storable s, rest).
Proof. intros. unfold read_escaped_word. rewrite word_loop by auto. reflexivity. Qed.
Lemma filter_id {A} (f : A -> bool) l : forallb f l = true -> filter f l = l.
Proof. induction l as [|x l IH]; cbn; auto. intro H. apply andb_true_iff in H. destruct H as (-> & H). rewrite IH; auto. Qed.
Lemma esc_chars s c : In c (esc s) -> 32 <= c < 128.
Proof.
  unfold esc. intro H. apply in_flat_map in H. destruct H as (x & _ & H). unfold esc1, ctrl in H.
  destruct ((x <? 32) || (128 <=? x)) eqn:E.
  - destruct (x =? c_nl); [|contradiction]. destruct H as [<-|[<-|[]]]; unfold c_bs, c_n; lia.
  - destruct ((x =? c_bs) || (x =? c_comma) || (x =? c_eq)).
    + destruct H as [<-|[<-|[]]]; unfold c_bs; lia.
    + destruct H as [<-|[]]; lia.
Qed.
Definition noesc (c : N) : bool := (32 <=? c) && (c <? 128) && negb ((c =? c_bs) || (c =? c_comma) || (c =? c_eq)).
Lemma esc_id s : forallb noesc s = true -> esc s = s.
Proof.
  induction s as [|c s IH]; [reflexivity|]. cbn [forallb]. intro H. apply andb_true_iff in H. destruct H as (H1 & H2). unfold esc. cbn [flat_map]. fold (esc s). rewrite IH by auto.
  unfold noesc in H1. unfold esc1, ctrl. replace ((c <? 32) || (128 <=? c)) with false by lia. destruct ((c =? c_bs) || (c =? c_comma) || (c =? c_eq)); [|reflexivity]. rewrite andb_false_r in H1. discriminate.
Qed.
Lemma noesc_storable s : forallb noesc s = true -> forallb storable s = true.
Proof. rewrite !forallb_forall. intros H c Hc. specialize (H c Hc). unfold noesc in H. unfold storable. lia. Qed.
Lemma dchar_noesc base ds : base = 10 \/ base = 16 -> Forall (dchar base) ds -> forallb noesc ds = true.
Proof.
  intros Hb Hf. apply forallb_forall. rewrite Forall_forall in Hf. intros c Hc. specialize (Hf c Hc). unfold noesc, c_bs, c_comma, c_eq.
  destruct Hb; subst base; [apply dchar10 in Hf|apply dchar16 in Hf]; lia.
Qed.

(* ---------- lists ---------- *)
Lemma read_list_spec {A B} (elem : bytes -> A * bytes) (wr : B -> bytes) (f : B -> A) (P : B -> Prop) :
  (forall b rest, P b -> term rest -> elem (wr b ++ rest) = (f b, rest)) ->
  forall l b rest fuel, P b -> Forall P l -> (rest = [] \/ exists r, rest = c_comma :: r) -> (length l <= fuel)%nat ->
  read_list elem fuel (wr b ++ eq_list (map wr l) ++ rest) = (f b :: map f l, rest).
Proof.
  intros He. induction l as [|x l IH]; intros b rest fuel Hb Hl Hr Hf.
  - cbn [map eq_list flat_map app]. assert (term rest) by (destruct Hr as [->|(r & ->)]; cbn; auto).
    destruct fuel; cbn [read_list]; rewrite He by auto; [reflexivity|]. destruct Hr as [->|(r & ->)]; reflexivity.
  - inversion Hl as [|? ? Hx Hl']; subst. destruct fuel as [|fuel]; [cbn in Hf; lia|]. cbn [read_list map]. unfold eq_list. cbn [flat_map]. fold (eq_list (map wr l)).
    cbn [app]. rewrite <- app_assoc. rewrite He; [|auto|cbn; auto]. cbn [matches_c]. change (c_eq =? c_eq) with true. cbn iota.
    rewrite IH; auto. cbn in Hf; lia.
Qed.
Lemma eq_list_length l : (length l <= length (eq_list l))%nat.
Proof. unfold eq_list. induction l as [|x l IH]; cbn [flat_map length]; [lia|]. rewrite app_length. cbn [length]. lia. Qed.

(* ---------- matches ---------- *)
Lemma matches_app key r : r <> [] -> matches key (key ++ r) = Some r.
Proof.
  intro H. unfold matches. rewrite app_length. destruct r as [|c r]; [congruence|]. cbn [length].
  replace (length key <? length key + S (length r))%nat with true by (symmetry; apply Nat.ltb_lt; lia).
  assert (is_prefix key (key ++ c :: r) = true) as ->. { clear. induction key as [|a k IH]; cbn; auto. rewrite N.eqb_refl. exact IH. }
  rewrite skipn_app_exact. reflexivity.
Qed.
Lemma matches_diff key s : is_prefix key s = false -> matches key s = None.
Proof. intro H. unfold matches. rewrite H, andb_false_r. reflexivity. Qed.
Lemma matches_short key : matches key key = None.
Proof. unfold matches. rewrite Nat.ltb_irrefl. reflexivity. Qed.
