(* C11: type and property names *)
From Verif Require Import Base VariantModel NamesModel.

(* ---------- specification ---------- *)
(* the documented flags (cali_types.h:60-165): independent flags, one of four scopes, a level *)
Definition flags : list N := [1; 2; 64; 128; 256; 512; 1024; 2048].
Definition scopes : list N := [0; 12; 20; 24].
Fixpoint subset_or (l : list N) (sel : list bool) : N :=
  match l, sel with x :: r, b :: t => N.lor (if (b : bool) then x else 0) (subset_or r t) | _, _ => 0 end.
Definition documented (p : N) : Prop := exists sel sc lv, In sc scopes /\ lv < 8 /\ p = N.lor (subset_or flags sel) (N.lor sc (lv * 65536)).
(* words joined by a separator *)
Fixpoint join (sep : N) (l : list bytes) : bytes :=
  match l with [] => [] | [w] => w | w :: r => w ++ sep :: join sep r end.
Definition known (w : bytes) : Prop := In w (map (fun x => fst (fst x)) propmap).
Definition value_of (w : bytes) : N := match find (fun x => beqb w (fst (fst x))) propmap with Some x => snd (fst x) | None => 0 end.

(* ---------- proofs ---------- *)
Lemma beqb_eq a b : beqb a b = true <-> a = b.
Proof. unfold beqb. destruct (list_eq_dec N.eq_dec a b); split; intro H; auto; discriminate. Qed.

(* C11: types *)
Theorem C11_type_roundtrip : forall t, t <= MAXTYPE -> string2type (type2string t) = t.
Proof.
  intros t H. assert (C : forallb (fun i => string2type (type2string (N.of_nat i)) =? N.of_nat i) (seq 0 10) = true) by (vm_compute; reflexivity).
  rewrite forallb_forall in C. specialize (C (N.to_nat t)). rewrite N2Nat.id in C. apply N.eqb_eq. apply C. apply in_seq. unfold MAXTYPE in H. lia.
Qed.
Print Assumptions C11_type_roundtrip.
Theorem C11_type_names_exact : forall s t, string2type s = t -> t <> T_INV -> t <= MAXTYPE /\ type2string t = s.
Proof.
  intros s t H Hn. unfold string2type in H. destruct (find _ typemap) as [(n, v)|] eqn:E; [|congruence].
  apply find_some in E. destruct E as (Hi & E). apply beqb_eq in E. cbn [fst snd] in *. subst n v.
  assert (C : forallb (fun x => (snd x <=? MAXTYPE) && beqb (type2string (snd x)) (fst x)) typemap = true) by (vm_compute; reflexivity).
  rewrite forallb_forall in C. specialize (C _ Hi). apply andb_true_iff in C. destruct C as (C1 & C2). apply N.leb_le in C1. apply beqb_eq in C2. auto.
Qed.
Print Assumptions C11_type_names_exact.

(* scanning with the previous character *)
Fixpoint scan (prev : N) (s p : bytes) : bool :=
  if is_prefix p s then negb (alnum prev) && negb (alnum (nth (length p) s 0))
  else match s with [] => false | c :: r => scan c r p end.
Lemma scan_match s p : forall prev, scan prev s p = match strstr s p with
   | None => false | Some i => negb (alnum (match i with O => prev | S j => nth j s 0 end)) && negb (alnum (nth (i + length p) s 0)) end.
Proof.
  induction s as [|c r IH]; intro prev; cbn [scan strstr]; destruct (is_prefix p _) eqn:E; auto.
  rewrite IH. destruct (strstr r p) as [[|i]|]; auto.
Qed.
Lemma prop_match_scan s p : prop_match s p = scan 0 s p.
Proof. rewrite scan_match. unfold prop_match. destruct (strstr s p) as [[|i]|]; auto. Qed.
Lemma prefix_app p : forall x rest sep, ~ In sep p -> (rest = [] \/ exists r, rest = sep :: r) -> is_prefix p (x ++ rest) = is_prefix p x.
Proof.
  induction p as [|a p IH]; intros x rest sep Hs Hr; [destruct x, rest; reflexivity|].
  destruct x as [|b x]; cbn [app is_prefix].
  - destruct Hr as [->|(r & ->)]; [reflexivity|]. destruct (N.eqb_spec a sep); [|reflexivity]. exfalso. apply Hs. left; auto.
  - f_equal. apply (IH x rest sep); auto. intro Hi. apply Hs. right; auto.
Qed.
Lemma prefix_self p rest : is_prefix p (p ++ rest) = true.
Proof. induction p as [|a p IH]; cbn; auto. rewrite N.eqb_refl. exact IH. Qed.
Fixpoint no_occ (p w : bytes) : bool := negb (is_prefix p w) && match w with [] => true | _ :: r => no_occ p r end.
Lemma scan_skip p sep rest : ~ In sep p -> (rest = [] \/ exists r, rest = sep :: r) -> forall w prev, no_occ p w = true ->
  scan prev (w ++ rest) p = match rest with [] => false | _ :: r => scan sep r p end.
Proof.
  intros Hs Hr. induction w as [|c w IH]; intros prev H; cbn [no_occ] in H; apply andb_true_iff in H; destruct H as (H1 & H2).
  - cbn [app]. destruct Hr as [->|(r & ->)]; cbn [scan].
    + apply negb_true_iff in H1. rewrite H1. reflexivity.
    + rewrite <- (prefix_app p [] (sep :: r) sep) in H1 by eauto. cbn [app] in H1. apply negb_true_iff in H1. rewrite H1. reflexivity.
  - cbn [app]. cbn [scan]. change (c :: w ++ rest) with ((c :: w) ++ rest). rewrite (prefix_app p (c :: w) rest sep) by auto. apply negb_true_iff in H1. rewrite H1.
    apply IH; auto.
Qed.
Lemma scan_hit p prev rest sep : alnum prev = false -> alnum sep = false -> (rest = [] \/ exists r, rest = sep :: r) -> scan prev (p ++ rest) p = true.
Proof.
  intros Hp Hs Hr.
  assert (E : scan prev (p ++ rest) p = negb (alnum prev) && negb (alnum (nth (length p) (p ++ rest) 0))).
  { generalize (prefix_self p rest). destruct (p ++ rest) as [|a l] eqn:E; intro H; cbn [scan]; rewrite H; reflexivity. }
  rewrite E, Hp, app_nth2, Nat.sub_diag by lia. destruct Hr as [->|(r & ->)]; [reflexivity|]. cbn [nth]. rewrite Hs. reflexivity.
Qed.
Definition names : list bytes := map (fun x => fst (fst x)) propmap.
Lemma names_no_occ : forall p w, In p names -> In w names -> p <> w -> no_occ p w = true.
Proof.
  assert (C : forallb (fun p => forallb (fun w => beqb p w || no_occ p w) names) names = true) by (vm_compute; reflexivity).
  intros p w Hp Hw Hn. rewrite forallb_forall in C. specialize (C p Hp). rewrite forallb_forall in C. specialize (C w Hw).
  apply orb_true_iff in C. destruct C as [C|C]; auto. apply beqb_eq in C. contradiction.
Qed.
Definition sep_ok (sep : N) : Prop := alnum sep = false /\ sep <> 95.
Lemma names_no_sep p sep : In p names -> sep_ok sep -> ~ In sep p.
Proof.
  assert (C : forallb (fun p => forallb (fun c => alnum c || (c =? 95)) p) names = true) by (vm_compute; reflexivity).
  intros Hp (H1 & H2) Hi. rewrite forallb_forall in C. specialize (C p Hp). rewrite forallb_forall in C. specialize (C sep Hi).
  rewrite H1 in C. apply N.eqb_eq in C. contradiction.
Qed.
Lemma scan_join p sep : In p names -> sep_ok sep -> forall l prev, alnum prev = false -> Forall known l ->
  scan prev (join sep l) p = existsb (beqb p) l.
Proof.
  intros Hp Hs. induction l as [|w l IH]; intros prev Hprev Hk.
  - cbn [join scan existsb]. assert (Hne : p <> []). { intro E. subst p. assert (C : forallb (fun w => negb (beqb [] w)) names = true) by (vm_compute; reflexivity). rewrite forallb_forall in C. specialize (C _ Hp). discriminate. }
    destruct p; [congruence|reflexivity].
  - inversion Hk as [|? ? Hw Hl]; subst. destruct Hs as (Hs1 & Hs2).
    assert (J : join sep (w :: l) = w ++ match l with [] => [] | _ => sep :: join sep l end) by (destruct l; cbn [join]; [rewrite app_nil_r|]; reflexivity).
    rewrite J. cbn [existsb]. set (rest := match l with [] => [] | _ => sep :: join sep l end).
    assert (Hr : rest = [] \/ exists r, rest = sep :: r) by (unfold rest; destruct l; eauto).
    destruct (beqb p w) eqn:E.
    + apply beqb_eq in E. subst w. rewrite (scan_hit p prev rest sep); auto.
    + rewrite (scan_skip p sep rest); auto; [|apply names_no_sep; auto; split; auto|apply names_no_occ; auto; intro Z; apply beqb_eq in Z; congruence].
      unfold rest. destruct l as [|w' l]; [reflexivity|]. rewrite IH; auto.
Qed.
Lemma fold_lor {A} (f : A -> bool) (g : A -> N) l : forall acc i,
  N.testbit (fold_left (fun p x => if f x then N.lor p (g x) else p) l acc) i = N.testbit acc i || existsb (fun x => f x && N.testbit (g x) i) l.
Proof.
  induction l as [|x l IH]; intros acc i; cbn [fold_left existsb]; [rewrite orb_false_r; reflexivity|].
  rewrite IH. destruct (f x); cbn [andb]; [rewrite N.lor_spec, orb_assoc|]; reflexivity.
Qed.

(* C11: for any list of property names, in any order, repeated or not, joined by any separator
   character that is not part of names, the parsed property word is the union of the flags named *)
Theorem C11_property_list_parsed : forall sep l, sep_ok sep -> Forall known l ->
  forall i, N.testbit (string2prop (join sep l)) i = existsb (fun w => N.testbit (value_of w) i) l.
Proof.
  intros sep l Hs Hk i. unfold string2prop.
  rewrite (fold_lor (fun x => prop_match (join sep l) (fst (fst x))) (fun x => snd (fst x))). rewrite N.bits_0, orb_false_l.
  assert (VO : forall x, In x propmap -> value_of (fst (fst x)) = snd (fst x)).
  { intros x Hx. assert (C : forallb (fun x => value_of (fst (fst x)) =? snd (fst x)) propmap = true) by (vm_compute; reflexivity).
    rewrite forallb_forall in C. apply N.eqb_eq. auto. }
  apply eq_true_iff_eq. rewrite !existsb_exists. split.
  - intros (x & Hx & H). apply andb_true_iff in H. destruct H as (H1 & H2). rewrite prop_match_scan in H1.
    rewrite scan_join in H1; auto; [|apply (in_map (fun x => fst (fst x))); auto].
    apply existsb_exists in H1. destruct H1 as (w & Hw & E). apply beqb_eq in E. exists w. split; auto. rewrite <- E, VO; auto.
  - intros (w & Hw & H). rewrite Forall_forall in Hk. pose proof (Hk w Hw) as Kw. unfold known in Kw. apply in_map_iff in Kw. destruct Kw as (x & <- & Hx).
    exists x. split; auto. rewrite VO in H by auto. rewrite H, andb_true_r, prop_match_scan, scan_join; auto; [|apply (in_map (fun x => fst (fst x))); auto|apply Forall_forall; auto].
    apply existsb_exists. exists (fst (fst x)). split; auto. apply beqb_eq; auto.
Qed.
Print Assumptions C11_property_list_parsed.

(* what prop2string writes *)
Definition matching (m : list (bytes * N * N)) (prop : N) : list bytes := map (fun x => fst (fst x)) (filter (fun x => N.land prop (snd x) =? snd (fst x)) m).
Fixpoint total (m : list (bytes * N * N)) : N := match m with [] => 0 | x :: r => N.of_nat (length (fst (fst x))) + 1 + total r end.
Lemma join_snoc sep l w : l <> [] -> join sep (l ++ [w]) = join sep l ++ sep :: w.
Proof.
  induction l as [|a l IH]; intro H; [congruence|]. destruct l as [|b l]; [reflexivity|].
  change (join sep ((a :: b :: l) ++ [w])) with (a ++ sep :: join sep ((b :: l) ++ [w])). rewrite IH by discriminate.
  change (join sep (a :: b :: l)) with (a ++ sep :: join sep (b :: l)). rewrite <- app_assoc. reflexivity.
Qed.
Lemma p2s_loop_ok m prop len : (forall x, In x m -> fst (fst x) <> []) -> forall pre hi,
  N.of_nat (length (join 58 pre)) + total m + 1 <= len -> (forall w, In w pre -> w <> []) -> hi <= N.of_nat (length (join 58 pre)) + 1 ->
  p2_ret (p2s_loop m prop len (join 58 pre) hi) = Some (join 58 (pre ++ matching m prop)) /\
  p2_hi (p2s_loop m prop len (join 58 pre) hi) <= N.of_nat (length (join 58 (pre ++ matching m prop))) + 1 /\
  N.of_nat (length (join 58 (pre ++ matching m prop))) <= N.of_nat (length (join 58 pre)) + total m.
Proof.
  induction m as [|((str, v), mask) m IH]; intros Hm pre hi Hlen Hpre Hhi; cbn [p2s_loop matching filter map].
  - rewrite app_nil_r. cbn. repeat split; auto. lia.
  - cbn [total fst snd] in Hlen. cbn [snd fst]. destruct (N.land prop mask =? v).
    + cbn [map fst]. assert (Hstr : str <> []) by (apply (Hm (str, v, mask)); left; auto).
      assert (E : (if 0 <? N.of_nat (length (join 58 pre)) then join 58 pre ++ [58] else join 58 pre) ++ str = join 58 (pre ++ [str])).
      { destruct pre as [|w pre]; [reflexivity|]. rewrite join_snoc by discriminate. 
        assert (0 < N.of_nat (length (join 58 (w :: pre)))). { assert (w <> []) by (apply Hpre; left; auto). destruct w; [congruence|]. destruct pre; cbn; lia. }
        apply N.ltb_lt in H. rewrite H. rewrite <- app_assoc. reflexivity. }
      assert (Hl : len <? N.of_nat (length str) + (if 0 <? N.of_nat (length (join 58 pre)) then 2 else 1) = false).
      { apply N.ltb_ge. destruct (N.ltb_spec 0 (N.of_nat (length (join 58 pre)))); lia. }
      rewrite Hl, E. 
      assert (Lj : N.of_nat (length (join 58 (pre ++ [str]))) <= N.of_nat (length (join 58 pre)) + 1 + N.of_nat (length str)).
      { rewrite <- E, app_length. destruct (0 <? N.of_nat (length (join 58 pre))); rewrite ?app_length; cbn; lia. }
      assert (Ge : N.of_nat (length (join 58 pre)) <= N.of_nat (length (join 58 (pre ++ [str])))).
      { rewrite <- E, app_length. destruct (0 <? N.of_nat (length (join 58 pre))); rewrite ?app_length; cbn; lia. }
      destruct (IH (fun x Hx => Hm x (or_intror Hx)) (pre ++ [str]) (N.max hi (N.of_nat (length (join 58 (pre ++ [str]))) + 1))) as (A1 & A2 & A3).
      * lia.
      * intros w Hw. apply in_app_or in Hw. destruct Hw as [Hw|[<-|[]]]; auto.
      * lia.
      * rewrite <- app_assoc in A1, A2, A3. cbn [app] in A1, A2, A3. split; auto. split; auto. cbn [total fst]. unfold matching in A3 |- *. lia.
    + destruct (IH (fun x Hx => Hm x (or_intror Hx)) pre hi) as (A1 & A2 & A3); auto; [lia|]. split; auto. split; auto. cbn [total fst]. unfold matching in A3 |- *. lia.
Qed.
Lemma total_val : total propmap = 182. Proof. vm_compute. reflexivity. Qed.
Lemma names_nonempty x : In x propmap -> fst (fst x) <> [].
Proof.
  intros Hx E. assert (C : forallb (fun x => negb (beqb [] (fst (fst x)))) propmap = true) by (vm_compute; reflexivity).
  rewrite forallb_forall in C. specialize (C x Hx). rewrite E in C. discriminate.
Qed.
(* C11: with a buffer of at least 183 bytes (the library uses 256), for every property word,
   documented or not, nothing is written beyond the buffer, and the output is the list of the
   matching names *)
Theorem C11_prop2string_in_bounds : forall prop len, 183 <= len ->
  p2_hi (prop2string prop len) <= len /\ p2_ret (prop2string prop len) = Some (join 58 (matching propmap prop)).
Proof.
  intros prop len H. unfold prop2string. pose proof total_val as TV. pose proof names_nonempty as NE.
  revert TV NE. generalize propmap as m. intros m TV NE.
  destruct (p2s_loop_ok m prop len NE [] 0) as (A1 & A2 & A3).
  - cbn [join length]. rewrite TV. lia.
  - intros w [].
  - lia.
  - cbn [app join length] in A1, A2, A3. rewrite TV in A3. split; [lia|exact A1].
Qed.
Print Assumptions C11_prop2string_in_bounds.

Lemma subset_bits l : forall sel, exists sel', length sel' = length l /\ subset_or l sel = subset_or l sel'.
Proof.
  induction l as [|x l IH]; intro sel; [exists []; split; auto; destruct sel; reflexivity|].
  destruct sel as [|b t]; [exists (repeat false (S (length l))); split; [apply repeat_length|]|destruct (IH t) as (s' & H1 & H2); exists (b :: s'); cbn; rewrite H2; auto].
  cbn [subset_or]. symmetry. clear. cbn [repeat subset_or]. rewrite N.lor_0_l. induction l as [|y l IH]; [reflexivity|]. cbn [length repeat subset_or]. rewrite N.lor_0_l. exact IH.
Qed.
Fixpoint all_sels (n : nat) : list (list bool) := match n with O => [[]] | S k => map (cons true) (all_sels k) ++ map (cons false) (all_sels k) end.
Lemma all_sels_in n : forall l, length l = n -> In l (all_sels n).
Proof.
  induction n as [|n IH]; intros [|b l] H; cbn in *; try discriminate; auto. apply in_or_app. injection H as H.
  destruct b; [left|right]; apply in_map; auto.
Qed.
Lemma in_levels lv : lv < 8 -> In lv [0;1;2;3;4;5;6;7].
Proof. intro H. assert (lv = 0 \/ lv = 1 \/ lv = 2 \/ lv = 3 \/ lv = 4 \/ lv = 5 \/ lv = 6 \/ lv = 7) as C by lia. cbn. intuition. Qed.
(* the union of the values of the matching entries is the property word *)
Definition values_or (prop : N) : N := fold_left (fun p x => if N.land prop (snd x) =? snd (fst x) then N.lor p (snd (fst x)) else p) propmap 0.
Lemma documented_values p : documented p -> values_or p = p.
Proof.
  intros (sel & sc & lv & Hsc & Hlv & ->). destruct (subset_bits flags sel) as (sel' & Hl & ->). apply all_sels_in in Hl. apply in_levels in Hlv.
  assert (C : forallb (fun s => forallb (fun sc => forallb (fun lv => let p := N.lor (subset_or flags s) (N.lor sc (lv * 65536)) in values_or p =? p) [0;1;2;3;4;5;6;7]) scopes) (all_sels 8) = true) by (vm_compute; reflexivity).
  rewrite forallb_forall in C. specialize (C _ Hl). rewrite forallb_forall in C. specialize (C _ Hsc). rewrite forallb_forall in C. specialize (C _ Hlv).
  cbv zeta in C. apply N.eqb_eq. exact C.
Qed.
(* C11: every combination of documented flags survives the conversion to a string and back *)
Theorem C11_property_roundtrip : forall p len, documented p -> 183 <= len ->
  exists s, p2_ret (prop2string p len) = Some s /\ string2prop s = p.
Proof.
  intros p len Hd Hl. destruct (C11_prop2string_in_bounds p len Hl) as (_ & E). exists (join 58 (matching propmap p)). split; auto.
  rewrite <- (documented_values p Hd) at 2. apply N.bits_inj. intro i.
  rewrite C11_property_list_parsed.
  - unfold values_or. rewrite (fold_lor (fun x => N.land p (snd x) =? snd (fst x)) (fun x => snd (fst x))), N.bits_0, orb_false_l.
    unfold matching. assert (VO : forall x, In x propmap -> value_of (fst (fst x)) = snd (fst x)).
    { intros x Hx. assert (C : forallb (fun x => value_of (fst (fst x)) =? snd (fst x)) propmap = true) by (vm_compute; reflexivity).
      rewrite forallb_forall in C. apply N.eqb_eq. auto. }
    revert VO. generalize propmap as m. induction m as [|x m IH]; intro VO; cbn [filter map existsb]; auto.
    destruct (N.land p (snd x) =? snd (fst x)); cbn [map existsb andb]; rewrite IH by (intros; apply VO; right; auto); rewrite ?VO by (left; auto); reflexivity.
  - split; [reflexivity|discriminate].
  - unfold matching, known. apply Forall_forall. intros w Hw. apply in_map_iff in Hw. destruct Hw as (x & <- & Hx). apply filter_In in Hx. apply (in_map (fun x => fst (fst x))). tauto.
Qed.
Print Assumptions C11_property_roundtrip.

(* Findings: (1) the remaining buffer length is never reduced: with a 16-byte buffer 24 bytes are
   written for the property word 1, and success is reported *)
Theorem C11_small_buffer_refuted : p2_hi (prop2string 1 16) = 24 /\ p2_ret (prop2string 1 16) <> None.
Proof. vm_compute. split; [reflexivity|discriminate]. Qed.
Print Assumptions C11_small_buffer_refuted.
(* (2) only the first occurrence of a name is examined: "xhidden:hidden" does not set the flag *)
Theorem C11_first_occurrence_refuted : string2prop [120;104;105;100;100;101;110;58;104;105;100;100;101;110] = 0.
Proof. vm_compute. reflexivity. Qed.
Print Assumptions C11_first_occurrence_refuted.
(* non-vacuity *)
Example C11_ex : documented (1 + 20 + 256 + 3 * 65536) /\ string2prop (join 58 (matching propmap (1 + 20 + 256 + 3 * 65536))) = 1 + 20 + 256 + 3 * 65536.
Proof. split; [exists [true; false; false; false; true; false; false; false], 20, 3; vm_compute; intuition|vm_compute; reflexivity]. Qed.
