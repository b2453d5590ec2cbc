(* C85: the text of containers of integers is unambiguous; numbers; the import loop *)
From Verif Require Import Base VariantModel VariantSpec VariantProofs TextModel TextProofs AdiakModel AdiakSpec.

Definition dig (c : N) : Prop := 48 <= c <= 57.
(* what follows an integer *)
Definition nodig (r : bytes) : Prop := match r with [] => True | c :: _ => ~ dig c end.
Lemma split_digits a b r1 r2 : Forall dig a -> Forall dig b -> nodig r1 -> nodig r2 -> a ++ r1 = b ++ r2 -> a = b /\ r1 = r2.
Proof.
  intros Ha. revert b. induction Ha as [|x a Hx Ha IH]; intros b Hb H1 H2 E; destruct Hb as [|y b Hy Hb]; cbn [app] in E.
  - auto.
  - subst r1. cbn [nodig] in H1. contradiction.
  - subst r2. cbn [nodig] in H2. contradiction.
  - injection E as -> E. destruct (IH b Hb H1 H2 E) as (-> & ->). auto.
Qed.
Lemma dec_digs n : u64_ok n -> dec n <> [] /\ Forall dig (dec n) /\ dfold 10 (dec n) 0 = n.
Proof.
  intro H. destruct (dec_spec n H) as (_ & A & B & C). split; auto. split; auto. eapply Forall_impl; [|exact B]. intros c Hc. exact (proj1 (dchar10 c Hc)).
Qed.
Lemma dec_inj n m r1 r2 : u64_ok n -> u64_ok m -> nodig r1 -> nodig r2 -> dec n ++ r1 = dec m ++ r2 -> n = m /\ r1 = r2.
Proof.
  intros Hn Hm H1 H2 E. destruct (dec_digs n Hn) as (_ & A & B), (dec_digs m Hm) as (_ & C & D). destruct (split_digits _ _ _ _ A C H1 H2 E) as (E1 & ->). rewrite E1 in B. split; congruence.
Qed.
Lemma dec_head n r : u64_ok n -> exists c l, dec n ++ r = c :: l /\ dig c.
Proof. intro H. destruct (dec_digs n H) as (A & B & _). destruct (dec n) as [|c l]; [congruence|]. apply Forall_cons_iff in B as (B & _). exists c, (l ++ r). auto. Qed.
Lemma zabs_ok z : s64_ok z -> u64_ok (Z.to_N z) /\ u64_ok (Z.to_N (- z)).
Proof. unfold s64_ok, u64_ok, W64. lia. Qed.
Lemma zdec_inj z z' r1 r2 : s64_ok z -> s64_ok z' -> nodig r1 -> nodig r2 -> zdec z ++ r1 = zdec z' ++ r2 -> z = z' /\ r1 = r2.
Proof.
  intros Hz Hz' H1 H2 E. destruct (zabs_ok z Hz) as (A & B), (zabs_ok z' Hz') as (C & D). unfold zdec in E. destruct (Z.ltb_spec z 0), (Z.ltb_spec z' 0); cbn [app] in E.
  - injection E as E. destruct (dec_inj _ _ _ _ B D H1 H2 E) as (E1 & ->). split; [lia|reflexivity].
  - exfalso. destruct (dec_head (Z.to_N z') r2 C) as (c & l & E1 & Hc). rewrite E1 in E. injection E as <- _. unfold dig in Hc. lia.
  - exfalso. destruct (dec_head (Z.to_N z) r1 A) as (c & l & E1 & Hc). rewrite E1 in E. injection E as -> _. unfold dig in Hc. lia.
  - destruct (dec_inj _ _ _ _ A C H1 H2 E) as (E1 & ->). split; [lia|reflexivity].
Qed.
(* conversions between unsigned and the signed union members *)
Lemma as_u64_s64 n : u64_ok n -> as_u64 (as_s64 n) = n.
Proof.
  unfold u64_ok, W64, as_u64, as_s64, s64. intro H. destruct (N.ltb_spec n 9223372036854775808).
  - rewrite Z.mod_small by lia. lia.
  - replace (Z.of_N n - 18446744073709551616)%Z with (Z.of_N n + (-1) * 18446744073709551616)%Z by lia. rewrite Z.mod_add by lia. rewrite Z.mod_small by lia. lia.
Qed.
Lemma as_uint_int n : n < 4294967296 -> as_uint (as_int n) = n.
Proof.
  unfold as_uint, as_int, trunc32. intro H. destruct (Z.lt_ge_cases (Z.of_N n) 2147483648).
  - rewrite (Z.mod_small (Z.of_N n + 2147483648)) by lia. replace (Z.of_N n + 2147483648 - 2147483648)%Z with (Z.of_N n) by lia. rewrite Z.mod_small by lia. lia.
  - replace (Z.of_N n + 2147483648)%Z with (Z.of_N n - 2147483648 + 1 * 4294967296)%Z by lia. rewrite Z.mod_add by lia. rewrite (Z.mod_small (Z.of_N n - 2147483648)) by lia.
    replace (Z.of_N n - 2147483648 - 2147483648)%Z with (Z.of_N n + (-1) * 4294967296)%Z by lia. rewrite Z.mod_add by lia. rewrite Z.mod_small by lia. lia.
Qed.
Lemma as_int_small n : n < 2147483648 -> as_int n = Z.of_N n.
Proof. unfold as_int, trunc32. intro H. rewrite Z.mod_small by lia. lia. Qed.
Lemma trunc32_id z : int_range z -> trunc32 z = z.
Proof. unfold int_range, trunc32. intro H. rewrite Z.mod_small by lia. lia. Qed.
Lemma as_u64_id z : (0 <= z < 18446744073709551616)%Z -> Z.of_N (as_u64 z) = z.
Proof. unfold as_u64. intro H. rewrite Z.mod_small by lia. lia. Qed.

Section Ind.
Context (P : aval -> Prop).
Context (h1 : forall z, P (ALong z)) (h2 : forall n, P (AULong n)) (h3 : forall z, P (AInt z)) (h4 : forall n, P (AUInt n)) (h5 : forall z, P (ALongLong z)) (h6 : forall n, P (AULongLong n))
  (h7 : forall b, P (ADouble b)) (h8 : forall z, P (ADate z)) (h9 : forall b, P (ATimeval b)) (h10 : forall s, P (AStr s)) (h11 : forall a b, P a -> P b -> P (ARange a b))
  (h12 : forall l, Forall P l -> P (ASet l)) (h13 : forall l, Forall P l -> P (AList l)) (h14 : forall l, Forall P l -> P (ATuple l)) (h15 : P AUnset) (h16 : P AOther).
Fixpoint aval_all (v : aval) : P v :=
  let go := fix go (l : list aval) : Forall P l := match l with [] => Forall_nil P | v :: l => Forall_cons v (aval_all v) (go l) end in
  match v with
  | ALong z => h1 z | AULong n => h2 n | AInt z => h3 z | AUInt n => h4 n | ALongLong z => h5 z | AULongLong n => h6 n | ADouble b => h7 b | ADate z => h8 z | ATimeval b => h9 b | AStr s => h10 s
  | ARange a b => h11 a b (aval_all a) (aval_all b) | ASet l => h12 l (go l) | AList l => h13 l (go l) | ATuple l => h14 l (go l) | AUnset => h15 | AOther => h16
  end.
End Ind.

Section Text.
Context (dfmt : N -> bytes).
Notation unpack := (unpack dfmt).
(* the first character of an element *)
Definition first_ok (c : N) : Prop := dig c \/ c = 45 \/ c = 91 \/ c = 123 \/ c = 40.
Lemma zdec_head z r : s64_ok z -> exists c l, zdec z ++ r = c :: l /\ first_ok c.
Proof.
  intro H. destruct (zabs_ok z H) as (A & B). unfold zdec. destruct (z <? 0)%Z; [exists 45, (dec (Z.to_N (- z)) ++ r); split; [reflexivity|right; left; reflexivity]|].
  destruct (dec_head (Z.to_N z) r A) as (c & l & E & Hc). exists c, l. split; auto. left. exact Hc.
Qed.
Lemma int_s64 z : int_range z -> s64_ok z.
Proof. unfold int_range, s64_ok. lia. Qed.
Lemma uint_u64 n : n < 4294967296 -> u64_ok n.
Proof. unfold u64_ok, W64. lia. Qed.
Lemma head_ok v : forall t r, has_type t v -> exists c l, unpack v ++ r = c :: l /\ first_ok c.
Proof.
  assert (D : forall n r, u64_ok n -> exists c l, dec n ++ r = c :: l /\ first_ok c) by (intros n r H; destruct (dec_head n r H) as (c & l & E & Hc); exists c, l; split; auto; left; exact Hc).
  induction v using aval_all; intros t r H'; destruct t; cbn [has_type] in H'; try contradiction; cbn [AdiakModel.unpack].
  - apply zdec_head. exact H'.
  - rewrite as_u64_s64 by exact H'. apply D. exact H'.
  - apply zdec_head, int_s64, H'.
  - rewrite as_uint_int by exact H'. apply D, uint_u64, H'.
  - apply zdec_head. exact H'.
  - rewrite as_u64_s64 by exact H'. apply D. exact H'.
  - apply zdec_head. exact H'.
  - destruct H' as (Ha & Hb). rewrite <- app_assoc. eapply IHv1. exact Ha.
  - eexists 91, _. split; [reflexivity|]. right; right; left; reflexivity.
  - eexists 123, _. split; [reflexivity|]. right; right; right; left; reflexivity.
  - eexists 40, _. split; [reflexivity|]. right; right; right; right; reflexivity.
Qed.
Definition inj (v : aval) : Prop := forall t w r1 r2, has_type t v -> has_type t w -> nodig r1 -> nodig r2 -> unpack v ++ r1 = unpack w ++ r2 -> v = w /\ r1 = r2.
Definition typed (v : aval) : Prop := exists t, has_type t v.
Fixpoint comp (l l' : list aval) : Prop :=
  match l, l' with
  | v :: l, w :: l' => (exists t, has_type t v /\ has_type t w) /\ comp l l'
  | [], l' => Forall typed l'
  | l, [] => Forall typed l
  end.
Definition closing (c : N) : Prop := c = 93 \/ c = 125 \/ c = 41.
Lemma commas_cons x l r : commas (x :: l) ++ r = x ++ match l with [] => r | _ => 44 :: commas l ++ r end.
Proof. destruct l as [|y l]; cbn [commas]; [reflexivity|]. rewrite <- app_assoc. reflexivity. Qed.
Lemma close_first c : closing c -> first_ok c -> False.
Proof. unfold closing, first_ok, dig. intros. lia. Qed.
Lemma tail_nodig cl (l : list bytes) r : closing cl -> nodig (match l with [] => cl :: r | _ => 44 :: commas l ++ cl :: r end).
Proof. unfold closing. intro H. destruct l; cbn [nodig]; unfold dig; lia. Qed.
Lemma commas_inj cl l : closing cl -> Forall inj l -> forall l' r1 r2, comp l l' -> commas (map unpack l) ++ cl :: r1 = commas (map unpack l') ++ cl :: r2 -> l = l' /\ r1 = r2.
Proof.
  intros Hc F. induction F as [|v l Hv F IH]; intros [|w l'] r1 r2 C E; cbn [comp map] in *.
  - cbn [commas app] in E. injection E as ->. auto.
  - apply Forall_cons_iff in C as ((t & C) & _). rewrite commas_cons in E. cbn [commas app] in E. destruct (head_ok w t (match map unpack l' with [] => cl :: r2 | _ => 44 :: commas (map unpack l') ++ cl :: r2 end) C) as (c & k & E1 & Hf). rewrite E1 in E. injection E as -> _. destruct (close_first _ Hc Hf).
  - apply Forall_cons_iff in C as ((t & C) & _). rewrite commas_cons in E. cbn [commas app] in E. destruct (head_ok v t (match map unpack l with [] => cl :: r1 | _ => 44 :: commas (map unpack l) ++ cl :: r1 end) C) as (c & k & E1 & Hf). rewrite E1 in E. injection E as -> _. destruct (close_first _ Hc Hf).
  - destruct C as ((t & Tv & Tw) & C). rewrite !commas_cons in E. destruct (Hv t w _ _ Tv Tw (tail_nodig cl _ r1 Hc) (tail_nodig cl _ r2 Hc) E) as (-> & E1).
    destruct l as [|v2 l], l' as [|w2 l']; cbn [map] in E1.
    + injection E1 as ->. auto.
    + injection E1 as E1 _. unfold closing in Hc. lia.
    + injection E1 as E1 _. unfold closing in Hc. lia.
    + injection E1 as E1. destruct (IH (w2 :: l') r1 r2 C) as (-> & ->); auto.
Qed.
Lemma comp_set t l l' : fold_right (fun v P => has_type t v /\ P) True l -> fold_right (fun v P => has_type t v /\ P) True l' -> comp l l'.
Proof.
  assert (G : forall l, fold_right (fun v P => has_type t v /\ P) True l -> Forall typed l) by (induction l0 as [|v l0 IH]; cbn [fold_right]; [constructor|intros (A & B); constructor; [exists t; exact A|auto]]).
  revert l'. induction l as [|v l IH]; intros [|w l'] H H'; cbn [comp]; auto. cbn [fold_right] in H, H'. destruct H as (A & B), H' as (C & D). split; [exists t; auto|auto].
Qed.
Lemma comp_tuple ts : forall l l', has_type (TTuple ts) (ATuple l) -> has_type (TTuple ts) (ATuple l') -> comp l l'.
Proof.
  cbn [has_type]. induction ts as [|t ts IH]; intros [|v l] [|w l'] H H'; cbn [comp]; auto; try contradiction. destruct H as (A & B), H' as (C & D). split; [exists t; auto|]. apply IH; auto.
Qed.
Lemma minus_nodig r : nodig (45 :: r).
Proof. cbn [nodig]. unfold dig. lia. Qed.
Lemma unpack_inj v : inj v.
Proof.
  induction v using aval_all; intros t w r1 r2 Hv Hw H1 H2 E; destruct t; cbn [has_type] in Hv; try contradiction; destruct w; cbn [has_type] in Hw; try contradiction; cbn [AdiakModel.unpack] in E.
  - destruct (zdec_inj _ _ _ _ Hv Hw H1 H2 E) as (-> & ->). auto.
  - rewrite !as_u64_s64 in E by assumption. destruct (dec_inj _ _ _ _ Hv Hw H1 H2 E) as (-> & ->). auto.
  - destruct (zdec_inj _ _ _ _ (int_s64 _ Hv) (int_s64 _ Hw) H1 H2 E) as (-> & ->). auto.
  - rewrite !as_uint_int in E by assumption. destruct (dec_inj _ _ _ _ (uint_u64 _ Hv) (uint_u64 _ Hw) H1 H2 E) as (-> & ->). auto.
  - destruct (zdec_inj _ _ _ _ Hv Hw H1 H2 E) as (-> & ->). auto.
  - rewrite !as_u64_s64 in E by assumption. destruct (dec_inj _ _ _ _ Hv Hw H1 H2 E) as (-> & ->). auto.
  - destruct (zdec_inj _ _ _ _ Hv Hw H1 H2 E) as (-> & ->). auto.
  - destruct Hv as (Ha & Hb), Hw as (Hc & Hd). rewrite <- !app_assoc in E. cbn [app] in E. destruct (IHv1 _ _ _ _ Ha Hc (minus_nodig _) (minus_nodig _) E) as (-> & E1). injection E1 as E1. destruct (IHv2 _ _ _ _ Hb Hd H1 H2 E1) as (-> & ->). auto.
  - cbn [app] in E. injection E as E. rewrite <- !app_assoc in E. cbn [app] in E. destruct (commas_inj 93 l) with (l' := l0) (r1 := r1) (r2 := r2) as (-> & ->); auto; [left; reflexivity|eapply comp_set; eauto].
  - cbn [app] in E. injection E as E. rewrite <- !app_assoc in E. cbn [app] in E. destruct (commas_inj 125 l) with (l' := l0) (r1 := r1) (r2 := r2) as (-> & ->); auto; [right; left; reflexivity|eapply comp_set; eauto].
  - cbn [app] in E. injection E as E. rewrite <- !app_assoc in E. cbn [app] in E. destruct (commas_inj 41 l) with (l' := l1) (r1 := r1) (r2 := r2) as (-> & ->); auto; [right; right; reflexivity|eapply comp_tuple; eauto].
Qed.
End Text.
