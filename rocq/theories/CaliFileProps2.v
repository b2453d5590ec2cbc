(* C28 (continued): blank lines, and integer texts of any length. *)
From Verif Require Import Base VariantModel VariantSpec NamesModel TextModel TextProofs TextProofs2 TreeModel CaliFileModel.
Open Scope N_scope.

Lemma split_blank a b : forall cur, split_lines (a ++ c_nl :: c_nl :: b) cur = split_lines (a ++ c_nl :: b) cur.
Proof.
  induction a as [|c a IH]; intro cur; cbn [app split_lines].
  - change (c_nl =? c_nl) with true. cbn iota. reflexivity.
  - destruct (c =? c_nl); [destruct cur; rewrite IH; reflexivity|apply IH].
Qed.
(* Blank lines in a .cali stream, at the beginning or elsewhere, make no difference. *)
Theorem C28_blank_lines dp d a b :
  read_stream dp d (c_nl :: b) = read_stream dp d b /\ read_stream dp d (a ++ c_nl :: c_nl :: b) = read_stream dp d (a ++ c_nl :: b).
Proof. unfold read_stream. split; [reflexivity|]. rewrite split_blank. reflexivity. Qed.

(* the number a digit string denotes *)
Definition number (ds : list N) : Z := fold_left (fun a d => a * 10 + Z.of_N d)%Z ds 0%Z.
Definition digits (ds : list N) : bytes := map (fun d => 48 + d) ds.
Lemma digits_dchar ds : Forall (fun d => d < 10) ds -> Forall (dchar 10) (digits ds) /\ forall a, dfold 10 (digits ds) a = Z.to_N (fold_left (fun a d => a * 10 + Z.of_N d)%Z ds (Z.of_N a)).
Proof.
  induction 1 as [|d ds Hd F (IH1 & IH2)]; [split; [constructor|intro; cbn; lia]|].
  assert (V : digval 10 (48 + d) = Some d).
  { unfold digval, hexval, isdigit. replace ((48 <=? 48 + d) && (48 + d <=? 57)) with true by lia. replace (48 + d - 48) with d by lia. replace (d <? 10) with true by lia. reflexivity. }
  split; [constructor; [exists d; exact V|exact IH1]|]. intro a. unfold dfold. cbn [digits map fold_left]. unfold dv at 2. rewrite V. fold (digits ds). fold (dfold 10 (digits ds) (a * 10 + d)). rewrite IH2. f_equal. f_equal. lia.
Qed.
Lemma digits_cstr ds : Forall (fun d => d < 10) ds -> cstr (digits ds) = digits ds.
Proof. induction 1 as [|d ds Hd F IH]; [reflexivity|]. cbn [digits map cstr]. destruct (N.eqb_spec (48 + d) 0); [lia|]. f_equal. exact IH. Qed.
(* An integer text of any length reads as the number it denotes, or the nearest 64-bit number. *)
Theorem C28_integer_text dp ds : ds <> [] -> Forall (fun d => d < 10) ds ->
  from_string dp T_INT (digits ds) = VInt (Z.min 9223372036854775807 (number ds)) /\
  from_string dp T_INT (45 :: digits ds) = VInt (Z.max (-9223372036854775808) (- number ds)).
Proof.
  intros Hn F. destruct (digits_dchar ds F) as (D1 & D2). assert (P : forall l a, (0 <= a)%Z -> (0 <= fold_left (fun a d => a * 10 + Z.of_N d)%Z l a)%Z) by (induction l as [|x l IH]; intros a Ha; cbn [fold_left]; [exact Ha|apply IH; lia]).
  assert (P0 := P ds 0%Z ltac:(lia)). fold (number ds) in P0. specialize (D2 0). change (Z.of_N 0) with 0%Z in D2. fold (number ds) in D2.
  unfold from_string. change (cstr (45 :: digits ds)) with (45 :: cstr (digits ds)). rewrite digits_cstr by exact F. change (T_INT =? T_STRING) with false. change (T_INT =? T_INT) with true. cbn iota. unfold strtoll. split.
  - destruct (hd_dchar (fun _ => []) dp _ 10 (or_introl eq_refl) D1) as (H1 & H2). rewrite H1, H2. rewrite acc_digits_spec, D2 by exact D1. destruct ds as [|x ds]; [congruence|]. cbn [digits map]. cbv zeta. f_equal. unfold LLONG_MIN, LLONG_MAX. lia.
  - cbn [skip_ws]. change (isspace 45) with false. cbn iota. cbn [sign_of]. change (45 =? c_minus) with true. cbn iota. rewrite acc_digits_spec, D2 by exact D1. destruct ds as [|x ds]; [congruence|]. cbn [digits map]. cbv zeta. f_equal. unfold LLONG_MIN, LLONG_MAX. lia.
Qed.
Example C28_integer_text_ex : number [9;9;9;9;9;9;9;9;9;9;9;9;9;9;9;9;9;9;9;9] = 99999999999999999999%Z.
Proof. reflexivity. Qed.
