(* C87: memstat *)
From Verif Require Import Base VariantModel TextModel TextProofs StatmModel.

(* a line of numbers separated by blanks *)
Fixpoint line (ns : list N) : bytes := match ns with [] => [] | [n] => dec n | n :: ns => dec n ++ 32 :: line ns end.
Definition is_line (ns : list N) : Prop := Forall u64_ok ns.

Lemma parse_digits ds : Forall (dchar 10) ds -> forall f nn a r, (nn < 6)%nat -> f nn = wrap64 a ->
  exists f', parse_statm (ds ++ r) f nn = parse_statm r f' nn /\ f' nn = wrap64 (dfold 10 ds a) /\ forall i, i <> nn -> f' i = f i.
Proof.
  induction 1 as [|c ds Hc H IH]; intros f nn a r L E.
  - exists f. cbn [app]. auto.
  - destruct (dchar10 c Hc) as (R & D). cbn [app parse_statm]. destruct (Nat.leb_spec 6 nn); [lia|]. replace ((48 <=? c) && (c <=? 57)) with true by (symmetry; apply andb_true_iff; split; apply N.leb_le; lia).
    destruct (IH (upd f nn (wrap64 (f nn * 10 + (c - 48)))) nn (a * 10 + (c - 48)) r L) as (f' & A & B & C).
    + unfold upd. rewrite Nat.eqb_refl, E. apply wrap_step.
    + exists f'. split; [exact A|]. split; [rewrite B; unfold dfold; cbn [fold_left]; rewrite D; reflexivity|]. intros i Hi. rewrite (C i Hi). unfold upd. destruct (Nat.eqb_spec i nn); [contradiction|reflexivity].
Qed.
Lemma parse_num n f nn r : u64_ok n -> (nn < 6)%nat -> f nn = 0 -> exists f', parse_statm (dec n ++ r) f nn = parse_statm r f' nn /\ f' nn = n /\ forall i, i <> nn -> f' i = f i.
Proof.
  intros U L Z. destruct (dec_spec n U) as (_ & _ & D & V). destruct (parse_digits (dec n) D f nn 0 r L) as (f' & A & B & C); [rewrite Z; reflexivity|]. exists f'. split; [exact A|]. split; [|exact C]. rewrite B, V. unfold wrap64, u64_ok, W64 in *. apply N.mod_small. exact U.
Qed.
(* what follows the numbers looked at *)
Definition rest_ok (r : bytes) : Prop := r = [] \/ (exists t, r = 32 :: t) \/ r = [10].
Lemma line_cons n ns r : line (n :: ns) ++ r = dec n ++ match ns with [] => r | _ => 32 :: line ns ++ r end.
Proof. destruct ns as [|m ns]; cbn [line]; [reflexivity|]. rewrite <- app_assoc. reflexivity. Qed.
Lemma parse_after l : forall f nn i, (i < nn)%nat -> parse_statm l f nn i = f i.
Proof.
  induction l as [|c l IH]; intros f nn i H; cbn [parse_statm]; [reflexivity|]. destruct (Nat.leb_spec 6 nn); [reflexivity|]. destruct ((48 <=? c) && (c <=? 57)); [rewrite IH by lia; unfold upd; destruct (Nat.eqb_spec i nn); [lia|reflexivity]|]. destruct (c =? 32); apply IH; lia.
Qed.
Lemma parse_line ns : Forall u64_ok ns -> forall f nn r, ns <> [] -> (nn + length ns <= 6)%nat -> rest_ok r -> (forall i, (nn <= i)%nat -> f i = 0) ->
  forall i, (i < nn + length ns)%nat -> parse_statm (line ns ++ r) f nn i = if Nat.ltb i nn then f i else nth (i - nn) ns 0.
Proof.
  induction 1 as [|n ns Hn H IH]; intros f nn r N L R Z i Hi; [congruence|]. cbn [length] in L, Hi. rewrite line_cons.
  destruct (parse_num n f nn (match ns with [] => r | _ => 32 :: line ns ++ r end) Hn ltac:(lia) (Z nn (Nat.le_refl nn))) as (f' & A & B & C). rewrite A. destruct ns as [|m ns].
  - cbn [length] in Hi. assert (Q : parse_statm r f' nn i = f' i).
    { destruct R as [->|[(t & ->)| ->]]; [reflexivity| |cbn [parse_statm]; destruct (Nat.leb_spec 6 nn); reflexivity]. cbn [parse_statm]. destruct (Nat.leb_spec 6 nn); [reflexivity|]. change ((48 <=? 32) && (32 <=? 57)) with false. change (32 =? 32) with true. cbv iota. apply parse_after. lia. }
    rewrite Q. destruct (Nat.ltb_spec i nn); [apply C; lia|]. assert (i = nn) by lia. subst i. rewrite Nat.sub_diag. exact B.
  - cbn [parse_statm]. destruct (Nat.leb_spec 6 nn); [lia|]. change ((48 <=? 32) && (32 <=? 57)) with false. change (32 =? 32) with true. cbv iota. rewrite IH; [|discriminate|cbn [length] in *; lia|exact R| |cbn [length] in *; lia].
    + destruct (Nat.ltb_spec i (S nn)), (Nat.ltb_spec i nn); try lia.
      * apply C. lia.
      * assert (i = nn) by lia. subst i. rewrite Nat.sub_diag. exact B.
      * replace (i - nn)%nat with (S (i - S nn)) by lia. reflexivity.
    + intros j Hj. rewrite C by lia. apply Z. lia.
Qed.
Lemma line_split a b : a <> [] -> b <> [] -> line (a ++ b) = line a ++ 32 :: line b.
Proof.
  intros Ha Hb. induction a as [|x a IH]; [congruence|]. destruct a as [|y a].
  - cbn [app line]. destruct b; [congruence|]. reflexivity.
  - change ((x :: y :: a) ++ b) with (x :: (y :: a) ++ b). change (line (x :: y :: a)) with (dec x ++ 32 :: line (y :: a)). change (line (x :: (y :: a) ++ b)) with (dec x ++ 32 :: line ((y :: a) ++ b)). rewrite IH by discriminate. rewrite <- app_assoc. reflexivity.
Qed.

(* For every line of at least six 64-bit numbers, whose first six have at most 80 characters: a snapshot gets the
   first, second and sixth number, and nothing else; if the file cannot be read, it gets nothing *)
Theorem C87_values : forall ns rec failed, Forall u64_ok ns -> (6 <= length ns)%nat -> (length (line (firstn 6 ns)) <= 80)%nat ->
  snapshot_cb (Some (line ns ++ [10])) failed rec = (rec ++ [(0, nth 0 ns 0); (1, nth 1 ns 0); (2, nth 5 ns 0)], failed) /\
  snapshot_cb None failed rec = (rec, failed + 1).
Proof.
  intros ns rec failed U L B. split; [|reflexivity]. unfold snapshot_cb, buf_size.
  assert (E : exists r, firstn 80 (line ns ++ [10]) = line (firstn 6 ns) ++ r /\ rest_ok r).
  { assert (Es : line ns = line (firstn 6 ns ++ skipn 6 ns)) by (rewrite firstn_skipn; reflexivity). rewrite Es. clear Es. destruct (skipn 6 ns) as [|x sk] eqn:S.
    - rewrite app_nil_r, firstn_app, firstn_all2 by lia. eexists. split; [reflexivity|]. destruct (80 - length (line (firstn 6 ns)))%nat as [|k]; [left; reflexivity|right; right; destruct k; reflexivity].
    - rewrite line_split; [|destruct ns; [cbn in L; lia|discriminate]|discriminate]. rewrite <- app_assoc, firstn_app, (firstn_all2 (line (firstn 6 ns))) by lia. eexists. split; [reflexivity|]. cbn [app]. destruct (80 - length (line (firstn 6 ns)))%nat as [|k]; [left; reflexivity|]. right; left. cbn [firstn]. eexists. reflexivity. }
  destruct E as (r & -> & R). assert (Ln : length (firstn 6 ns) = 6%nat) by (rewrite firstn_length; lia).
  assert (F : forall i, (i < 6)%nat -> parse_statm (line (firstn 6 ns) ++ r) (fun _ => 0) 0 i = nth i ns 0).
  { intros i Hi. rewrite parse_line; [|apply Forall_forall; intros x Hx; rewrite Forall_forall in U; apply U; rewrite <- (firstn_skipn 6 ns); apply in_or_app; left; exact Hx|intro X; rewrite X in Ln; discriminate Ln|lia|exact R|reflexivity|lia].
    destruct (Nat.ltb_spec i 0); [lia|]. rewrite Nat.sub_0_r. rewrite <- (firstn_skipn 6 ns) at 2. rewrite app_nth1 by lia. reflexivity. }
  cbv zeta. rewrite !F by lia. reflexivity.
Qed.
(* the first two numbers are always right *)
Theorem C87_first : forall a b rest rec failed, u64_ok a -> u64_ok b -> (length (line [a; b]) <= 80)%nat -> rest_ok rest ->
  exists c, snapshot_cb (Some (line [a; b] ++ rest)) failed rec = (rec ++ [(0, a); (1, b); (2, c)], failed).
Proof.
  intros a b rest rec failed A B L R. unfold snapshot_cb, buf_size. rewrite firstn_app, firstn_all2 by lia. set (r := firstn _ rest).
  assert (R' : rest_ok r) by (unfold r; destruct (80 - length (line [a; b]))%nat as [|k]; [left; reflexivity|]; destruct R as [->|[(t & ->)| ->]]; [left; reflexivity|right; left; cbn [firstn]; eexists; reflexivity|right; right; destruct k; reflexivity]).
  eexists. cbv zeta. rewrite (parse_line [a; b]) by (try assumption; repeat constructor; try assumption; try discriminate; cbn [length]; lia). rewrite (parse_line [a; b]) by (try assumption; repeat constructor; try assumption; try discriminate; cbn [length]; lia). reflexivity.
Qed.
Theorem C87_ex : let ns := [48211; 3062; 1799; 5; 0; 17500; 0] in Forall u64_ok ns /\ (length (line (firstn 6 ns)) <= 80)%nat /\ line [48211; 3062] = [52; 56; 50; 49; 49; 32; 51; 48; 54; 50] /\
  snapshot_cb (Some (line ns ++ [10])) 0 [] = ([(0, 48211); (1, 3062); (2, 17500)], 0).
Proof. split; [repeat constructor|]. split; [vm_compute; lia|]. split; vm_compute; reflexivity. Qed.
(* six numbers that need more than 80 characters: the sixth is cut off *)
Theorem C87_long_refuted : let ns := [18446744073709551615; 1844674407370955161; 184467440737095516; 184467440737095; 0; 123456; 0] in
  Forall u64_ok ns /\ fst (snapshot_cb (Some (line ns ++ [10])) 0 []) = [(0, 18446744073709551615); (1, 1844674407370955161); (2, 12)].
Proof. split; [repeat constructor|]. vm_compute. reflexivity. Qed.
