(* C88: exporting global values to Adiak *)
From Verif Require Import Base VariantModel VariantSpec TextModel AdiakModel AdiakSpec AdiakProofs AdiakExportModel.
From Coq Require Import Sorted.

(* the values of an attribute in the globals, in the order of the entries; a path gives its innermost value first *)
Definition pairs (es : list gentry) : list (N * value) := flat_map (fun e => match e with GRef p => p | GImm a v => [(a, v)] | GEmpty => [] end) es.
Definition values_of (a : N) (es : list gentry) : list value := map snd (filter (fun p => a =? fst p) (pairs es)).
(* the Adiak value for an attribute of a type *)
Definition adiak_of (vtext : value -> bytes) (ty : N) (v : value) (x : aval) : Prop :=
  if (ty =? T_INT) || (ty =? T_BOOL) then match v with VInt z => int_range z -> x = AInt z | VBool b => x = AInt (if b then 1%Z else 0%Z) | _ => True end
  else if ty =? T_UINT then match v with VUint n => x = AULong n | _ => True end
  else x = AStr (vtext v).
Definition exported (vtext : value -> bytes) (ty : N) (l : list value) (x : aval) : Prop :=
  match l with [] => False | [v] => adiak_of vtext ty v x | l => exists xs, x = AList xs /\ Forall2 (adiak_of vtext ty) l xs end.

Definition cpairs (es : list gentry) : list (N * value) := flat_map (fun e => match e with GRef p => p ++ [(INV_ID, VInv)] | GImm a v => [(a, v)] | GEmpty => [] end) es.
Definition cvalues (a : N) (es : list gentry) : list value := map snd (filter (fun p => a =? fst p) (cpairs es)).
Fixpoint mfind (a : N) (m : gmap) : list value := match m with [] => [] | (b, l) :: m => if a =? b then l else mfind a m end.
Definition ordered (m : gmap) : Prop := StronglySorted N.lt (map fst m).
Lemma push_keys a v m x : In x (map fst (push a v m)) <-> x = a \/ In x (map fst m).
Proof.
  induction m as [|[b l] m IH]; cbn [push map fst In]; [intuition congruence|]. destruct (N.eqb_spec a b); [cbn [map fst In]; subst; intuition congruence|]. destruct (a <? b); cbn [map fst In]; [intuition congruence|]. rewrite IH. intuition congruence.
Qed.
Lemma push_ordered a v m : ordered m -> ordered (push a v m).
Proof.
  unfold ordered. induction m as [|[b l] m IH]; cbn [push map fst]; intro H; [repeat constructor|]. apply StronglySorted_inv in H as (H & F). destruct (N.eqb_spec a b) as [E|E]; [constructor; assumption|]. destruct (N.ltb_spec a b) as [L|L]; cbn [map fst].
  - constructor; [constructor; assumption|]. constructor; [exact L|]. eapply Forall_impl; [|exact F]. intros x Hx. cbv beta in *. lia.
  - constructor; [auto|]. apply Forall_forall. intros x Hx. apply push_keys in Hx as [->|Hx]; [lia|]. rewrite Forall_forall in F. auto.
Qed.
Lemma push_find a v m c : ordered m -> mfind c (push a v m) = if c =? a then mfind c m ++ [v] else mfind c m.
Proof.
  unfold ordered. induction m as [|[b l] m IH]; cbn [push map fst]; intro H.
  - cbn [mfind]. destruct (c =? a); reflexivity.
  - apply StronglySorted_inv in H as (H & F). destruct (N.eqb_spec a b) as [E|E].
    + subst b. cbn [mfind]. destruct (c =? a); reflexivity.
    + destruct (N.ltb_spec a b) as [L|L]; cbn [mfind].
      * destruct (N.eqb_spec c a) as [X|X]; [|reflexivity]. subst c. destruct (N.eqb_spec a b); [contradiction|]. assert (Q : mfind a m = []); [|rewrite Q; reflexivity].
        assert (G : forall m', Forall (N.lt b) (map fst m') -> mfind a m' = []). { induction m' as [|[k l'] m' IHm]; intro G; [reflexivity|]. cbn [map fst] in G. apply Forall_cons_iff in G as (G & G'). cbn [mfind]. destruct (N.eqb_spec a k); [lia|auto]. }
        apply G. exact F.
      * destruct (N.eqb_spec c b) as [X|X]; [subst c; destruct (N.eqb_spec b a); [congruence|reflexivity]|]. apply IH. exact H.
Qed.
Lemma add_cpairs es : forall m, fold_left add_entry es m = fold_left (fun m x => push (fst x) (snd x) m) (cpairs es) m.
Proof. induction es as [|e es IH]; intro m; [reflexivity|]. cbn [fold_left cpairs flat_map]. rewrite fold_left_app, IH. destruct e; reflexivity. Qed.
Lemma push_all l : forall m, ordered m -> let m' := fold_left (fun m x => push (fst x) (snd x) m) l m in
  ordered m' /\ (forall c, mfind c m' = mfind c m ++ map snd (filter (fun p => c =? fst p) l)) /\ (forall x, In x (map fst m') <-> In x (map fst m) \/ In x (map fst l)).
Proof.
  induction l as [|[a v] l IH]; intros m H m'; subst m'; cbn [fold_left].
  - split; [exact H|]. split; [intro c; cbn; rewrite app_nil_r; reflexivity|intro x; cbn; tauto].
  - cbn [fst snd]. destruct (IH (push a v m) (push_ordered a v m H)) as (A & B & C). split; [exact A|]. split.
    + intro c. rewrite B, push_find by exact H. cbn [filter fst]. destruct (c =? a); cbn [map snd]; rewrite <- ?app_assoc; reflexivity.
    + intro x. rewrite C, push_keys. cbn [map fst In]. intuition congruence.
Qed.
Lemma mfind_in m a l : ordered m -> In (a, l) m -> mfind a m = l.
Proof.
  unfold ordered. induction m as [|[b k] m IH]; intros H I; [destruct I|]. cbn [map fst] in H. apply StronglySorted_inv in H as (H & F). cbn [mfind]. destruct I as [I|I].
  - injection I as -> ->. rewrite N.eqb_refl. reflexivity.
  - destruct (N.eqb_spec a b) as [E|E]; [|auto]. subst b. rewrite Forall_forall in F. assert (X : In a (map fst m)) by (change a with (fst (a, l)); apply in_map; exact I). specialize (F a X). lia.
Qed.
Lemma globals_map es : let m := caliper_globals es in ordered m /\ (forall a l, In (a, l) m <-> l = cvalues a es /\ l <> []).
Proof.
  intro m. subst m. unfold caliper_globals. rewrite add_cpairs. destruct (push_all (cpairs es) [] (SSorted_nil N.lt)) as (A & B & C). split; [exact A|]. intros a l. cbn [mfind map app In] in B, C. match type of A with ordered ?x => set (m := x) in * end.
  assert (K : In a (map fst (cpairs es)) <-> cvalues a es <> []).
  { unfold cvalues. split.
    - intros X E. apply in_map_iff in X as ([a' v] & X & Y). cbn [fst] in X. subst a'. apply map_eq_nil in E. assert (Q : In (a, v) (filter (fun p => a =? fst p) (cpairs es))) by (apply filter_In; split; [exact Y|apply N.eqb_refl]). rewrite E in Q. exact Q.
    - intro X. destruct (filter (fun p => a =? fst p) (cpairs es)) as [|[a' v] r] eqn:Q; [destruct X; reflexivity|]. assert (Y : In (a', v) (filter (fun p => a =? fst p) (cpairs es))) by (rewrite Q; left; reflexivity). apply filter_In in Y as (Y & Y1). cbn [fst] in Y1. apply N.eqb_eq in Y1. subst a'. change a with (fst (a, v)). apply in_map. exact Y. }
  split.
  - intro I. assert (E : l = cvalues a es) by (rewrite <- (mfind_in m a l A I), B; reflexivity). split; [exact E|]. rewrite E. apply K. assert (X : In a (map fst m)) by (change a with (fst (a, l)); apply in_map; exact I). apply C in X as [[]|X]; exact X.
  - intros (E & N). rewrite E in N. apply K in N. assert (X : In a (map fst m)) by (apply C; right; exact N). apply in_map_iff in X as ([a' l'] & X & Y). cbn [fst] in X. subst a'. pose proof (mfind_in m a l' A Y) as Q. rewrite B in Q. cbn [app] in Q. unfold cvalues in E. rewrite E, Q. exact Y.
Qed.
Lemma cvalues_eq a es : a <> INV_ID -> cvalues a es = values_of a es.
Proof.
  intro H. unfold cvalues, values_of. induction es as [|e es IH]; [reflexivity|]. cbn [cpairs pairs flat_map]. rewrite !filter_app, !map_app. f_equal; [|exact IH]. destruct e; try reflexivity.
  rewrite filter_app. cbn [filter fst]. destruct (N.eqb_spec a INV_ID); [contradiction|]. rewrite app_nil_r. reflexivity.
Qed.
Lemma cvalues_inv es : (forall a v, In (a, v) (pairs es) -> a < INV_ID) -> cvalues INV_ID es <> [] <-> exists p, In (GRef p) es.
Proof.
  intro H. unfold cvalues. split.
  - intro N. destruct (filter (fun p => INV_ID =? fst p) (cpairs es)) as [|[a v] r] eqn:Q; [destruct N; reflexivity|]. assert (Y : In (a, v) (filter (fun p => INV_ID =? fst p) (cpairs es))) by (rewrite Q; left; reflexivity). apply filter_In in Y as (Y & Y1). cbn [fst] in Y1. apply N.eqb_eq in Y1. subst a.
    unfold cpairs in Y. apply in_flat_map in Y as (e & Y & Z). destruct e as [p|a w|]; [exists p; exact Y| |destruct Z]. destruct Z as [Z|[]]. injection Z as -> ->. assert (X : In (INV_ID, v) (pairs es)) by (apply in_flat_map; exists (GImm INV_ID v); split; [exact Y|left; reflexivity]). apply H in X. lia.
  - intros (p & I) E. apply map_eq_nil in E. assert (X : In (INV_ID, VInv) (filter (fun p => INV_ID =? fst p) (cpairs es))); [|rewrite E in X; exact X]. apply filter_In. split; [|apply N.eqb_refl]. apply in_flat_map. exists (GRef p). split; [exact I|]. apply in_or_app. right. left. reflexivity.
Qed.
Lemma adiak_value vtext ty v : adiak_of vtext ty v (if (ty =? T_INT) || (ty =? T_BOOL) then AInt (value_to_int v) else if ty =? T_UINT then AULong (value_to_uint v) else AStr (vtext v)).
Proof.
  unfold adiak_of. destruct ((ty =? T_INT) || (ty =? T_BOOL)); [|destruct (ty =? T_UINT); [destruct v; cbn; auto|reflexivity]]. destruct v; cbn [value_to_int]; auto. unfold int_range. intro R. unfold INT_MIN, INT_MAX. destruct (Z.leb_spec (-2147483648) z), (Z.leb_spec z 2147483647); cbn [andb]; try lia. reflexivity.
Qed.
Lemma export_ok vtext ty l : l <> [] -> exported vtext ty l (export_value vtext ty l).
Proof.
  intro N. destruct l as [|v [|w l]]; [congruence| |]; cbn [exported].
  - assert (E : export_value vtext ty [v] = (if (ty =? T_INT) || (ty =? T_BOOL) then AInt (value_to_int v) else if ty =? T_UINT then AULong (value_to_uint v) else AStr (vtext v))) by (unfold export_value; destruct ((ty =? T_INT) || (ty =? T_BOOL)); [reflexivity|]; destruct (ty =? T_UINT); reflexivity). rewrite E. apply adiak_value.
  - set (f := fun v => if (ty =? T_INT) || (ty =? T_BOOL) then AInt (value_to_int v) else if ty =? T_UINT then AULong (value_to_uint v) else AStr (vtext v)).
    exists (map f (v :: w :: l)). split; [unfold export_value, f; destruct ((ty =? T_INT) || (ty =? T_BOOL)); [reflexivity|]; destruct (ty =? T_UINT); reflexivity|].
    generalize (v :: w :: l) as k. induction k as [|x k IH]; cbn [map]; constructor; [apply adiak_value|exact IH].
Qed.

(* For every list of globals, with paths of any length: exactly the attributes that have a value are exported, each
   once, in the order of their ids, under their name and with their values: one value, or a list of all of them in
   the order of the globals.  If there is a reference, there is another one: that of the root of the tree, which is
   no attribute *)
Theorem C88_export : forall vtext attr es, (forall a v, In (a, v) (pairs es) -> a < INV_ID) ->
  exists ids, StronglySorted N.lt ids /\ (forall a, In a ids <-> values_of a es <> [] \/ (a = INV_ID /\ exists p, In (GRef p) es)) /\
  Forall2 (fun a p => fst p = fst (attr a) /\ (a <> INV_ID -> exported vtext (snd (attr a)) (values_of a es) (snd p))) ids (export_globals vtext attr es).
Proof.
  intros vtext attr es R. destruct (globals_map es) as (O & G). set (m := caliper_globals es) in *. exists (map fst m). split; [exact O|]. split.
  - intro a. assert (K : In a (map fst m) <-> cvalues a es <> []).
    { split.
      - intro I. apply in_map_iff in I as ([a' l] & E & I). cbn [fst] in E. subst a'. apply G in I as (-> & N). exact N.
      - intro N. change a with (fst (a, cvalues a es)). apply in_map. apply G. auto. }
    rewrite K. destruct (N.eq_dec a INV_ID) as [->|X].
    + rewrite (cvalues_inv es R). split; [auto|]. intros [Y|(_ & Y)]; [|exact Y]. exfalso. apply Y. unfold values_of. destruct (filter (fun p => INV_ID =? fst p) (pairs es)) as [|[b v] r] eqn:Q; [reflexivity|].
      assert (Z : In (b, v) (filter (fun p => INV_ID =? fst p) (pairs es))) by (rewrite Q; left; reflexivity). apply filter_In in Z as (Z & Z1). cbn [fst] in Z1. apply N.eqb_eq in Z1. subst b. apply R in Z. lia.
    + rewrite (cvalues_eq a es X). split; [auto|]. intros [Y|(Y & _)]; [exact Y|contradiction].
  - unfold export_globals. fold m. assert (F : forall a l, In (a, l) m -> l = cvalues a es /\ l <> []) by (intros a l I; apply G; exact I). clearbody m. clear G O. induction m as [|[a l] m IH]; [constructor|]. cbn [map flat_map fst snd]. destruct (F a l (or_introl eq_refl)) as (E & N). destruct l as [|v l]; [congruence|]. cbn [app]. constructor.
    + cbn [fst snd]. split; [reflexivity|]. intro X. rewrite <- (cvalues_eq a es X), <- E. apply export_ok. discriminate.
    + apply IH. intros b k I. apply F. right. exact I.
Qed.
(* a value that is exported and imported again (C85): integers in the range of int, unsigned integers and texts are
   the same; a bool becomes a number *)
Theorem C88_roundtrip : forall vtext dfmt, (forall s, vtext (VStr s) = s) ->
  (forall z, int_range z -> import_value dfmt (export_value vtext T_INT [VInt z]) = Some (VInt z)) /\
  (forall n, u64_ok n -> import_value dfmt (export_value vtext T_UINT [VUint n]) = Some (VUint n)) /\
  (forall s, import_value dfmt (export_value vtext T_STRING [VStr s]) = Some (VStr s)) /\
  (forall b, import_value dfmt (export_value vtext T_BOOL [VBool b]) = Some (VInt (if b then 1%Z else 0%Z))).
Proof.
  intros vtext dfmt T. split; [|split; [|split]].
  - intros z R. pose proof (adiak_value vtext T_INT (VInt z)) as A. change (int_range z -> AInt (value_to_int (VInt z)) = AInt z) in A. specialize (A R). injection A as A. change (Some (VInt (value_to_int (VInt z))) = Some (VInt z)). f_equal. f_equal. exact A.
  - intros n U. change (Some (VUint (as_u64 (as_s64 n))) = Some (VUint n)). rewrite as_u64_s64 by exact U. reflexivity.
  - intro s. change (Some (VStr (vtext (VStr s))) = Some (VStr s)). rewrite T. reflexivity.
  - intro b. reflexivity.
Qed.
Definition e_attr (a : N) : bytes * N := if a =? INV_ID then ([], T_INV) else ([97; a], if a =? 7 then T_INT else if a =? 8 then T_UINT else T_STRING).
Theorem C88_ex : forall vtext, export_globals vtext e_attr [GImm 8 (VUint 5); GRef [(9, VStr [104]); (7, VInt 2); (7, VInt (-1))]; GEmpty; GImm 7 (VInt 3)] =
  [([97; 7], AList [AInt 2; AInt (-1); AInt 3]); ([97; 8], AULong 5); ([97; 9], AStr (vtext (VStr [104]))); ([], AStr (vtext VInv))].
Proof. intro. vm_compute. reflexivity. Qed.

(* ---------- where it fails ---------- *)
(* a 64-bit integer that is not an int is exported as 0 *)
Theorem C88_long_refuted : forall vtext z, ~ int_range z -> export_value vtext T_INT [VInt z] = AInt 0.
Proof. intros vtext z H. change (AInt (value_to_int (VInt z)) = AInt 0). cbn [value_to_int]. unfold int_range, INT_MIN, INT_MAX in *. destruct (Z.leb_spec (-2147483648) z), (Z.leb_spec z 2147483647); cbn [andb]; try reflexivity. lia. Qed.
(* a floating point value is exported as a text, and stays one when it is imported *)
Theorem C88_double_refuted : forall vtext dfmt b, import_value dfmt (export_value vtext T_DOUBLE [VDouble b]) = Some (VStr (vtext (VDouble b))).
Proof. reflexivity. Qed.
(* the values of one path come in the reverse of the order in which they were begun: begin -1, begin 2 *)
Theorem C88_order_refuted : forall vtext, export_globals vtext e_attr [GRef [(7, VInt 2); (7, VInt (-1))]] = [([97; 7], AList [AInt 2; AInt (-1)]); ([], AStr (vtext VInv))].
Proof. intro. vm_compute. reflexivity. Qed.
(* as soon as there is a reference among the globals, a value that no attribute has is exported: its name is that of
   the invalid attribute, the empty text, and its value that of an empty variant *)
Theorem C88_root_refuted : forall vtext attr es p, In (GRef p) es -> (forall a v, In (a, v) (pairs es) -> a < INV_ID) -> attr INV_ID = ([], T_INV) ->
  exists x, In ([], x) (export_globals vtext attr es).
Proof.
  intros vtext attr es p I R A. destruct (C88_export vtext attr es R) as (ids & _ & K & F). assert (X : In INV_ID ids) by (apply K; right; split; [reflexivity|exists p; exact I]). clear K.
  induction F as [|a [n x] ids l (E & _) F IH]; [destruct X|]. destruct X as [->|X]; [exists x; left; cbn [fst] in E; rewrite A in E; cbn [fst] in E; rewrite E; reflexivity|]. destruct (IH X) as (y & Y). exists y. right. exact Y.
Qed.
