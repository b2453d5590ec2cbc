(* What it means that an aggregation result does not depend on the order of the records, and that partial
   results can be merged *)
From Verif Require Import Base VariantModel VariantSpec NamesModel TextModel TreeModel CaliFileModel CaliFileProofs2 ArithSpec AggModel AggSpec.
Open Scope N_scope.

(* the result out, valid in database d', of aggregating recs under query q *)
Definition aggregated (q : qspec) (recs out : list (list entry)) (d' : mdb) : Prop :=
  exists d g, arun q recs d g /\ flush q (d, g) = Some (out, d') /\ size_ok d'.
(* every attribute to be aggregated exists *)
Definition targets_known (d : mdb) (q : qspec) : Prop :=
  forall c x, In c (q_ker q) -> no_target c = false -> In x (kattrs c) -> get_attr d (fst x) <> None.
(* all values are 64-bit signed integers, or all are 64-bit unsigned integers *)
Definition one_type (vs : list value) : Prop := (exists zs, vs = map VInt zs /\ Forall s64_ok zs) \/ (exists ns, vs = map VUint ns /\ Forall u64_ok ns).
(* the values kernel c aggregates are integers of one type.  any and variance are excluded: any picks the
   first value, variance adds doubles *)
Definition integral (d : mdb) (recs : list (list entry)) (c : kcfg) : Prop :=
  match c with
  | CCount | CScount _ _ => True
  | CSum x i => one_type (flat_map (vals d [x; sel i p_incl p_sum ++ x]) recs)
  | CScale x _ i => one_type (flat_map (vals d [x; sel i p_iscsum p_scsum ++ x]) recs)
  | CMin x i => one_type (flat_map (vals d [x; sel i p_imin p_min ++ x]) recs)
  | CMax x i => one_type (flat_map (vals d [x; sel i p_imax p_max ++ x]) recs)
  | CPct x i => one_type (flat_map (vals d [x; sel i p_ipctsum p_pctsum ++ x]) recs)
  | CRatio x y _ i => one_type (flat_map (vals d [x; sel i p_isrsum p_srsum ++ x]) recs) /\ one_type (flat_map (vals d [y; sel i p_isrsum p_srsum ++ y]) recs)
  | CAvg x => one_type (flat_map (avals d [x; p_avgsum ++ x]) recs)
  | CAny _ | CVar _ => False
  end.
(* the left fold of an operation over values, starting with an empty value *)
Definition fold1 (f : value -> value -> value) (vs : list value) : value := fold_left f vs VInv.
Definition zsum (l : list Z) : Z := fold_right Z.add 0%Z l.
Definition nsum (l : list N) : N := fold_right N.add 0 l.

(* ---------- merging partial results ---------- *)
(* the attribute names kernel c reads, and the attribute names of its results *)
Definition in_names (c : kcfg) : list bytes := flat_map (fun x => (if no_target c then [] else [fst x]) ++ map ka_name (snd x)) (kattrs c).
Definition out_names (c : kcfg) : list bytes :=
  match c with
  | CCount => [n_count]
  | CScount arg _ => [p_scount ++ arg; n_scount]
  | CSum x i => [sel i p_incl p_sum ++ x]
  | CScale x _ i => [sel i p_iscsum p_scsum ++ x; sel i p_iscale p_scale ++ x]
  | CMin x i => [sel i p_imin p_min ++ x]
  | CMax x i => [sel i p_imax p_max ++ x]
  | CAvg x => [p_avg ++ x; p_avgsum ++ x; p_avgcnt ++ x]
  | CRatio x y _ i => [sel i p_isrsum p_srsum ++ x; sel i p_isrsum p_srsum ++ y; sel i p_iratio p_ratio ++ x ++ [47] ++ y]
  | CPct x i => [sel i p_ipctsum p_pctsum ++ x; sel i p_ipct p_pct ++ x]
  | CAny x => [p_any ++ x]
  | CVar x => [p_var ++ x; p_varsum ++ x; p_varsq ++ x; p_varcnt ++ x]
  end.
(* aggregated attributes are not used for grouping and do not appear as regions; no kernel reads what
   another one writes *)
Definition separated (d : mdb) (q : qspec) (recs : list (list entry)) : Prop :=
  (forall c n a, In c (q_ker q) -> In n (in_names c ++ out_names c) -> get_attr d n = Some a ->
     ~ key_attr d q a /\ forall r l, In r recs -> refpath d r l -> ~ In a (map fst l)) /\
  (forall i j ci cj n, i <> j -> nth_error (q_ker q) i = Some ci -> nth_error (q_ker q) j = Some cj -> In n (out_names ci) -> ~ In n (in_names cj)).
(* what one record counts for: its first "count" (scount#arg) value, or one *)
Definition count_name (c : kcfg) : bytes := match c with CScount arg _ => p_scount ++ arg | _ => n_count end.
Definition counts_for (d : mdb) (c : kcfg) (r : list entry) : N := match avals d [count_name c] r with v :: _ => v_u64 v | [] => 1 end.
(* the number of x values in a record, including those counted by an earlier aggregation *)
Definition avg_count (d : mdb) (x : bytes) (r : list entry) : N := N.of_nat (length (avals d [x] r)) + nsum (map v_u64 (avals d [p_avgcnt ++ x] r)).
Definition mergeable (d : mdb) (recs : list (list entry)) (c : kcfg) : Prop :=
  match c with
  | CCount | CScount _ _ => Forall (fun r => 0 < counts_for d c r) recs /\ u64_ok (nsum (map (counts_for d c) recs))
  | CSum _ false | CScale _ _ false | CMin _ false | CMax _ false => integral d recs c
  | CAvg x => integral d recs c /\ Forall (fun r => avg_count d x r = 0 <-> avals d [x; p_avgsum ++ x] r = []) recs /\ u64_ok (nsum (map (avg_count d x) recs))
  | _ => False
  end.
