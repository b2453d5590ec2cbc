(* Order independence of aggregation, continued: the values of the min and max operators may be doubles *)
From Verif Require Import Base VariantModel VariantSpec NamesModel TextModel TreeModel CaliFileModel FloatModel ArithSpec AggModel AggSpec AggSpec2.
Open Scope N_scope.

(* doubles that the order of numbers tells apart: no NaN, and two values that compare equal are the same bit
   pattern (that is, not both 0.0 and -0.0, of which min and max keep the one that comes first) *)
Definition comparable_doubles (vs : list value) : Prop :=
  exists bs, vs = map VDouble bs /\ Forall (fun b => dbl b <> DNan) bs /\ forall a b, In a bs -> In b bs -> dorder (dbl a) (dbl b) = Eq -> a = b.
(* the values kernel c aggregates can be taken in any order: integers of one type or, for min and max, doubles *)
Definition order_free (d : mdb) (recs : list (list entry)) (c : kcfg) : Prop :=
  integral d recs c \/
  match c with
  | CMin x i => comparable_doubles (flat_map (vals d [x; sel i p_imin p_min ++ x]) recs)
  | CMax x i => comparable_doubles (flat_map (vals d [x; sel i p_imax p_max ++ x]) recs)
  | _ => False
  end.
(* the values kernel c aggregates can be merged from partial results: the conditions of mergeable or, for
   (exclusive) min and max, doubles *)
Definition merge_free (d : mdb) (recs : list (list entry)) (c : kcfg) : Prop :=
  mergeable d recs c \/ match c with CMin _ false | CMax _ false => order_free d recs c | _ => False end.
