(* What a region profile should say.  Sums are double precision sums in record order. *)
From Verif Require Import Base VariantModel VariantSpec TreeModel CaliFileModel FloatModel ArithSpec AggModel RegProfModel.
Open Scope N_scope.

Fixpoint join (l : list bytes) : bytes := match l with [] => [] | [a] => a | a :: r => a ++ slash :: join r end.
Definition sum_of (l : list N) : N := fold_left dadd l 0.
Definition osum (l : list N) : option N := match l with [] => None | _ => Some (sum_of l) end.
Fixpoint mget (m : list (bytes * N)) (k : bytes) : option N := match m with [] => None | (k', v) :: r => if beq k' k then Some v else mget r k end.

Section T.
Variable vtext : value -> bytes.
Variable d : mdb.
Variable m : N.             (* metric attribute *)
Variable r : option N.      (* region attribute; None: all nested attributes *)
Definition region_attr (a : N) : Prop := match r with None => is_nested d a = true | Some x => a = x end.
(* the names of the regions on the path of a node, outermost first *)
Definition names (i : N) : list bytes := map (fun x => vtext (snd x)) (rev (filter (fun x => is_target d r (fst x)) (node_path d i))).
Definition refs (rec : list entry) : list N := flat_map (fun e => match e with ERef i => [i] | EImm _ _ => [] end) rec.
(* the regions a record is in: the region path of the first entry that has one *)
Definition inside (rec : list entry) (ps : list bytes) : Prop :=
  exists l1 i l2, refs rec = l1 ++ i :: l2 /\ Forall (fun j => names j = []) l1 /\ names i = ps /\ ps <> [].
(* the record's innermost level is a region: the region path of the first entry whose own attribute is
   a region attribute *)
Definition leaf_in (rec : list entry) (ps : list bytes) : Prop :=
  exists l1 i l2, refs rec = l1 ++ i :: l2 /\ Forall (fun j => ~ region_attr (e_attr d (ERef j))) l1 /\ region_attr (e_attr d (ERef i)) /\ names i = ps.
(* the values of the metric in the records with a property, in order *)
Inductive values (P : list entry -> Prop) : list (list entry) -> list N -> Prop :=
| vs_nil : values P [] []
| vs_take rec v recs l : metric_of d m rec = Some v -> P rec -> values P recs l -> values P (rec :: recs) (v :: l)
| vs_skip rec recs l : (metric_of d m rec = None \/ ~ P rec) -> values P recs l -> values P (rec :: recs) l.
(* region names are not empty and contain no slash *)
Definition names_ok (recs : list (list entry)) : Prop :=
  forall rec i n, In rec recs -> In i (refs rec) -> In n (names i) -> n <> [] /\ ~ In slash n.
End T.
