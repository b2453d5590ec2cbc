(* What the statistics of cali-stat should be *)
From Verif Require Import Base MsgTraceModel StatModel.
From Coq Require Import ZArith.
Open Scope Z_scope.

Definition num {A} (l : list A) : Z := Z.of_nat (length l).
Definition total (l : list Z) : Z := fold_right Z.add 0 l.
Definition nodes_of (l : list sitem) : list snode := flat_map (fun i => match i with NodeRec n => [n] | _ => [] end) l.
Definition records_of (l : list sitem) : list (list sentry) := flat_map (fun i => match i with SnapRec es => [es] | _ => [] end) l.
(* the references (as paths) and the immediate values of a record *)
Definition refs (es : list sentry) : list (list (N * text)) := flat_map (fun e => match e with Ref p => [p] | _ => [] end) es.
Definition imms (es : list sentry) : list sentry := filter (fun e => match e with Imm => true | _ => false end) es.
(* elements: one for a reference, two (attribute and value) for an immediate, four for a node *)
Definition elements (es : list sentry) : Z := num (refs es) + 2 * num (imms es).
(* attributes of a record: of every node of every path, and of the immediates *)
Definition attributes (es : list sentry) : Z := total (map num (refs es)) + num (imms es).
Definition node_bytes (n : snode) : Z := 24 + (if sn_str n then sn_size n else 8).
Definition entries (l : list sitem) : list sentry := concat (records_of l).
(* sizes and counts that fit into int *)
Definition fit (z : Z) : Prop := 0 <= z <= 2147483647.
Definition fits_int (l : list sitem) : Prop :=
  fit (num (records_of l) + num (nodes_of l)) /\ fit (total (map elements (records_of l)) + 4 * num (nodes_of l)) /\
  fit (total (map attributes (records_of l))) /\ fit (total (map node_bytes (nodes_of l)) + 8 * num (refs (entries l))).
Definition sizes_ok (l : list sitem) : Prop := Forall (fun n => 0 <= sn_size n) (nodes_of l).
(* the report; sizes: references only (see C86_size_refuted) *)
Definition expected (l : list sitem) (mn mx : Z) : report :=
  let nodes := num (nodes_of l) in let snaps := num (records_of l) in
  mkrep (nodes + snaps) nodes snaps
        (4 * nodes + num (refs (entries l)) + 2 * num (imms (entries l))) (4 * nodes) (num (refs (entries l))) (2 * num (imms (entries l)))
        (total (map node_bytes (nodes_of l)) + 8 * num (refs (entries l))) (total (map node_bytes (nodes_of l))) (8 * num (refs (entries l)))
        mn mx (total (map attributes (records_of l))).
Definition least (x : Z) (l : list Z) : Prop := In x l /\ Forall (fun y => x <= y) l.
Definition greatest (x : Z) (l : list Z) : Prop := In x l /\ Forall (fun y => y <= x) l.

(* the (attribute, data) pairs of the node records, and those the snapshot records refer to *)
Definition defined (l : list sitem) : list (N * text) := map (fun n => (sn_attr n, sn_text n)) (nodes_of l).
Definition used (es : list sentry) : list (N * text) := concat (refs es).
Definition all_used (l : list sitem) : list (N * text) := used (entries l).
(* a record refers only to nodes that were read before it *)
Fixpoint closed (seen : list (N * text)) (l : list sitem) : Prop :=
  match l with
  | [] => True
  | NodeRec n :: l => sn_attr n <> inv_id /\ closed ((sn_attr n, sn_text n) :: seen) l
  | SnapRec es :: l => incl (used es) seen /\ closed seen l
  end.
Definition pair_eq (a b : N * text) : bool := N.eqb (fst a) (fst b) && teq (snd a) (snd b).
Definition times (x : N * text) (l : list (N * text)) : Z := num (filter (pair_eq x) l).
Definition of_attr (a : N) (l : list (N * text)) : list (N * text) := filter (fun p => N.eqb a (fst p)) l.
