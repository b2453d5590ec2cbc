(* What the runtime aggregation should report for a history of snapshots, independent of hash tables,
   buffers and entry layout. *)
From Verif Require Import Base VariantModel ArithModel RtAggModel.
Open Scope nat_scope.

(* a snapshot handed to the database: its record, the attributes known at that time, and whether
   memory may be allocated (false inside a signal handler) *)
Record snap := mksnap { s_rec : list rent; s_info : ainfo; s_alloc : bool }.
(* the aggregation key: the reference entries in record order, then the first entry of each immediate
   key attribute *)
Definition first_imm (rec : list rent) (a : N) : list rent := match filter (fun e => N.eqb (r_node e) a) rec with [] => [] | e :: _ => [e] end.
Definition full_key (s : snap) : list rent := filter is_ref (s_rec s) ++ flat_map (first_imm (s_rec s)) (i_keys (s_info s)).
(* the values of attribute a in a list of snapshots, one per snapshot that has the attribute *)
Definition values_of (a : N) (h : list snap) : list cvar := flat_map (fun s => map r_val (first_imm (s_rec s) a)) h.
(* all elements fed one by one into min/max/sum; the meaning of the result is C46_minmaxsum *)
Fixpoint minmaxsum (l : list cvar) (s : cvar * cvar * cvar) : option (cvar * cvar * cvar) :=
  match l with [] => Some s | v :: r => match cv_minmaxsum v (fst (fst s)) (snd (fst s)) (snd s) with Some s1 => minmaxsum r s1 | None => None end end.
(* the part of a record reporting one attribute: nothing if it had no values *)
Definition stat (vals : list cvar) (res : N * N * N * N) : option (list rent) :=
  match vals with
  | [] => Some []
  | _ => match minmaxsum vals (empty_var, empty_var, empty_var), res with
         | Some (mn, mx, sm), (amin, amax, asum, aavg) =>
             match cv_div sm (N.of_nat (length vals)) with
             | Some avg => Some [RImm amin mn; RImm amax mx; RImm asum sm; RImm aavg avg]
             | None => None
             end
         | None, _ => None
         end
  end.
Fixpoint stats (h : list snap) (attrs : list N) (res : list (N * N * N * N)) : option (list rent) :=
  match attrs, res with
  | [], _ => Some []
  | a :: r, x :: q => match stat (values_of a h) x, stats h r q with Some l1, Some l2 => Some (l1 ++ l2) | _, _ => None end
  | _ :: _, [] => None
  end.
(* one element for each group of a history, in order of first appearance: the first member *)
Fixpoint firsts_aux (same : snap -> snap -> bool) (seen h : list snap) : list snap :=
  match h with
  | [] => []
  | s :: r => if existsb (same s) seen then firsts_aux same seen r else s :: firsts_aux same (seen ++ [s]) r
  end.
Definition firsts (same : snap -> snap -> bool) (h : list snap) : list snap := firsts_aux same [] h.
(* the record reported for the group of f *)
Definition report (same : snap -> snap -> bool) (key : snap -> list rent) (info : ainfo) (h : list snap) (f : snap) (slot : N) : option (list rent) :=
  let mem := filter (same f) h in
  match stats mem (i_aggr (s_info f)) (i_res info) with
  | Some st => Some (key f ++ st ++ [RImm (i_count info) (make_uint (N.of_nat (length mem))); RImm (i_slot info) (make_uint slot)])
  | None => None
  end.
Fixpoint reports (same : snap -> snap -> bool) (key : snap -> list rent) (info : ainfo) (h fs : list snap) (slot : N) : option (list (list rent)) :=
  match fs with
  | [] => Some []
  | f :: r => match report same key info h f slot, reports same key info h r (slot + 1) with Some x, Some l => Some (x :: l) | _, _ => None end
  end.
(* attribute lists only grow *)
Definition prefix {A} (a b : list A) : Prop := exists c, b = a ++ c.
Fixpoint growing (h : list snap) : Prop :=
  match h with [] => True | s :: r => Forall (fun t => prefix (i_aggr (s_info s)) (i_aggr (s_info t))) r /\ growing r end.
(* the select of a list of snapshots by a list of flags *)
Fixpoint pick {A} (b : bool) (l : list A) (fl : list bool) : list A :=
  match l, fl with x :: r, f :: q => if Bool.eqb f b then x :: pick b r q else pick b r q | _, _ => [] end.
(* two snapshots with the same aggregation key *)
Definition same_key (m : memory) (s t : snap) : bool := key_eqb m (full_key s) (full_key t).
