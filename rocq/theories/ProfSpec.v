(* What the profile of a thread should say: how long it was in which region. *)
From Verif Require Import Base VariantModel VariantSpec TreeModel TreeSpec RuntimeModel RuntimeSpec RtAggModel RFilterModel EventModel ProfModel.
Open Scope N_scope.

(* region attributes: nested, thread scope, visible, with events *)
Definition region_attr (a : attr) : bool :=
  match scope_of a with ScThread => true | _ => false end && negb (asvalue a) && negb (unaligned a) && visible_flag a && run_events a.
(* attributes that services keep their own data in: hidden values without events *)
Definition internal_attr (a : attr) : bool := asvalue a && negb (visible_flag a) && negb (run_events a).
(* calls that open, close or change regions *)
Definition moves (o : rop) : bool :=
  match o with OBegin a _ | OEnd a | OEndCheck a _ | OSet a _ => region_attr a | _ => false end.
(* the calls of a program that only uses region attributes and internal ones; tree nodes are not
   created by two threads at once *)
Definition plain_op (o : rop) : Prop :=
  match o with
  | OBegin a _ | OEnd a | OEndCheck a _ | OSet a _ | OGet a => region_attr a = true \/ internal_attr a = true
  | OTree (TRawCreate _ _ _) => False
  | _ => True
  end.
(* thread t's region calls with their times *)
Definition timeline (t : N) (h : list (N * N * rop)) : list (N * rop) :=
  flat_map (fun x => let '(u, n, o) := x in if (u =? t) && moves o then [(n, o)] else []) h.
(* the open regions, outermost first *)
Definition path := list (N * value).
Definition after (p : path) (o : rop) : path :=
  match o with
  | OBegin a v => p ++ [(at_id a, v)]
  | OEnd _ | OEndCheck _ _ => removelast p
  | OSet a v => rm_innermost (at_id a) p ++ [(at_id a, v)]
  | _ => p
  end.
Definition is_end (o : rop) : bool := match o with OEnd _ | OEndCheck _ _ => true | _ => false end.
(* the stretches of time between consecutive region calls: where the thread was, for how long, and
   whether the stretch was ended by closing the region *)
Fixpoint stretches (since : N) (p : path) (l : list (N * rop)) : list (path * N * bool) :=
  match l with
  | [] => []
  | (n, o) :: r => (p, n - since, is_end o) :: stretches n (after p o) r
  end.
Lemma region_eq_dec (x y : N * value) : {x = y} + {x <> y}.
Proof. decide equality; [apply value_eq_dec|apply N.eq_dec]. Qed.
Definition path_eqb (p q : path) : bool := if list_eq_dec region_eq_dec p q then true else false.
(* time spent in p itself, number of times p was closed, number of stretches *)
Definition at_path (p : path) (l : list (path * N * bool)) : list (path * N * bool) := filter (fun x => path_eqb (fst (fst x)) p) l.
Definition nsum (l : list N) : N := fold_right N.add 0 l.
Definition spent (p : path) (l : list (path * N * bool)) : N := nsum (map (fun x => snd (fst x)) (at_path p l)).
Definition closed (p : path) (l : list (path * N * bool)) : N := N.of_nat (length (filter snd (at_path p l))).
Definition pieces (p : path) (l : list (path * N * bool)) : N := N.of_nat (length (at_path p l)).
(* the clock of the thread does not run backwards *)
Fixpoint ordered (since : N) (l : list (N * rop)) : Prop :=
  match l with [] => True | (n, _) :: r => since <= n /\ n < 18446744073709551616 /\ ordered n r end.

(* reading a flushed record: the regions its references stand for, and its unsigned values *)
Definition rec_path (tr : tree) (r : list rent) : path :=
  flat_map (fun e => match e with RRef i => match node_at tr i with Some n => ent_view tr (Some (i, n_val n)) | None => [] end | RImm _ _ => [] end) r.
Definition rec_val (r : list rent) (a : N) : list N :=
  flat_map (fun e => match e with RImm b v => if b =? a then [word v] else [] | RRef _ => [] end) r.
(* shortest and longest stretch *)
Definition durations (p : path) (l : list (path * N * bool)) : list N := map (fun x => snd (fst x)) (at_path p l).
Definition least (l : list N) : N := match l with [] => 0 | d :: r => fold_left N.min r d end.
Definition greatest (l : list N) : N := match l with [] => 0 | d :: r => fold_left N.max r d end.
(* the time of the last region call *)
Definition end_time (l : list (N * rop)) : N := last (map fst l) 0.
(* all calls of the program, without the times *)
Definition prog (h : list (N * N * rop)) : list (N * rop) := map (fun x => (fst (fst x), snd x)) h.
(* the ids of the attributes that results are reported under *)
Definition result_ids (i : ainfo) : list N := flat_map (fun x => let '(a, b, c, d) := x in [a; b; c; d]) (i_res i) ++ [i_count i; i_slot i].
Definition is_attribute (tr : tree) (k : N) : Prop := exists n, In n (t_nodes tr) /\ n_id n = k /\ n_attr n = NAME_ATTR_ID.
(* the statistics of the k-th aggregated attribute *)
Definition reports_stats (i : ainfo) (k : nat) (a amin amax asum aavg : N) : Prop :=
  nth_error (i_aggr i) k = Some a /\ nth_error (i_res i) k = Some (amin, amax, asum, aavg).
(* a channel set up for a time profile by region in state s: it is active, its event service marks
   regions without filters and records no extra event attributes, it aggregates over all
   regions, and the attributes of time and count values and of the results are different ones *)
Record profiling (c : pcfg) (s : rt) : Prop := mkprof {
  pf_active : In (pc_chn c) (r_act s);
  pf_info : ec_info (pc_event c) = false;
  pf_region : has_filters (ec_region (pc_event c)) = false;
  pf_branch : has_filters (ec_branch (pc_event c)) = false;
  pf_keys : i_keys (pc_info c) = [];
  pf_res : (length (i_aggr (pc_info c)) <= length (i_res (pc_info c)))%nat;
  pf_ids : NoDup (result_ids (pc_info c));
  pf_vals : NoDup [pc_off c; pc_dur c; pc_cnt c];
  pf_attrs : Forall (is_attribute (r_tree s)) [pc_off c; pc_dur c; pc_cnt c]
}.
(* the program does not switch the channel on or off *)
Definition leaves_channel (ch : N) (o : rop) : Prop := o <> OActivate ch /\ o <> ODeactivate ch.
