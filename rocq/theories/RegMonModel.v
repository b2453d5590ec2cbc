(* Model of the region_monitor service, src/services/monitor/RegionMonitor.cpp.
   Simplified: times and durations are exact integers (the code: clock time points, and doubles in
   seconds for the durations and their sums); int and unsigned counters are unbounded; one thread. *)
From Verif Require Import Base.

(* Begin / end of an attribute.  nested: attr.is_nested(); node: the context tree node of the innermost
   open region with the attribute (Caliper::get(attr).node()) with the id of its parent (None: the root, or
   no parent), None if the entry is not a node (as_value attributes); t: the clock. *)
Inductive rev_ := RB (nested : bool) (node : option (N * option N)) (t : Z)
               | RE (nested : bool) (node : option (N * option N)) (t : Z).
(* calls to Caliper: pull_snapshot (its record is dropped; it resets the timers), push_snapshot *)
Inductive rout := Pull (id : N) | Push.
(* RegionInfo, lines 21-24: inclusive_time, child_time *)
Definition rinfo := (Z * Z)%type.
(* m_tracking_regions, m_time_stack (top first), m_measuring, m_skip, m_num_measured, 26-33 *)
Record rmst := mkrm { r_tab : list (N * rinfo); r_stack : list Z; r_meas : bool; r_skip : Z; r_num : N; r_outs : list rout }.
(* constructor, 115-119 *)
Definition rm_init : rmst := mkrm [] [] false 0 0 [].

(* unordered_map::find *)
Definition rtab_find (tab : list (N * rinfo)) (id : N) : option rinfo :=
  option_map snd (find (fun e => N.eqb (fst e) id) tab).
(* write through the iterator / insert *)
Fixpoint rtab_put (tab : list (N * rinfo)) (id : N) (i : rinfo) : list (N * rinfo) :=
  match tab with
  | [] => [(id, i)]
  | e :: r => if N.eqb (fst e) id then (id, i) :: r else e :: rtab_put r id i
  end.

(* post_begin_cb, 35-59 *)
Definition post_begin (s : rmst) (nested : bool) (node : option (N * option N)) (t : Z) : rmst :=
  if negb nested then s
  else if r_meas s then mkrm (r_tab s) (r_stack s) true (r_skip s + 1) (r_num s) (r_outs s)
  else match node with
  | None => s
  | Some (id, _) =>
      let st := t :: r_stack s in
      match rtab_find (r_tab s) id with
      | Some (inc, child) =>
          if (2 * child <? inc)%Z then mkrm (r_tab s) st true 1 (r_num s) (r_outs s ++ [Pull id])
          else mkrm (r_tab s) st false (r_skip s) (r_num s) (r_outs s)
      | None => mkrm (r_tab s) st false (r_skip s) (r_num s) (r_outs s)
      end
  end.

(* pre_end_cb from line 74 on: pop the time stack (None: back() of an empty vector, undefined),
   record the duration for the node and add it to the parent's child_time *)
Definition pre_end_tail (min : Z) (s : rmst) (node : option (N * option N)) (t : Z) : option rmst :=
  match node with
  | None => Some s
  | Some (id, parent) =>
      match r_stack s with
      | [] => None
      | prev :: st =>
          let d := (t - prev)%Z in
          let tab :=
            if (min <? d)%Z then
              let tab1 := match rtab_find (r_tab s) id with
                          | Some (_, child) => rtab_put (r_tab s) id (d, child)
                          | None => rtab_put (r_tab s) id (d, 0%Z)
                          end in
              match parent with
              | None => tab1
              | Some pid =>
                  match rtab_find tab1 pid with
                  | Some (inc, child) => rtab_put tab1 pid (inc, (child + d)%Z)
                  | None => rtab_put tab1 pid (0%Z, d)
                  end
              end
            else r_tab s in
          Some (mkrm tab st (r_meas s) (r_skip s) (r_num s) (r_outs s))
      end
  end.

(* pre_end_cb, 61-107 *)
Definition pre_end (min : Z) (s : rmst) (nested : bool) (node : option (N * option N)) (t : Z) : option rmst :=
  if negb nested then Some s
  else if r_meas s then
    let k := (r_skip s - 1)%Z in
    if (0 <? k)%Z then Some (mkrm (r_tab s) (r_stack s) true k (r_num s) (r_outs s))
    else pre_end_tail min (mkrm (r_tab s) (r_stack s) false k (r_num s + 1) (r_outs s ++ [Push])) node t
  else pre_end_tail min s node t.

Definition rm_step (min : Z) (s : rmst) (e : rev_) : option rmst :=
  match e with
  | RB n nd t => Some (post_begin s n nd t)
  | RE n nd t => pre_end min s n nd t
  end.
(* the events of a run, in order *)
Fixpoint rm_run (min : Z) (s : rmst) (l : list rev_) : option rmst :=
  match l with
  | [] => Some s
  | e :: r => match rm_step min s e with Some s' => rm_run min s' r | None => None end
  end.
