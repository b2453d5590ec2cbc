(* Model of the loop_monitor service, src/services/monitor/LoopMonitor.cpp.
   int counters are unbounded integers; the clock comparison of end_cb (lines 97-101) is an input. *)
From Verif Require Import Base.

(* events: begin / end of the loop attribute, begin / end of an attribute with the
   class.iteration property.  late: more than time_interval seconds since the last snapshot.
   Other attributes are ignored by the callbacks. *)
Inductive lev := LB (name : bytes) | LE | IB (v : Z) | IE (late : bool).
(* pushed snapshots: loop.iterations, and loop.start_iteration if it is present *)
Definition lsnap := (Z * option Z)%type.
(* configuration: iteration_interval, time_interval > 0, target_loops *)
Record lcfg := mklcfg { lc_iter : Z; lc_time : bool; lc_targets : list bytes }.
Record lst := mklst { l_level : Z; l_target : Z; l_start : Z; l_num : Z; l_snaps : list lsnap }.
(* constructor, 116-142 *)
Definition lst_init : lst := mklst 0 (-1) (-1) 0 [].

(* strncmp(value, s, s.size()) == 0: s is a prefix of value (for strings without NUL) *)
Fixpoint is_prefix (s v : bytes) : bool :=
  match s, v with
  | [], _ => true
  | a :: s', b :: v' => N.eqb a b && is_prefix s' v'
  | _, [] => false
  end.
(* is_target_loop, 44-54 *)
Definition is_target (c : lcfg) (name : bytes) : bool :=
  match lc_targets c with [] => true | l => existsb (fun s => is_prefix s name) l end.
(* snapshot, 56-69 *)
Definition l_snap (s : lst) : lst :=
  mklst (l_level s) (l_target s) (-1) 0 (l_snaps s ++ [(l_num s, if (0 <=? l_start s)%Z then Some (l_start s) else None)]).
Definition with_target (s : lst) (t : Z) : lst := mklst (l_level s) t (l_start s) (l_num s) (l_snaps s).
Definition with_level (s : lst) (l : Z) : lst := mklst l (l_target s) (l_start s) (l_num s) (l_snaps s).
(* begin_cb, 71-84; end_cb, 86-107 *)
Definition l_step (c : lcfg) (s : lst) (e : lev) : lst :=
  match e with
  | LB name =>
      let s1 := if (l_target s <? 0)%Z && is_target c name then l_snap (with_target s (l_level s + 1)) else s in
      with_level s1 (l_level s1 + 1)
  | IB v =>
      if (l_level s =? l_target s)%Z then
        mklst (l_level s) (l_target s) (if (l_start s <? 0)%Z then v else l_start s) (l_num s + 1) (l_snaps s)
      else s
  | LE =>
      let s1 := if (l_level s =? l_target s)%Z then with_target (l_snap s) (-1) else s in
      with_level s1 (l_level s1 - 1)
  | IE late =>
      if (l_level s =? l_target s)%Z then
        if ((0 <? lc_iter c)%Z && (Z.rem (l_num s) (lc_iter c) =? 0)%Z) || (lc_time c && late) then l_snap s else s
      else s
  end.
Definition l_run (c : lcfg) (s : lst) (evs : list lev) : lst := fold_left (l_step c) evs s.
