(* What the time series of a program says: where a thread spent its time between the snapshots. *)
From Verif Require Import Base VariantModel VariantSpec TreeModel RuntimeModel RtAggModel ProfSpec TimeserModel.
Open Scope N_scope.

(* the time of a thread's last region call, and where it is after it *)
Definition last_time (since : N) (l : list (N * rop)) : N := last (map fst l) since.
Definition place (q : path) (l : list (N * rop)) : path := fold_left after (map snd l) q.
(* an interval: the thread's region calls up to the snapshot, and those made while it was being taken *)
Definition interval := (list (N * rop) * list (N * rop))%type.
(* the stretches that ended in each interval, except for those that ended during a snapshot *)
Fixpoint by_interval (since : N) (q : path) (l : list interval) : list (list (path * N * bool)) :=
  match l with
  | [] => []
  | (a, d) :: r => stretches since q a :: by_interval (last_time since (a ++ d)) (place q (a ++ d)) r
  end.
(* the time that records report for a place, as values of the attribute k *)
Definition reported (tr : tree) (k : N) (q : path) (recs : list (list rent)) : N :=
  nsum (flat_map (fun r => rec_val r k) (filter (fun r => path_eqb (rec_path tr r) q) recs)).
(* all API calls of a program with snapshots, in order *)
Definition all_calls (rs : list round) : list (N * N * rop) := flat_map (fun r => rd_calls r ++ rd_during r) rs.
Definition intervals (t : N) (rs : list round) : list interval := map (fun r => (timeline t (rd_calls r), timeline t (rd_during r))) rs.
(* the time of thread u's last snapshot among the first i ones *)
Definition previous (init : option N) (u : N) (rs : list round) (i : nat) : option N :=
  last (map (fun r => Some (rd_clock r)) (filter (fun r => rd_thr r =? u) (firstn i rs))) init.
