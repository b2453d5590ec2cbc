(* Model of the loop_statistics service, src/services/LoopStatistics.cpp.
   Events are the begin and end callbacks of the channel, with the attribute reduced to what the callbacks look at
   and the time (in ns) that clock::now() returns in the callback; steady_clock does not run backwards. *)
From Verif Require Import Base.
Open Scope N_scope.

(* attr == loop_attr; attr has the class.iteration metadata; anything else *)
Inductive lkind := KLoop | KIter | KOther.
Inductive sev := SBegin (k : lkind) (now : N) | SEnd (k : lkind) (now : N).
(* pushed snapshots: iter.count, iter.duration.ns *)
Inductive ssnap := Count (n : N) | Duration (ns : N).
(* LoopInfo, 30-33; m_loop_info with its back first *)
Record linfo := mkli { li_start : N; li_num : N }.
Record sst := mksst { ls_loops : list linfo; ls_snaps : list ssnap }.
Definition sst_init : sst := mksst [] [].
(* begin_cb, 40-48; end_cb, 50-66 *)
Definition ls_step (s : sst) (e : sev) : sst :=
  match e with
  | SBegin KLoop now => mksst (mkli now 0 :: ls_loops s) (ls_snaps s)
  | SBegin KIter now =>
      match ls_loops s with
      | i :: r => mksst (mkli now (li_num i + 1) :: r) (ls_snaps s)
      | [] => s
      end
  | SBegin KOther _ => s
  | SEnd k now =>
      match ls_loops s with
      | [] => s
      | i :: r =>
          match k with
          | KLoop => mksst r (ls_snaps s ++ [Count (li_num i)])
          | KIter => mksst (i :: r) (ls_snaps s ++ [Duration (now - li_start i)])
          | KOther => s
          end
      end
  end.
Definition ls_run (s : sst) (l : list sev) : sst := fold_left ls_step l s.
