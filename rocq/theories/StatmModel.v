(* Model of the memstat service, src/services/memusage/MemStatService.cpp: numbers of /proc/self/statm in snapshots.
   The file's content is the environment's; pread delivers at most sizeof(buf) = 80 bytes of it or fails. *)
From Verif Require Import Base.

(* MemStatService.cpp:23-40 parse_statm; the array of six numbers as a function of the index, nn the current one *)
Definition upd (f : nat -> N) (k : nat) (v : N) : nat -> N := fun i => if Nat.eqb i k then v else f i.
Fixpoint parse_statm (l : bytes) (f : nat -> N) (nn : nat) : nat -> N :=
  match l with
  | [] => f
  | c :: l =>
      if Nat.leb 6 nn then f
      else if (48 <=? c) && (c <=? 57) then parse_statm l (upd f nn (wrap64 (f nn * 10 + (c - 48)))) nn
      else if c =? 32 then parse_statm l f (S nn)
      else parse_statm l f nn
  end.
(* MemStatService.cpp:52-69 snapshot_cb: memstat.vmsize, memstat.vmrss, memstat.data appended to the snapshot record; None: pread failed *)
Definition buf_size : nat := 80.
Definition snapshot_cb (file : option bytes) (failed : N) (rec : list (N * N)) : list (N * N) * N :=
  match file with
  | None => (rec, failed + 1)
  | Some content => let val := parse_statm (firstn buf_size content) (fun _ => 0) 0 in (rec ++ [(0, val 0%nat); (1, val 1%nat); (2, val 5%nat)], failed)
  end.
