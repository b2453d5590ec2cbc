(* Model of the allocstats service, src/services/alloc/AllocStatsService.cpp, with concurrent threads: each
   section under one of the three locks is one atomic step.
   Simplified: uint64_t values are unbounded integers (C75_bounds: they stay between 0 and the sum of all sizes);
   the counters of the log line in finish_cb are left out; the size is given (the product in line 68). *)
From Verif Require Import Base.
Open Scope Z_scope.

(* RegionInfo, lines 31-38; ri_path None: a null pointer *)
Record ri := mkri { ri_cur : Z; ri_tot : Z; ri_max : Z; ri_hwm : Z; ri_cnt : Z; ri_path : option N }.
(* where a thread is: outside of the callbacks, or before the second or third section of track_mem_cb
   (address, size, path) or untrack_mem_cb *)
Inductive apc := Idle | T2 (a : N) (sz : Z) (p : N) | T3 (a : N) (sz : Z) (p : N) | U2 (a : N) (sz : Z) (p : N) | U3 (a : N) (sz : Z) (p : N).
(* what a section did (only for the specification): thread, untrack?, address, size, path *)
Record aev := mkaev { ae_th : nat; ae_free : bool; ae_addr : N; ae_size : Z; ae_path : N }.
(* a flushed record: path, alloc.tally, alloc.count, max#alloc.size, avg#alloc.size *)
Record arec := mkarec { ar_path : option N; ar_tally : Z; ar_count : Z; ar_max : Z; ar_avg : Z }.
(* alloc.region.highwatermark of a snapshot; the records of a flush *)
Inductive aout := OSnap (hwm : Z) | OFlush (l : list arec).
(* g_alloc_map, g_region_map, g_active_mem, g_region_hwm, the threads; a_alog, a_blog, a_clog: the sections under
   g_alloc_map_lock, g_region_map_lock, g_hwm_lock in order (not in the code), the output *)
Record alst := mkal { a_alloc : list (N * (Z * N)); a_reg : list (N * ri); a_act : Z; a_hwm : Z; a_pc : list apc;
  a_alog : list aev; a_blog : list aev; a_clog : list aev; a_out : list aout }.
Definition al_init (threads : nat) : alst := mkal [] [] 0 0 (repeat Idle threads) [] [] [] [].

(* unordered_map: find, assignment, erase *)
Definition mfind {A} (m : list (N * A)) (k : N) : option A := option_map snd (find (fun e => N.eqb (fst e) k) m).
Fixpoint mput {A} (m : list (N * A)) (k : N) (x : A) : list (N * A) :=
  match m with [] => [(k, x)] | e :: r => if N.eqb (fst e) k then (k, x) :: r else e :: mput r k x end.
Definition mdel {A} (m : list (N * A)) (k : N) : list (N * A) := filter (fun e => negb (N.eqb (fst e) k)) m.
Fixpoint lset {A} (l : list A) (i : nat) (x : A) : list A :=
  match l, i with [] , _ => [] | _ :: r, O => x :: r | y :: r, S j => y :: lset r j x end.

Inductive astep :=
| ATrack (i : nat) (a : N) (sz : Z) (p : option N)   (* track_mem_cb up to line 81; p: the path node, None: no open region *)
| AUntrack (i : nat) (a : N)                           (* untrack_mem_cb up to line 121 *)
| ACont (i : nat)                                      (* the next section of the thread's callback *)
| ASnap                                                (* snapshot_cb, 134-144 *)
| AFlush.                                              (* flush_cb, 146-177 *)

(* lines 83-96 *)
Definition reg_track (m : list (N * ri)) (p : N) (sz : Z) : list (N * ri) :=
  match mfind m p with
  | None => mput m p (mkri sz sz sz sz 1 (Some p))
  | Some r => mput m p (mkri (ri_cur r + sz) (ri_tot r + sz) (Z.max (ri_max r) sz) (Z.max (ri_hwm r) (ri_cur r + sz)) (ri_cnt r + 1) (ri_path r))
  end.
(* line 125: operator[] inserts a zero RegionInfo if there is none *)
Definition reg_untrack (m : list (N * ri)) (p : N) (sz : Z) : list (N * ri) :=
  match mfind m p with
  | None => mput m p (mkri (- sz) 0 0 0 0 None)
  | Some r => mput m p (mkri (ri_cur r - sz) (ri_tot r) (ri_max r) (ri_hwm r) (ri_cnt r) (ri_path r))
  end.
(* lines 163-174; None: division by zero *)
Fixpoint flush_recs (m : list (N * ri)) : option (list arec) :=
  match m with
  | [] => Some []
  | (_, r) :: l =>
      if ri_cnt r =? 0 then None
      else match flush_recs l with
           | Some x => Some (mkarec (ri_path r) (ri_hwm r) (ri_cnt r) (ri_max r) (Z.quot (ri_tot r) (ri_cnt r)) :: x)
           | None => None
           end
  end.

Definition al_step (s : alst) (e : astep) : option alst :=
  match e with
  | ATrack i a sz p =>
      match nth_error (a_pc s) i, p with
      | Some Idle, None => Some s
      | Some Idle, Some p =>
          Some (mkal (mput (a_alloc s) a (sz, p)) (a_reg s) (a_act s) (a_hwm s) (lset (a_pc s) i (T2 a sz p))
            (a_alog s ++ [mkaev i false a sz p]) (a_blog s) (a_clog s) (a_out s))
      | _, _ => None
      end
  | AUntrack i a =>
      match nth_error (a_pc s) i with
      | Some Idle =>
          match mfind (a_alloc s) a with
          | None => Some s
          | Some (sz, p) =>
              Some (mkal (mdel (a_alloc s) a) (a_reg s) (a_act s) (a_hwm s) (lset (a_pc s) i (U2 a sz p))
                (a_alog s ++ [mkaev i true a sz p]) (a_blog s) (a_clog s) (a_out s))
          end
      | _ => None
      end
  | ACont i =>
      match nth_error (a_pc s) i with
      | Some (T2 a sz p) =>
          Some (mkal (a_alloc s) (reg_track (a_reg s) p sz) (a_act s) (a_hwm s) (lset (a_pc s) i (T3 a sz p))
            (a_alog s) (a_blog s ++ [mkaev i false a sz p]) (a_clog s) (a_out s))
      | Some (T3 a sz p) =>                                                     (* 98-103 *)
          Some (mkal (a_alloc s) (a_reg s) (a_act s + sz) (Z.max (a_hwm s) (a_act s + sz)) (lset (a_pc s) i Idle)
            (a_alog s) (a_blog s) (a_clog s ++ [mkaev i false a sz p]) (a_out s))
      | Some (U2 a sz p) =>
          Some (mkal (a_alloc s) (reg_untrack (a_reg s) p sz) (a_act s) (a_hwm s) (lset (a_pc s) i (U3 a sz p))
            (a_alog s) (a_blog s ++ [mkaev i true a sz p]) (a_clog s) (a_out s))
      | Some (U3 a sz p) =>                                                     (* 128-131 *)
          Some (mkal (a_alloc s) (a_reg s) (a_act s - sz) (a_hwm s) (lset (a_pc s) i Idle)
            (a_alog s) (a_blog s) (a_clog s ++ [mkaev i true a sz p]) (a_out s))
      | _ => None
      end
  | ASnap => Some (mkal (a_alloc s) (a_reg s) (a_act s) (a_act s) (a_pc s) (a_alog s) (a_blog s) (a_clog s) (a_out s ++ [OSnap (a_hwm s)]))
  | AFlush =>
      match flush_recs (a_reg s) with
      | Some l => Some (mkal (a_alloc s) (a_reg s) (a_act s) (a_hwm s) (a_pc s) (a_alog s) (a_blog s) (a_clog s) (a_out s ++ [OFlush l]))
      | None => None
      end
  end.
