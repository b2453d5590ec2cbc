(* Model of the per-thread cache of the process blackboard:
   ThreadData::update_process_snapshot, src/caliper/Caliper.cpp:274-290, as a small-step system
   of any number of threads, with the update counter of Blackboard.cpp:62-121 and the
   process_blackboard_lock.
   Simplifications: the blackboard content is an arbitrary value (set of visible entries);
   a blackboard update is a sequence of writes with exactly one increment of the counter
   somewhere in it (set and exchange increment last, del before clearing its toc bit), or no
   write and no increment (del of an absent key). Sequential consistency of the atomic counter
   (std::atomic<int> with default ordering). *)
From Verif Require Import Base.
Local Open Scope Z_scope.

(* 32-bit two's complement, ++ on atomic<int> *)
Definition wrap32 (z : Z) : Z := (z + 2147483648) mod 4294967296 - 2147483648.

(* where a thread is *)
Inductive pc (A : Type) :=
| Idle
| WHeld                     (* holds the lock for an update, nothing written *)
| WDirty                    (* wrote, counter not yet incremented *)
| WCounted                  (* counter incremented *)
| RCalled                   (* inside a snapshot call, counter not read *)
| RLoaded (c : Z)           (* line 281 done *)
| RWait (c : Z)             (* line 282 true: wants the lock, line 286 *)
| RHeld (c : Z)             (* holds the lock *)
| RDone.                    (* process_snapshot is appended to the record *)
Arguments Idle {A}. Arguments WHeld {A}. Arguments WDirty {A}. Arguments WCounted {A}.
Arguments RCalled {A}. Arguments RLoaded {A}. Arguments RWait {A}. Arguments RHeld {A}. Arguments RDone {A}.

(* process_snapshot and process_bb_count (initially empty and -1, Caliper.cpp:253-260) *)
Record thr (A : Type) := mkthr { th_pc : pc A; th_cache : A; th_count : Z; th_start : nat (* ghost: number of updates completed when the snapshot call started *) }.
Arguments mkthr {A}. Arguments th_pc {A}. Arguments th_cache {A}. Arguments th_count {A}. Arguments th_start {A}.
(* lock holder, table content, counter, contents after each completed update (ghost), threads *)
Record sys (A : Type) := mksys { s_lock : option N; s_tab : A; s_cnt : Z; s_hist : list A; s_thr : N -> thr A }.
Arguments mksys {A}. Arguments s_lock {A}. Arguments s_tab {A}. Arguments s_cnt {A}. Arguments s_hist {A}. Arguments s_thr {A}.

Definition set_thr {A} (f : N -> thr A) (t : N) (x : thr A) : N -> thr A := fun j => if (j =? t)%N then x else f j.
Definition at_pc {A} (x : thr A) (p : pc A) : thr A := mkthr p (th_cache x) (th_count x) (th_start x).

Inductive pstep {A : Type} : sys A -> sys A -> Prop :=
| st_wlock s t : th_pc (s_thr s t) = Idle -> s_lock s = None ->
    pstep s (mksys (Some t) (s_tab s) (s_cnt s) (s_hist s) (set_thr (s_thr s) t (at_pc (s_thr s t) WHeld)))
| st_wnop s t : th_pc (s_thr s t) = WHeld ->
    pstep s (mksys None (s_tab s) (s_cnt s) (s_hist s) (set_thr (s_thr s) t (at_pc (s_thr s t) Idle)))
| st_wfirst s t x : th_pc (s_thr s t) = WHeld \/ th_pc (s_thr s t) = WDirty ->
    pstep s (mksys (s_lock s) x (s_cnt s) (s_hist s) (set_thr (s_thr s) t (at_pc (s_thr s t) WDirty)))
| st_wcount s t : th_pc (s_thr s t) = WDirty ->
    pstep s (mksys (s_lock s) (s_tab s) (wrap32 (s_cnt s + 1)) (s_hist s) (set_thr (s_thr s) t (at_pc (s_thr s t) WCounted)))
| st_wmore s t x : th_pc (s_thr s t) = WCounted ->
    pstep s (mksys (s_lock s) x (s_cnt s) (s_hist s) (s_thr s))
| st_wunlock s t : th_pc (s_thr s t) = WCounted ->
    pstep s (mksys None (s_tab s) (s_cnt s) (s_hist s ++ [s_tab s]) (set_thr (s_thr s) t (at_pc (s_thr s t) Idle)))
| st_call s t : th_pc (s_thr s t) = Idle ->
    pstep s (mksys (s_lock s) (s_tab s) (s_cnt s) (s_hist s)
       (set_thr (s_thr s) t (mkthr RCalled (th_cache (s_thr s t)) (th_count (s_thr s t)) (length (s_hist s) - 1))))
| st_load s t : th_pc (s_thr s t) = RCalled ->
    pstep s (mksys (s_lock s) (s_tab s) (s_cnt s) (s_hist s) (set_thr (s_thr s) t (at_pc (s_thr s t) (RLoaded (s_cnt s)))))
| st_test s t c : th_pc (s_thr s t) = RLoaded c ->
    pstep s (mksys (s_lock s) (s_tab s) (s_cnt s) (s_hist s)
       (set_thr (s_thr s) t (at_pc (s_thr s t) (if th_count (s_thr s t) <? c then RWait c else RDone))))
| st_rlock s t c : th_pc (s_thr s t) = RWait c -> s_lock s = None ->
    pstep s (mksys (Some t) (s_tab s) (s_cnt s) (s_hist s) (set_thr (s_thr s) t (at_pc (s_thr s t) (RHeld c))))
| st_rsnap s t c : th_pc (s_thr s t) = RHeld c ->
    pstep s (mksys None (s_tab s) (s_cnt s) (s_hist s) (set_thr (s_thr s) t (mkthr RDone (s_tab s) c (th_start (s_thr s t)))))
| st_return s t : th_pc (s_thr s t) = RDone ->
    pstep s (mksys (s_lock s) (s_tab s) (s_cnt s) (s_hist s) (set_thr (s_thr s) t (at_pc (s_thr s t) Idle))).

Inductive psteps {A : Type} : sys A -> sys A -> Prop :=
| ps_refl s : psteps s s
| ps_step s1 s2 s3 : psteps s1 s2 -> pstep s2 s3 -> psteps s1 s3.

(* the empty blackboard e; the history starts with it *)
Definition psys_init {A : Type} (e : A) : sys A := mksys None e 0 [e] (fun _ => mkthr Idle e (-1) 0).
