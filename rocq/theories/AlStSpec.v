(* Specification: what the statistics say about a sequence of allocations and frees *)
From Verif Require Import Base AlStModel.
Open Scope Z_scope.

Definition zsum (l : list Z) : Z := fold_right Z.add 0 l.
Definition zmax (l : list Z) : Z := fold_right Z.max 0 l.
(* change of the allocated memory *)
Definition delta (e : aev) : Z := if ae_free e then - ae_size e else ae_size e.
Definition is_alloc (e : aev) : bool := negb (ae_free e).
Definition at_path (p : N) (e : aev) : bool := N.eqb (ae_path e) p.
Definition by_thread (i : nat) (e : aev) : bool := Nat.eqb (ae_th e) i.
(* the largest amount of memory that was allocated at any time, starting at amount x *)
Fixpoint peak (x : Z) (l : list Z) : Z := match l with [] => x | d :: r => Z.max x (peak (x + d) r) end.

(* the statistics of a region: its number of allocations, largest and average allocation, and peak *)
Definition region_record (log : list aev) (p : N) (r : arec) : Prop :=
  let l := filter (at_path p) log in
  let al := filter is_alloc l in
  ar_path r = Some p /\ ar_count r = Z.of_nat (length al) /\ 0 < ar_count r /\ ar_max r = zmax (map ae_size al) /\
  ar_avg r = zsum (map ae_size al) / ar_count r /\ ar_tally r = peak 0 (map delta l).
(* one record for each region with allocations *)
Definition flush_ok (log : list aev) (l : list arec) : Prop :=
  NoDup (map ar_path l) /\ (forall r, In r l -> exists p, region_record log p r) /\
  (forall e, In e log -> exists r, In r l /\ region_record log (ae_path e) r).

(* The allocator and the program: sizes are not negative; an address is handed out only while it is not allocated
   and nobody is in the middle of an operation on it; it is freed only when no operation on it is going on. *)
Definition busy (s : alst) (a : N) : Prop :=
  exists i sz p, nth_error (a_pc s) i = Some (T2 a sz p) \/ nth_error (a_pc s) i = Some (T3 a sz p) \/
                 nth_error (a_pc s) i = Some (U2 a sz p) \/ nth_error (a_pc s) i = Some (U3 a sz p).
Definition disciplined (s : alst) (e : astep) : Prop :=
  match e with
  | ATrack _ a sz _ => 0 <= sz /\ mfind (a_alloc s) a = None /\ ~ busy s a
  | AUntrack _ a => ~ busy s a
  | _ => True
  end.
Inductive al_run (n : nat) : list astep -> alst -> Prop :=
| alr_init : al_run n [] (al_init n)
| alr_step l s e s' : al_run n l s -> disciplined s e -> al_step s e = Some s' -> al_run n (l ++ [e]) s'.
(* what is allocated at address a after a sequence of allocations and frees: size and path *)
Definition live (log : list aev) (a : N) : option (Z * N) :=
  match find (fun e => N.eqb (ae_addr e) a) (rev log) with
  | Some e => if ae_free e then None else Some (ae_size e, ae_path e)
  | None => None
  end.
(* every free releases the allocation at its address *)
Definition matched (log : list aev) : Prop :=
  forall l1 e l2, log = l1 ++ e :: l2 -> ae_free e = true -> live l1 (ae_addr e) = Some (ae_size e, ae_path e).
Definition quiet (s : alst) : Prop := Forall (fun pc => pc = Idle) (a_pc s).
(* the bytes that are allocated: all, or in one region *)
Definition bytes_live (m : list (N * (Z * N))) : Z := zsum (map (fun e => fst (snd e)) m).
Definition bytes_at (p : N) (m : list (N * (Z * N))) : Z := zsum (map (fun e => fst (snd e)) (filter (fun e => N.eqb (snd (snd e)) p) m)).
(* a sequence of steps *)
Inductive al_steps : alst -> list astep -> alst -> Prop :=
| als_nil s : al_steps s [] s
| als_cons s e s1 l s2 : disciplined s e -> al_step s e = Some s1 -> al_steps s1 l s2 -> al_steps s (e :: l) s2.
(* the allocations and frees of a sequence of calls: a free without an allocation, and an allocation outside of any
   region, do not count *)
Definition call_step (log : list aev) (e : astep) : list aev :=
  match e with
  | ATrack i a sz (Some p) => log ++ [mkaev i false a sz p]
  | AUntrack i a => match live log a with Some (sz, p) => log ++ [mkaev i true a sz p] | None => log end
  | _ => log
  end.
Definition call_log (l : list astep) : list aev := fold_left call_step l [].
(* the bytes of all allocations *)
Definition all_bytes (log : list aev) : Z := zsum (map ae_size (filter is_alloc log)).
