(* Model of the runtime aggregation database, src/services/aggregate/AggregationDB.{h,cpp}.
   Values are C variants (VariantModel); string contents are read in a memory m that stays fixed.
   Histograms (CALIPER_ENABLE_HISTOGRAMS, off by default), m_max_hash_len and bytes_reserved
   (statistics for the log) are not modelled.  None = undefined behaviour or out-of-bounds access. *)
From Verif Require Import Base VariantModel ArithModel.
Open Scope nat_scope.

(* Entry, include/caliper/common/Entry.h:30-104: reference entry (node id) or immediate entry
   (id of the attribute node, value).  Whether a node is an attribute node is a fixed fact about the
   node, so an id occurs in entries of one kind only. *)
Inductive rent := RRef (id : N) | RImm (attr : N) (v : cvar).
(* e.node()->id() *)
Definition r_node (e : rent) : N := match e with RRef i => i | RImm a _ => a end.
(* operator==, Entry.h:105-111; Node ids identify nodes *)
Definition rent_eqb (m : memory) (a b : rent) : bool :=
  match a, b with
  | RRef i, RRef j => N.eqb i j
  | RImm x v, RImm y w => N.eqb x y && var_eq m v w
  | _, _ => false
  end.
(* std::equal on two ranges of the same length *)
Fixpoint key_eqb (m : memory) (a b : list rent) : bool :=
  match a, b with
  | [], [] => true
  | x :: a', y :: b' => rent_eqb m x y && key_eqb m a' b'
  | _, _ => false
  end.
(* SnapshotView::get_immediate_entry, SnapshotRecord.h:52-61 *)
Definition get_imm (rec : list rent) (a : N) : option rent := find (fun e => N.eqb (r_node e) a) rec.
(* Entry::value(), Entry.h:78; for a reference entry the node's data, which get_immediate_entry
   never returns *)
Definition r_val (e : rent) : cvar := match e with RImm _ v => v | RRef _ => empty_var end.

(* AggregateKernel, AggregationDB.h:40-65; the count is a 32-bit unsigned *)
Record kern := mkkern { k_min : cvar; k_max : cvar; k_sum : cvar; k_cnt : N }.
Definition kern0 : kern := mkkern empty_var empty_var empty_var 0%N.
(* update, AggregationDB.h:67-70 *)
Definition kern_update (k : kern) (v : cvar) : option kern :=
  match cv_minmaxsum v (k_min k) (k_max k) (k_sum k) with
  | Some (mn, mx, sm) => Some (mkkern mn mx sm (N.modulo (k_cnt k + 1) 4294967296))
  | None => None
  end.
(* AggregateEntry, AggregationDB.h:103-110 *)
Record aent := mkaent { a_cnt : N; a_kidx : nat; a_klen : nat; a_nidx : nat; a_nk : nat; a_next : nat }.
(* AttributeInfo, AggregationDB.h:21-38: immediate key attributes, aggregated attributes,
   their result attributes (min, max, sum, avg), count and slot attributes *)
Record ainfo := mkinfo { i_keys : list N; i_aggr : list N; i_res : list (N * N * N * N); i_count : N; i_slot : N }.
(* the vectors m_entries, m_keyents, m_kernels, m_hashmap and the capacities of the first three *)
Record adb := mkadb { d_ents : list aent; d_keyents : list rent; d_kerns : list kern; d_hash : list nat;
                      d_ecap : nat; d_kcap : nat; d_ncap : nat }.
Definition NBUCKETS : nat := 8192.
Definition MAXKEY : nat := 16.
(* constructor, AggregationDB.cpp:186-212; sk is the id of the "skipped.records=SKIPPED" node *)
Definition adb_init (sk : N) : adb :=
  mkadb [mkaent 0%N 0 1 0 0 0] [RRef sk] [] (repeat 0 NBUCKETS) 4096 16384 16384.
(* growth of a std::vector of size n and capacity cap by k elements at once (libstdc++) *)
Definition vgrow (cap n k : nat) : nat := if n + k <=? cap then cap else n + Nat.max n k.
Fixpoint vgrow_push (cap n k : nat) : nat := match k with O => cap | S j => vgrow_push (vgrow cap n 1) (S n) j end.

(* the key range of an entry, m_keyents[key_idx .. key_idx+key_len) *)
Definition range {A} (l : list A) (i n : nat) : option (list A) := if i + n <=? length l then Some (firstn n (skipn i l)) else None.
(* the chain walk, AggregationDB.cpp:27-32; the outer None: bad access, the inner one: not found *)
Fixpoint achain (m : memory) (fuel : nat) (d : adb) (key : list rent) (i : nat) : option (option nat) :=
  match fuel with
  | O => None
  | S f => match i with
           | O => Some None
           | _ => match nth_error (d_ents d) i with
                  | None => None
                  | Some e =>
                      if length key =? a_klen e then
                        match range (d_keyents d) (a_kidx e) (a_klen e) with
                        | None => None
                        | Some k => if key_eqb m key k then Some (Some i) else achain m f d key (a_next e)
                        end
                      else achain m f d key (a_next e)
                  end
           end
  end.
Fixpoint set_nth {A} (l : list A) (i : nat) (x : A) : list A :=
  match l, i with [], _ => [] | _ :: r, O => x :: r | y :: r, S j => y :: set_nth r j x end.
(* find_or_create_entry, AggregationDB.cpp:20-70; the result is the entry's index *)
Definition find_or_create (m : memory) (d : adb) (key : list rent) (hash : N) (naggr : nat) (can_alloc : bool) : option (nat * adb) :=
  let h := N.to_nat (N.modulo hash (N.of_nat NBUCKETS)) in
  match nth_error (d_hash d) h with
  | None => None
  | Some top =>
      match achain m (S (length (d_ents d))) d key top with
      | None => None
      | Some (Some i) => Some (i, d)
      | Some None =>
          let ne := length (d_ents d) in let nk := length (d_keyents d) in let nn := length (d_kerns d) in
          if negb can_alloc && ((d_ncap d <=? nn + naggr) || (d_kcap d <=? nk + length key) || (d_ecap d <=? ne + 1))
          then Some (0, d)
          else Some (ne, mkadb (d_ents d ++ [mkaent 0%N nk (length key) nn naggr top])
                               (d_keyents d ++ key) (d_kerns d ++ repeat kern0 naggr) (set_nth (d_hash d) h ne)
                               (vgrow (d_ecap d) ne 1) (vgrow_push (d_kcap d) nk (length key)) (vgrow (d_ncap d) nn naggr))
      end
  end.

(* the key of a snapshot and its hash, process_snapshot, AggregationDB.cpp:74-95: builder().append
   drops entries beyond MAX_KEYLEN (SnapshotRecord.h:104-110), the hash includes them *)
Definition kappend (key : list rent) (e : rent) : list rent := if length key <? MAXKEY then key ++ [e] else key.
Definition is_ref (e : rent) : bool := match e with RRef _ => true | RImm _ _ => false end.
Definition key_step (st : option (list rent * N)) (e : rent) : option (list rent * N) :=
  match st with
  | None => None
  | Some (k, h) =>
      match e with
      | RRef i => Some (kappend k e, wrap64 (h + i))
      | RImm a v => match conv_val (to_uint v) with
                    | Some z => Some (kappend k e, wrap64 (wrap64 (h + a) + Z.to_N z))
                    | None => None
                    end
      end
  end.
Definition imm_keys (keys : list N) (rec : list rent) : list rent :=
  flat_map (fun a => match get_imm rec a with Some e => [e] | None => [] end) keys.
Definition make_key (info : ainfo) (rec : list rent) : option (list rent * N) :=
  fold_left key_step (filter is_ref rec ++ imm_keys (i_keys info) rec) (Some ([], 0%N)).
(* the kernel loop, AggregationDB.cpp:103-110: a counts up from a0, n iterations *)
Fixpoint upd_kerns (kerns : list kern) (base : nat) (rec : list rent) (attrs : list N) (n : nat) {struct n} : option (list kern) :=
  match n, attrs with
  | O, _ => Some kerns
  | S j, [] => None
  | S j, a :: r =>
      match get_imm rec a with
      | None => upd_kerns kerns (S base) rec r j
      | Some e => match nth_error kerns base with
                  | None => None
                  | Some k => match kern_update k (r_val e) with
                              | None => None
                              | Some k' => upd_kerns (set_nth kerns base k') (S base) rec r j
                              end
                  end
      end
  end.
(* process_snapshot, AggregationDB.cpp:72-111 *)
Definition process (m : memory) (d : adb) (info : ainfo) (can_alloc : bool) (rec : list rent) : option adb :=
  match make_key info rec with
  | None => None
  | Some (key, hash) =>
      match find_or_create m d key hash (length (i_aggr info)) can_alloc with
      | None => None
      | Some (i, d1) =>
          match nth_error (d_ents d1) i with
          | None => None
          | Some e =>
              let e' := mkaent (wrap64 (a_cnt e + 1)) (a_kidx e) (a_klen e) (a_nidx e) (a_nk e) (a_next e) in
              match upd_kerns (d_kerns d1) (a_nidx e) rec (i_aggr info) (Nat.min (a_nk e) (length (i_aggr info))) with
              | None => None
              | Some ks => Some (mkadb (set_nth (d_ents d1) i e') (d_keyents d1) ks (d_hash d1) (d_ecap d1) (d_kcap d1) (d_ncap d1))
              end
          end
      end
  end.
(* clear, AggregationDB.cpp:113-121; resize keeps the capacity *)
Definition aclear (d : adb) : option adb :=
  match d_ents d with
  | [] => None
  | e :: _ => Some (mkadb [mkaent 0%N (a_kidx e) (a_klen e) (a_nidx e) (a_nk e) (a_next e)] [] []
                          (map (fun _ => 0) (d_hash d)) (d_ecap d) (d_kcap d) (d_ncap d))
  end.
(* the kernel part of a flushed record, AggregationDB.cpp:139-157 *)
Fixpoint flush_kerns (ks : list kern) (res : list (N * N * N * N)) : option (list rent) :=
  match ks with
  | [] => Some []
  | k :: r =>
      if N.eqb (k_cnt k) 0 then match res with [] => flush_kerns r [] | _ :: q => flush_kerns r q end
      else match res with
           | [] => None
           | (amin, amax, asum, aavg) :: q =>
               match cv_div (k_sum k) (k_cnt k), flush_kerns r q with
               | Some avg, Some l => Some (RImm amin (k_min k) :: RImm amax (k_max k) :: RImm asum (k_sum k) :: RImm aavg avg :: l)
               | _, _ => None
               end
           end
  end.
(* flush, AggregationDB.cpp:123-172 *)
Fixpoint flush_ents (d : adb) (info : ainfo) (es : list aent) (slot : N) : option (list (list rent)) :=
  match es with
  | [] => Some []
  | e :: r =>
      if N.eqb (a_cnt e) 0 then flush_ents d info r slot
      else match range (d_keyents d) (a_kidx e) (a_klen e), range (d_kerns d) (a_nidx e) (a_nk e) with
           | Some key, Some ks =>
               match flush_kerns ks (i_res info), flush_ents d info r (slot + 1) with
               | Some stats, Some l => Some ((key ++ stats ++ [RImm (i_count info) (make_uint (a_cnt e)); RImm (i_slot info) (make_uint slot)]) :: l)
               | _, _ => None
               end
           | _, _ => None
           end
  end.
Definition aflush (d : adb) (info : ainfo) : option (list (list rent)) := flush_ents d info (d_ents d) 0%N.
(* num_dropped, AggregationDB.h:145 *)
Definition num_dropped (d : adb) : N := match d_ents d with [] => 0%N | e :: _ => a_cnt e end.
