(* Model of the allocation tracking service, src/services/alloc/AllocService.cpp, on top of the splay
   tree model.  The callbacks may run on several threads; they are split at their critical sections
   (g_hwm_lock, g_tree_lock), each of which is one step.  What a thread does next is kept in al_pins
   (allocations counted but not yet in the tree) and al_psub (allocations out of the tree but not yet
   subtracted).  Labels, extra attributes and the entries made from them are not modelled; snapshots are
   reduced to the values they carry.  The statistics for the log (lines 144-147) are modelled except for
   g_max_tracked.  The unlocked read of g_active_mem in snapshot_cb (line 326, a data race in the
   program) is one atomic read here. *)
From Verif Require Import Base SplayModel.
Open Scope N_scope.

(* AllocInfo, lines 39-51, without the node pointers *)
Record ainf := mkai { ai_start : N; ai_size : N; ai_uid : N; ai_elem : N; ai_num : N }.
(* AllocInfoCmp, lines 93-102 *)
Definition ai_cmp (a b : ainf) : Z :=
  if ai_start a <? ai_start b then (-1)%Z else if ai_start a =? ai_start b then 0%Z else 1%Z.
(* ContainsAddress, lines 53-71; the sum is a uint64_t *)
Definition contains_addr (addr : N) (i : ainf) : Z :=
  if addr <? ai_start i then (-1)%Z
  else if (ai_start i <=? addr) && (addr <? wrap64 (ai_start i + ai_size i)) then 0%Z else 1%Z.
(* HasStartAddress, lines 73-91 *)
Definition has_start (addr : N) (i : ainf) : Z :=
  if addr <? ai_start i then (-1)%Z else if addr =? ai_start i then 0%Z else 1%Z.
(* index_1D, line 50 *)
Definition index_1d (i : ainf) (addr : N) : N := (addr - ai_start i) / ai_elem i.
(* std::accumulate(dims, dims+ndims, elem_size, std::multiplies<size_t>()), line 179 *)
Definition total_size (elem : N) (dims : list N) : N := fold_left (fun a d => wrap64 (a * d)) dims elem.
(* static_cast<int> of a size_t: the low 32 bits as a signed number *)
Definition to_int (n : N) : Z := let m := (n mod 4294967296)%N in if (m <? 2147483648)%N then Z.of_N m else (Z.of_N m - 4294967296)%Z.

Record asvc := mkal { al_tree : stree ainf; al_active : N; al_hwm : N; al_rhwm : N; al_uid : N;
                      al_cur : N; al_total : N; al_failed : N; al_pins : list ainf; al_psub : list N }.
Definition al_init : asvc := mkal st_init 0 0 0 0 0 0 0 [] [].
Inductive aop :=
| ATrackA (ptr elem : N) (dims : list N)   (* track_mem_cb up to the end of the first lock, 166-222 *)
| ATrackB (k : nat)                        (* its second critical section, 224-231, for the k-th waiting thread *)
| AUntrackA (ptr : N)                      (* untrack_mem_cb, first critical section, 234-252 *)
| AUntrackB (k : nat)                      (* its second one, 264-268 *)
| AResolve (addr : N)                      (* resolve_addresses for one address attribute, 271-306 *)
| ARecord                                  (* record_highwatermark, 308-320 *)
| AActive.                                 (* mem.active in snapshot_cb, 322-326 *)
(* the values that go into snapshot records: size (as int), uid, address; uid and index; a counter *)
Inductive aout := AoNone | AoTrack (size : Z) (uid addr : N) | AoResolved (uid index : N) | AoMem (n : N).
Definition remove_nth {A} (k : nat) (l : list A) : list A := firstn k l ++ skipn (S k) l.
Definition sub_wrap (a b : N) : N := (a + W64 - b) mod W64.
(* None: undefined behaviour (division by zero, line 187; crash in the tree) *)
Definition al_step (s : asvc) (o : aop) : option (aout * asvc) :=
  match o with
  | ATrackA ptr elem dims =>
      if elem =? 0 then None else
      let size := total_size elem dims in
      let uid := wrap64 (al_uid s + 1) in
      let info := mkai ptr size uid elem (size / elem) in
      let active := wrap64 (al_active s + size) in
      Some (AoTrack (to_int size) uid ptr,
            mkal (al_tree s) active (N.max (al_hwm s) active) (N.max (al_rhwm s) active) uid
                 (al_cur s) (al_total s) (al_failed s) (al_pins s ++ [info]) (al_psub s))
  | ATrackB k =>
      match nth_error (al_pins s) k with
      | None => Some (AoNone, s)
      | Some info =>
          match insert ai_cmp (al_tree s) info with
          | None => None
          | Some t => Some (AoNone, mkal t (al_active s) (al_hwm s) (al_rhwm s) (al_uid s) (wrap64 (al_cur s + 1))
                                     (wrap64 (al_total s + 1)) (al_failed s) (remove_nth k (al_pins s)) (al_psub s))
          end
      end
  | AUntrackA ptr =>
      match find (al_tree s) (has_start ptr) with
      | None => None
      | Some None => Some (AoNone, mkal (al_tree s) (al_active s) (al_hwm s) (al_rhwm s) (al_uid s) (al_cur s)
                                        (al_total s) (al_failed s + 1) (al_pins s) (al_psub s))
      | Some (Some i) =>
          match deref (al_tree s) i, remove (al_tree s) i with
          | Some info, Some t =>
              Some (AoTrack (- to_int (ai_size info)) (ai_uid info) ptr,
                    mkal t (al_active s) (al_hwm s) (al_rhwm s) (al_uid s) (sub_wrap (al_cur s) 1)
                         (al_total s) (al_failed s) (al_pins s) (al_psub s ++ [ai_size info]))
          | _, _ => None
          end
      end
  | AUntrackB k =>
      match nth_error (al_psub s) k with
      | None => Some (AoNone, s)
      | Some size => Some (AoNone, mkal (al_tree s) (sub_wrap (al_active s) size) (al_hwm s) (al_rhwm s) (al_uid s)
                             (al_cur s) (al_total s) (al_failed s) (al_pins s) (remove_nth k (al_psub s)))
      end
  | AResolve addr =>
      match find (al_tree s) (contains_addr addr) with
      | None => None
      | Some None => Some (AoNone, s)
      | Some (Some i) =>
          match deref (al_tree s) i with
          | Some info => if ai_elem info =? 0 then None else Some (AoResolved (ai_uid info) (index_1d info addr), s)
          | None => None
          end
      end
  | ARecord =>
      Some (AoMem (al_rhwm s),
            mkal (al_tree s) (al_active s) (al_hwm s) (al_active s) (al_uid s) (al_cur s) (al_total s) (al_failed s) (al_pins s) (al_psub s))
  | AActive => Some (AoMem (al_active s), s)
  end.
Fixpoint al_run (s : asvc) (l : list aop) : option (list aout * asvc) :=
  match l with
  | [] => Some ([], s)
  | o :: r => match al_step s o with
              | Some (x, s1) => match al_run s1 r with Some (xs, s2) => Some (x :: xs, s2) | None => None end
              | None => None
              end
  end.
