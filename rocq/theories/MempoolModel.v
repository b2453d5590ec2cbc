(* Model of src/caliper/MemoryPool.cpp.
   Simplifications: operator new[] does not fail; the address it returns is an input of the
   operation (chosen by the environment); the spinlock makes each operation atomic; the
   zero-filling (line 49) is not represented as memory contents are not modelled. *)
From Verif Require Import Base.

(* struct Chunk, lines 26-30 *)
Record chunk := mkchunk { c_ptr : N; c_wm : N; c_size : N }.
(* MemoryPoolImpl, lines 17-42; m_chunks in vector order *)
Record pool := mkpool { p_chunks : list chunk; p_exp : bool; p_reserved : N; p_used : N }.
Definition CHUNKSIZE : N := 64 * 1024.  (* line 20 *)

(* expand, lines 44-54 *)
Definition mp_expand (p : pool) (bytes base : N) : pool :=
  let len := N.max bytes CHUNKSIZE in
  mkpool (p_chunks p ++ [mkchunk base 0 len]) (p_exp p) (wrap64 (p_reserved p + len)) (p_used p).

(* m_chunks.back() *)
Definition back (l : list chunk) : option chunk := nth_error l (length l - 1).
Definition set_back (l : list chunk) (c : chunk) : list chunk := removelast l ++ [c].

(* the part of allocate after the capacity check, lines 67-75; size_t arithmetic *)
Definition mp_take (p : pool) (bytes al : N) : option (N * pool) :=
  match back (p_chunks p) with
  | None => None   (* back() of an empty vector *)
  | Some c =>
      let pn := wrap64 (c_ptr c + c_wm c) in
      let aligned := N.land (wrap64 (pn + al + W64 - 1)) (wrap64 (W64 - al)) in
      let n := wrap64 (bytes + wrap64 (aligned + W64 - pn)) in
      Some (aligned, mkpool (set_back (p_chunks p) (mkchunk (c_ptr c) (wrap64 (c_wm c + n)) (c_size c)))
                            (p_exp p) (p_reserved p) (wrap64 (p_used p + n)))
  end.
(* allocate, lines 56-76: (nullptr = None, pool) *)
Definition mp_alloc (p : pool) (bytes al base : N) : option (option N * pool) :=
  let full := match back (p_chunks p) with
              | None => true
              | Some c => c_size c <? wrap64 (c_wm c + bytes + al)
              end in
  if full then
    if p_exp p then match mp_take (mp_expand p bytes base) bytes al with Some (a, p') => Some (Some a, p') | None => None end
    else Some (None, p)
  else match mp_take p bytes al with Some (a, p') => Some (Some a, p') | None => None end.

(* merge, lines 78-90: (this, other) after *)
Definition mp_merge (p q : pool) : pool * pool :=
  (mkpool (p_chunks q ++ p_chunks p) (p_exp p) (wrap64 (p_reserved p + p_reserved q)) (wrap64 (p_used p + p_used q)),
   mkpool [] (p_exp q) 0 0).

(* all pools of the process, in creation order; a pool is named by its position *)
Definition pools := list pool.
Definition pset (s : pools) (i : nat) (x : pool) : pools := firstn i s ++ x :: skipn (S i) s.
Inductive mpop :=
| MCreate (exp : bool) (psize base : N)    (* MemoryPoolImpl(), lines 103-112 *)
| MGrow (p : nat) (bytes base : N)         (* the expand of MemoryPool(size_t), lines 146-149 *)
| MAlloc (p : nat) (bytes al base : N)
| MMerge (p q : nat).                      (* MemoryPool::merge, lines 166-172 *)
(* result: the address of the block handed out, if any; None: undefined behaviour or
   a pool that does not exist *)
Definition mp_step (s : pools) (o : mpop) : option (option N * pools) :=
  match o with
  | MCreate e ps base => Some (None, s ++ [mp_expand (mkpool [] e 0 0) ps base])
  | MGrow p b base => match nth_error s p with Some x => Some (None, pset s p (mp_expand x b base)) | None => None end
  | MAlloc p b al base => match nth_error s p with
      | Some x => match mp_alloc x b al base with Some (r, x') => Some (r, pset s p x') | None => None end
      | None => None end
  | MMerge p q => match nth_error s p, nth_error s q with
      | Some x, Some y => if Nat.eqb p q then Some (None, s)
          else let '(x', y') := mp_merge x y in Some (None, pset (pset s p x') q y')
      | _, _ => None end
  end.
