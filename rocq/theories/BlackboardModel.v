(* Model of src/caliper/Blackboard.{h,cpp} *)
From Verif Require Import Base VariantModel CodecModel.
Local Open Scope nat_scope.

Definition NMAX : nat := 1021.                                  (* Blackboard.h:23 *)

(* hashtable[]: slot -> (key, value); None is key == CALI_INV_ID (so operations
   with the invalid id itself as key are outside of the model's domain).  Only slots < NMAX are
   ever used.  toc: one bit per slot; toctoc: one bit per 32-slot word. *)
Record bboard := mkbb {
  bb_tab : nat -> option (N * entry);
  bb_toc : nat -> bool;
  bb_toctoc : nat -> bool;
  bb_num : nat; bb_max : nat; bb_skipped : nat; bb_ucount : nat }.

(* constructor, Blackboard.h:71-79 *)
Definition bb_init : bboard := mkbb (fun _ => None) (fun _ => false) (fun _ => false) 0 0 0 0.

Definition home (k : N) : nat := N.to_nat (k mod N.of_nat NMAX).   (* key % Nmax *)
Definition next (i : nat) : nat := if S i =? NMAX then 0 else S i.  (* (I + 1) % Nmax, for I < Nmax *)

Definition set_tab (t : nat -> option (N * entry)) (i : nat) (x : option (N * entry)) :=
  fun j => if j =? i then x else t j.
Definition set_bit (f : nat -> bool) (i : nat) (b : bool) := fun j => if j =? i then b else f j.

(* find_existing_entry / find_free_slot, Blackboard.h:45-63.  The loops have no bound in the
   code; after NMAX steps without success they would run forever: None. *)
Fixpoint find_existing (fuel : nat) (t : nat -> option (N * entry)) (k : N) (i : nat) : option nat :=
  match t i with
  | None => Some i
  | Some (k', _) => if (k' =? k)%N then Some i
                    else match fuel with O => None | S f => find_existing f t k (next i) end
  end.
Fixpoint find_free (fuel : nat) (t : nat -> option (N * entry)) (i : nat) : option nat :=
  match t i with
  | None => Some i
  | Some _ => match fuel with O => None | S f => find_free f t (next i) end
  end.
Definition bb_find (b : bboard) (k : N) : option nat := find_existing NMAX (bb_tab b) k (home k).

(* Blackboard::add, Blackboard.cpp:40-59 *)
Definition bb_add (b : bboard) (k : N) (v : entry) (incl : bool) : option bboard :=
  match find_free NMAX (bb_tab b) (home k) with
  | None => None
  | Some i =>
      if NMAX <? bb_num b + (NMAX / 10 + 10)
      then Some (mkbb (bb_tab b) (bb_toc b) (bb_toctoc b) (bb_num b) (bb_max b) (S (bb_skipped b)) (bb_ucount b))
      else Some (mkbb (set_tab (bb_tab b) i (Some (k, v)))
                      (if incl then set_bit (bb_toc b) i true else bb_toc b)
                      (if incl then set_bit (bb_toctoc b) (i / 32) true else bb_toctoc b)
                      (S (bb_num b)) (Nat.max (S (bb_num b)) (bb_max b)) (bb_skipped b) (bb_ucount b))
  end.
Definition bb_count_up (b : bboard) : bboard :=
  mkbb (bb_tab b) (bb_toc b) (bb_toctoc b) (bb_num b) (bb_max b) (bb_skipped b) (S (bb_ucount b)).

(* the entry stored at slot i with key k, if any *)
Definition at_key (b : bboard) (i : nat) (k : N) : option entry :=
  match bb_tab b i with Some (k', v) => if (k' =? k)%N then Some v else None | None => None end.

(* Blackboard::set, Blackboard.cpp:61-71 *)
Definition bb_set (b : bboard) (k : N) (v : entry) (incl : bool) : option bboard :=
  match bb_find b k with
  | None => None
  | Some i =>
      match at_key b i k with
      | Some _ => Some (bb_count_up (mkbb (set_tab (bb_tab b) i (Some (k, v))) (bb_toc b) (bb_toctoc b)
                                          (bb_num b) (bb_max b) (bb_skipped b) (bb_ucount b)))
      | None => option_map bb_count_up (bb_add b k v incl)
      end
  end.

(* Blackboard::exchange, Blackboard.cpp:107-122 *)
Definition bb_exchange (b : bboard) (k : N) (v : entry) (incl : bool) : option (bboard * entry) :=
  match bb_find b k with
  | None => None
  | Some i =>
      match at_key b i k with
      | Some old => Some (bb_count_up (mkbb (set_tab (bb_tab b) i (Some (k, v))) (bb_toc b) (bb_toctoc b)
                                            (bb_num b) (bb_max b) (bb_skipped b) (bb_ucount b)), old)
      | None => option_map (fun b' => (bb_count_up b', EEmpty)) (bb_add b k v incl)
      end
  end.

(* Blackboard::get, Blackboard.h:83-91 *)
Definition bb_get (b : bboard) (k : N) : option entry :=
  match bb_find b k with
  | None => None
  | Some i => Some (match at_key b i k with Some v => v | None => EEmpty end)
  end.

(* the back-shift loop of Blackboard::del, Blackboard.cpp:80-93; None: does not terminate *)
Fixpoint del_loop (fuel : nat) (t : nat -> option (N * entry)) (hole j0 : nat) : option ((nat -> option (N * entry)) * nat) :=
  match fuel with
  | O => None
  | S f =>
      let j := next j0 in
      match t j with
      | None => Some (t, hole)
      | Some (key, v) =>
          let k := home key in
          if ((hole <? j) && ((k <=? hole) || (j <? k))) || ((j <? hole) && ((k <=? hole) && (j <? k)))
          then del_loop f (set_tab t hole (Some (key, v))) j j
          else del_loop f t hole j
      end
  end.

(* toc[w] == 0 *)
Definition word_zero (toc : nat -> bool) (w : nat) : bool :=
  forallb (fun j => negb (toc (w * 32 + j))) (seq 0 32).

(* Blackboard::del, Blackboard.cpp:73-105 *)
Definition bb_del (b : bboard) (k : N) : option bboard :=
  match bb_find b k with
  | None => None
  | Some i =>
      match at_key b i k with
      | None => Some b
      | Some _ =>
          match del_loop NMAX (bb_tab b) i i with
          | None => None
          | Some (t, hole) =>
              let toc := set_bit (bb_toc b) hole false in
              Some (mkbb (set_tab t hole None) toc
                         (if word_zero toc (hole / 32) then set_bit (bb_toctoc b) (hole / 32) false else bb_toctoc b)
                         (pred (bb_num b)) (bb_max b) (bb_skipped b) (S (bb_ucount b)))
          end
      end
  end.

(* Blackboard::snapshot, Blackboard.cpp:124-140: lowest set bit first in toctoc, then in the
   toc word; appends hashtable[i*32+j].value (EEmpty for an unoccupied slot) *)
Definition slot_val (b : bboard) (i : nat) : entry := match bb_tab b i with Some (_, v) => v | None => EEmpty end.
Definition bb_snapshot (b : bboard) : list entry :=
  flat_map (fun w => if bb_toctoc b w
                     then flat_map (fun j => if bb_toc b (w * 32 + j) then [slot_val b (w * 32 + j)] else []) (seq 0 32)
                     else []) (seq 0 32).

(* operation histories *)
Inductive bb_op := BSet (k : N) (v : entry) (incl : bool) | BDel (k : N) | BExch (k : N) (v : entry) (incl : bool) | BGet (k : N).
Definition bb_step (b : bboard) (o : bb_op) : option (bboard * entry) :=
  match o with
  | BSet k v i => option_map (fun b' => (b', EEmpty)) (bb_set b k v i)
  | BDel k => option_map (fun b' => (b', EEmpty)) (bb_del b k)
  | BExch k v i => bb_exchange b k v i
  | BGet k => option_map (fun e => (b, e)) (bb_get b k)
  end.
Fixpoint bb_run (b : bboard) (ops : list bb_op) : option (bboard * list entry) :=
  match ops with
  | [] => Some (b, [])
  | o :: r => match bb_step b o with
              | None => None
              | Some (b', e) => match bb_run b' r with
                                | None => None
                                | Some (b'', es) => Some (b'', e :: es)
                                end
              end
  end.
