(* Model of SnapshotBuilder and FixedSizeSnapshotRecord, include/caliper/SnapshotRecord.h:66-150.
   The entry type is abstract with the decidable equality of Entry::operator== (Entry.h).
   sb_data is the caller's array m_data; an access outside of it gives None. *)
From Verif Require Import Base.
Section SB.
Context {E : Type} (eqb : E -> E -> bool).

(* lines 68-71; m_capacity is the length the caller passed, line 76-78 *)
Record sbuild := mksb { sb_data : list E; sb_cap : nat; sb_len : nat; sb_skip : nat }.

Definition aget (l : list E) (i : nat) : option E := nth_error l i.
Fixpoint aset (l : list E) (i : nat) (x : E) : option (list E) :=
  match l, i with
  | [], _ => None
  | _ :: r, O => Some (x :: r)
  | y :: r, S j => match aset r j x with Some r' => Some (y :: r') | None => None end
  end.

(* append(const Entry&), lines 104-110 *)
Definition sb_append1 (b : sbuild) (e : E) : option sbuild :=
  if Nat.ltb (sb_len b) (sb_cap b)
  then match aset (sb_data b) (sb_len b) e with Some d => Some (mksb d (sb_cap b) (S (sb_len b)) (sb_skip b)) | None => None end
  else Some (mksb (sb_data b) (sb_cap b) (sb_len b) (S (sb_skip b))).

(* std::copy_n(entries, n, m_data + pos) *)
Fixpoint copy_n (src : list E) (n : nat) (d : list E) (pos : nat) {struct n} : option (list E) :=
  match n with
  | O => Some d
  | S k => match src with
           | [] => None
           | x :: r => match aset d pos x with Some d' => copy_n r k d' (S pos) | None => None end
           end
  end.
(* append(size_t n, entries), lines 112-118; m_capacity - m_len is a size_t difference,
   which does not wrap as m_len <= m_capacity *)
Definition sb_append (b : sbuild) (es : list E) : option sbuild :=
  let n := length es in
  let c := Nat.min n (sb_cap b - sb_len b) in
  match copy_n es c (sb_data b) (sb_len b) with
  | Some d => Some (mksb d (sb_cap b) (sb_len b + c) (sb_skip b + (n - c)))
  | None => None
  end.

(* remove(const Entry&), lines 90-102: the search loop (from pos, with fuel m_len - pos) and
   the shift loop *)
Fixpoint sb_find (d : list E) (e : E) (fuel pos : nat) : option (nat * bool) :=
  match fuel with
  | O => Some (pos, false)
  | S f => match aget d pos with
           | None => None
           | Some x => if eqb e x then Some (pos, true) else sb_find d e f (S pos)
           end
  end.
Fixpoint sb_shift (d : list E) (fuel pos : nat) : option (list E) :=
  match fuel with
  | O => Some d
  | S f => match aget d (S pos) with
           | None => None
           | Some x => match aset d pos x with Some d' => sb_shift d' f (S pos) | None => None end
           end
  end.
Definition sb_remove (b : sbuild) (e : E) : option sbuild :=
  match sb_find (sb_data b) e (sb_len b) 0 with
  | None => None
  | Some (pos, found) =>
      let len := if found then (sb_len b - 1)%nat else sb_len b in
      match sb_shift (sb_data b) (len - pos) pos with
      | Some d => Some (mksb d (sb_cap b) len (sb_skip b))
      | None => None
      end
  end.

(* view(), line 123 *)
Definition sb_view (b : sbuild) : list E := firstn (sb_len b) (sb_data b).
(* SnapshotBuilder(capacity, data), lines 76-78, for an array with at least capacity elements *)
Definition sb_init (cap : nat) (data : list E) : sbuild := mksb data cap 0 0.
(* reset, FixedSizeSnapshotRecord::reset, lines 141-142 *)
Definition sb_reset (b : sbuild) : sbuild := sb_init (sb_cap b) (sb_data b).
End SB.
Arguments mksb {E}. Arguments sb_data {E}. Arguments sb_cap {E}. Arguments sb_len {E}. Arguments sb_skip {E}.
