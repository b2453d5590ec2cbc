(* Model of the C++ annotation objects, src/caliper/Annotation.cpp: which calls of the runtime
   (RuntimeModel) they make, and how long the shared implementation objects live. *)
From Verif Require Import Base VariantModel VariantSpec FloatModel TreeModel RuntimeModel.

(* ---------------- objects with automatic lifetime ---------------- *)
(* what a C++ declaration creates: ScopeAnnotation / Function (Annotation.cpp:27-53), Loop (55-76,
   90-113), Loop::Iteration (80-88), Annotation::Guard around a begin (218-226) *)
Inductive aobj :=
| JScope (v : value)                 (* cali::ScopeAnnotation s(name); cali::Function f(name) *)
| JLoop (v : value)                  (* cali::Loop l(name), never copied or ended explicitly *)
| JIter (a : attr) (i : Z)           (* Loop::Iteration it(l.iteration(i)), a is l's iteration attribute *)
| JGuard (a : attr) (v : value).     (* Annotation::Guard g(ann.begin(v)), a is ann's attribute, of v's type *)
Section S.
Variables region_attr loop_attr : attr.
Definition ctor (o : aobj) : list rop :=
  match o with JScope v => [OBegin region_attr v] | JLoop v => [OBegin loop_attr v] | JIter a i => [OBegin a (VInt i)] | JGuard a v => [OBegin a v] end.
Definition dtor (o : aobj) : list rop :=
  match o with JScope _ => [OEnd region_attr] | JLoop _ => [OEnd loop_attr] | JIter a _ => [OEnd a] | JGuard a _ => [OEnd a] end.

(* C++ statements.  The conditions and trip counts are those of one particular execution.  Leaving a
   block by return, break, goto or an exception (ULeave) destroys the objects of all blocks left, as
   does reaching its end; UCatch is a place where control stops leaving (the end of a function call,
   a catch block, the statement after a loop). *)
Inductive stmt :=
| UDecl (o : aobj)
| UBlock (b : list stmt)
| UIf (c : bool) (b1 b2 : list stmt)
| URepeat (n : nat) (b : list stmt)
| ULeave
| UCatch (b : list stmt)
| UQuery (a : attr).                 (* a read-only use of Caliper, get() *)
(* runtime calls made, and whether control leaves the enclosing block *)
Fixpoint urepeat (n : nat) (r : list rop * bool) : list rop * bool :=
  match n with O => ([], false) | S k => if snd r then r else let (o, l) := urepeat k r in (fst r ++ o, l) end.
Fixpoint urun (s : stmt) : list rop * bool :=
  let block := fix block (b : list stmt) : list rop * bool :=
    match b with
    | [] => ([], false)
    | UDecl o :: r => let (ops, l) := block r in (ctor o ++ ops ++ dtor o, l)
    | x :: r => let (o1, l1) := urun x in if l1 then (o1, true) else let (o2, l2) := block r in (o1 ++ o2, l2)
    end in
  match s with
  | UDecl o => (ctor o ++ dtor o, false)
  | UBlock b => block b
  | UIf c b1 b2 => if c then block b1 else block b2
  | URepeat n b => urepeat n (block b)
  | ULeave => ([], true)
  | UCatch b => (fst (block b), false)
  | UQuery a => ([OGet a], false)
  end.
End S.

(* ---------------- cali::Loop handles shared between threads ---------------- *)
(* Loop::Impl (Annotation.cpp:57-76), used through copies of the Loop object by any number of
   threads.  lp_handles: Loop objects that are not in the middle of a call; lp_calls: calls in
   progress; lp_ends: how often Caliper::end(loop_attr) was called; lp_freed: how often the
   Impl was deleted. *)
Inductive lcall := LE1 (fin : bool) | LE2 (fin : bool) | LE3 (fin : bool) | LD.
Record loopst := mkloop { lp_rc : Z; lp_level : Z; lp_handles : nat; lp_calls : list lcall; lp_ends : nat; lp_freed : nat }.
(* Loop::Loop(const char* ), 90-94 *)
Definition loop_init : loopst := mkloop 1 1 1 [] 0 0.
Definition after (fin : bool) (h : nat) (p q : list lcall) : nat * list lcall := if fin then (h, p ++ LD :: q) else (S h, p ++ q).
Inductive lstep : loopst -> loopst -> Prop :=
(* copy constructor, 96-99 *)
| ls_copy s : (0 < lp_handles s)%nat -> lstep s (mkloop (lp_rc s + 1) (lp_level s) (S (lp_handles s)) (lp_calls s) (lp_ends s) (lp_freed s))
(* destructor, 101-107: the atomic decrement, then end() and delete if it gave 0 *)
| ls_destroy s h : lp_handles s = S h -> lstep s (mkloop (lp_rc s - 1) (lp_level s) h (if (lp_rc s - 1 =? 0)%Z then LE1 true :: lp_calls s else lp_calls s) (lp_ends s) (lp_freed s))
(* end(), 114-120: the call, reading level, calling Caliper::end, decrementing level *)
| ls_end s h : lp_handles s = S h -> lstep s (mkloop (lp_rc s) (lp_level s) h (LE1 false :: lp_calls s) (lp_ends s) (lp_freed s))
| ls_read s p fin q : lp_calls s = p ++ LE1 fin :: q -> (0 < lp_level s)%Z -> lstep s (mkloop (lp_rc s) (lp_level s) (lp_handles s) (p ++ LE2 fin :: q) (lp_ends s) (lp_freed s))
| ls_skip s p fin q : lp_calls s = p ++ LE1 fin :: q -> (lp_level s <= 0)%Z -> lstep s (mkloop (lp_rc s) (lp_level s) (fst (after fin (lp_handles s) p q)) (snd (after fin (lp_handles s) p q)) (lp_ends s) (lp_freed s))
| ls_close s p fin q : lp_calls s = p ++ LE2 fin :: q -> lstep s (mkloop (lp_rc s) (lp_level s) (lp_handles s) (p ++ LE3 fin :: q) (S (lp_ends s)) (lp_freed s))
| ls_dec s p fin q : lp_calls s = p ++ LE3 fin :: q -> lstep s (mkloop (lp_rc s) (lp_level s - 1) (fst (after fin (lp_handles s) p q)) (snd (after fin (lp_handles s) p q)) (lp_ends s) (lp_freed s))
| ls_delete s p q : lp_calls s = p ++ LD :: q -> lstep s (mkloop (lp_rc s) (lp_level s) (lp_handles s) (p ++ q) (lp_ends s) (S (lp_freed s))).
Inductive lreach : loopst -> Prop := lr_init : lreach loop_init | lr_step s s' : lreach s -> lstep s s' -> lreach s'.

(* ---------------- cali::Annotation handles ---------------- *)
(* Annotation::Impl's reference count: attach (Annotation.cpp:200-204) and detach (206-212), which
   decrements and then reads the count again.  an_after: calls that have decremented. *)
Record annst := mkann { an_rc : Z; an_handles : nat; an_after : nat; an_freed : nat }.
Definition ann_init : annst := mkann 1 1 0 0.
Inductive anstep : annst -> annst -> Prop :=
| an_attach s : (0 < an_handles s)%nat -> anstep s (mkann (an_rc s + 1) (S (an_handles s)) (an_after s) (an_freed s))
| an_dec s h : an_handles s = S h -> anstep s (mkann (an_rc s - 1) h (S (an_after s)) (an_freed s))
| an_check s k : an_after s = S k -> anstep s (mkann (an_rc s) (an_handles s) k (if (an_rc s =? 0)%Z then S (an_freed s) else an_freed s)).
Inductive anreach : annst -> Prop := anr_init : anreach ann_init | anr_step s s' : anreach s -> anstep s s' -> anreach s'.

(* ---------------- values and types of Annotation::begin / set ---------------- *)
(* m_attr_node: the attribute's type once known.  existing: type of an attribute with that name
   that already exists when get_attribute creates it (C25: the existing one is returned). *)
Definition get_attr_type (known existing : option N) (v : value) : N :=
  match known with Some t => t | None => match existing with Some t => t | None => val_type v end end.
(* Impl::begin / Impl::set, 153-169: whether the value reaches the runtime, and the attribute type known afterwards *)
Definition impl_value (known existing : option N) (v : value) : option value * option N :=
  let t := get_attr_type known existing v in
  ((if (t =? val_type v) && negb (t =? 0) then Some v else None), Some t).
(* static_cast<uint64_t>(int) *)
Definition int_to_u64 (z : Z) : N := Z.to_N (z mod 18446744073709551616).
(* Annotation::begin(int), 258-269, and set(int), 284-295 *)
Definition int_value (known existing : option N) (z : Z) : option value * option N :=
  let v := match known with
           | Some t => if t =? 6 then VDouble (d_of_Z z) else if t =? 3 then VUint (int_to_u64 z) else VInt z
           | None => VInt z
           end in
  impl_value known existing v.
