(* Model of the symbollookup service, src/services/symbollookup/SymbolLookup.cpp: symbols for the code addresses of a record.
   A context tree node stands for its path to the root, innermost element first (C15-C17: one node per path).
   One thread, one process; the lookup library is the environment's: what it answers for a set of kinds and an address. *)
From Verif Require Import Base VariantModel TextModel.

(* SymbolLookup.cpp:68-98 make_symbol_attributes: the kinds of attributes made for each target attribute *)
Inductive kind := KModule | KFile | KFunc | KLine | KLoc.
(* a node's attribute: one of the program's, or one of those made for target t *)
Inductive akey := User (t : N) | SymOf (k : kind) (t : N).
Inductive val := VNum (n : N) | VText (s : bytes).
Definition path := list (akey * val).
(* include/caliper/common/Entry.h:20-60; an immediate entry carries a program attribute *)
Inductive entry := Ref (p : path) | Imm (t : N) (v : val).
(* Variant.h to_uint: 0 for what is no number *)
Definition to_uint (v : val) : N := match v with VNum n => n | VText _ => 0 end.
Definition is_target (t : N) (k : akey) : bool := match k with User t' => t' =? t | SymOf _ _ => false end.

(* SymbolLookup.cpp:256-268 the five options of an instance *)
Record Opts := mkOpts { o_func : bool; o_loc : bool; o_file : bool; o_line : bool; o_mod : bool }.
(* Lookup.h:22-30; line numbers are not negative *)
Record Result := mkRes { r_name : bytes; r_file : bytes; r_line : N; r_mod : bytes }.
Definition Lookup := N -> N -> Result.
(* SymbolLookup.cpp:142-151 what; Lookup.h:22 Kind *)
Definition what (o : Opts) : N :=
  N.lor (if o_func o then 1 else 0) (N.lor (if o_file o || o_loc o then 2 else 0) (N.lor (if o_line o || o_loc o then 4 else 0) (if o_mod o then 8 else 0))).

(* the process: marker nodes (symbollookup.node#t below an address node: the symbol node's id) belong to the context tree, which
   all instances share; each instance i has a lookup_cache for each target; dead: a null pointer was dereferenced *)
Definition cell := (nat * N * N)%type.
Record St := mkSt { marks : list ((N * path) * path); caches : list (cell * path); dead : bool }.
Definition start : St := mkSt [] [] false.

Lemma akey_eq (a b : akey) : {a = b} + {a <> b}. Proof. repeat decide equality. Defined.
Lemma val_eq (a b : val) : {a = b} + {a <> b}. Proof. repeat decide equality. Defined.
Lemma mark_eq (a b : N * path) : {a = b} + {a <> b}.
Proof. decide equality; [apply list_eq_dec; decide equality; [apply val_eq|apply akey_eq]|apply N.eq_dec]. Defined.
Lemma cell_eq (a b : cell) : {a = b} + {a <> b}. Proof. repeat decide equality. Defined.
Fixpoint find_in {A B} (eqd : forall a b : A, {a = b} + {a <> b}) (k : A) (l : list (A * B)) : option B :=
  match l with [] => None | (k', b) :: l => if eqd k k' then Some b else find_in eqd k l end.
(* SymbolLookup.cpp:185-192 find_symbol_node_entry *)
Definition find_mark (st : St) (t : N) (p : path) : option path := find_in mark_eq (t, p) (marks st).
(* SymbolLookup.cpp:131-140 the cache is asked first *)
Definition find_cache (st : St) (i : nat) (t a : N) : option path := find_in cell_eq (i, t, a) (caches st).

(* SymbolLookup.cpp:157-172 the symbol nodes below parent *)
Definition make_nodes (lk : Lookup) (o : Opts) (t a : N) (parent : path) : path :=
  let r := lk (what o) a in
  let n := parent in
  let n := if o_mod o then (SymOf KModule t, VText (r_mod r)) :: n else n in
  let n := if o_file o then (SymOf KFile t, VText (r_file r)) :: n else n in
  let n := if o_func o then (SymOf KFunc t, VText (r_name r)) :: n else n in
  let n := if o_line o then (SymOf KLine t, VNum (r_line r)) :: n else n in
  if o_loc o then (SymOf KLoc t, VText (r_file r ++ 58 :: dec (r_line r))) :: n else n.
(* SymbolLookup.cpp:124-183 perform_lookup; node == parent: a node of the same depth; the null pointer returned
   then becomes Entry(nullptr) in both callers (210, 212), whose constructor reads node->data() (Entry.h:44) *)
Definition perform_lookup (lk : Lookup) (o : Opts) (i : nat) (t a : N) (parent : path) (st : St) : St * option path :=
  match find_cache st i t a with
  | Some n => (st, Some n)
  | None =>
      let n := make_nodes lk o t a parent in
      if Nat.eqb (length n) (length parent) then (mkSt (marks st) (caches st) true, None)
      else (mkSt (marks st) (((i, t, a), n) :: caches st) (dead st), Some n)
  end.
(* SymbolLookup.cpp:194-216 get_symbol_entry, reference entries: Entry::get (common/Entry.cpp:42-57) walks to the next node of the
   target attribute, then the symbols of what is above it are made or found, then its own *)
Fixpoint sym_path (lk : Lookup) (o : Opts) (i : nat) (t : N) (p : path) (st : St) : St * option path :=
  match p with
  | [] => (st, None)
  | (k, v) :: up =>
      if is_target t k then
        match find_mark st t p with
        | Some n => (st, Some n)
        | None =>
            let (st1, par) := sym_path lk o i t up st in
            let (st2, n) := perform_lookup lk o i t (to_uint v) (match par with Some q => q | None => [] end) st1 in
            match n with
            | Some n => (mkSt (((t, p), n) :: marks st2) (caches st2) (dead st2), Some n)
            | None => (st2, None)
            end
        end
      else sym_path lk o i t up st
  end.
(* Entry.cpp:42-57 and SnapshotRecord.h:42-51 get: the first entry of the record that has the attribute *)
Fixpoint has_target (t : N) (p : path) : bool := match p with [] => false | (k, _) :: up => is_target t k || has_target t up end.
Definition entry_has (t : N) (e : entry) : bool := match e with Ref p => has_target t p | Imm t' _ => t' =? t end.
Definition get_symbol_entry (lk : Lookup) (o : Opts) (i : nat) (t : N) (rec : list entry) (st : St) : St * option path :=
  match find (entry_has t) rec with
  | Some (Ref p) => sym_path lk o i t p st
  | Some (Imm _ v) => perform_lookup lk o i t (to_uint v) [] st
  | None => (st, None)
  end.
(* SymbolLookup.cpp:218-245 process_snapshot: for each target of the instance, then all results at the record's end *)
Fixpoint all_symbols (lk : Lookup) (o : Opts) (i : nat) (ts : list N) (rec : list entry) (st : St) : St * list path :=
  match ts with
  | [] => (st, [])
  | t :: ts =>
      let (st1, e) := get_symbol_entry lk o i t rec st in
      let (st2, es) := all_symbols lk o i ts rec st1 in
      (st2, match e with Some n => n :: es | None => es end)
  end.
Definition process_snapshot (lk : Lookup) (o : Opts) (i : nat) (ts : list N) (rec : list entry) (st : St) : St * list entry :=
  let (st1, es) := all_symbols lk o i ts rec st in (st1, rec ++ map Ref es).
(* a history: instance i, its targets at the time (check_attributes), a record *)
Definition event := (nat * list N * list entry)%type.
Fixpoint run (lk : Lookup) (os : nat -> Opts) (evs : list event) (st : St) : St :=
  match evs with
  | [] => st
  | (i, ts, rec) :: evs => run lk os evs (fst (process_snapshot lk (os i) i ts rec st))
  end.

(* LookupLibdw.cpp:42-81 lookup; the debug info is the environment's: for an address without a module nothing, else the function's
   name (demangled), the source line if there is one, and the module's name if it has one *)
Definition Debug := N -> option (bytes * option (bytes * N) * option bytes).
Definition UNKNOWN : bytes := [85; 78; 75; 78; 79; 87; 78].
Definition libdw (db : Debug) : Lookup := fun w a =>
  match db a with
  | None => mkRes UNKNOWN UNKNOWN 0 UNKNOWN
  | Some (name, src, md) =>
      let line := if (N.testbit w 1 || N.testbit w 2)%bool then src else None in
      mkRes (if N.testbit w 0 then name else UNKNOWN) (match line with Some (f, _) => f | None => UNKNOWN end) (match line with Some (_, l) => l | None => 0 end)
            (if N.testbit w 3 then match md with Some m => m | None => UNKNOWN end else UNKNOWN)
  end.
