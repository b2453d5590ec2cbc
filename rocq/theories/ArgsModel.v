(* Command line options of the tools (cali-query and others): src/tools/util/Args.cpp.
   Simplified: strings without NUL characters; the tables are the concatenation of the tables added. *)
From Verif Require Import Base NamesModel.
Open Scope N_scope.

(* Args::Table, Args.h:30-40 *)
Record opt := mkopt { o_name : bytes; o_long : option bytes; o_short : option N; o_arg : bool }.
Definition c_dash : N := 45. Definition c_eq : N := 61.
(* m_option_map, m_long_options, m_short_options: std::map::insert keeps the first entry (add_table, 34-48) *)
Fixpoint find_opt (f : opt -> bool) (l : list opt) (i : nat) : option nat :=
  match l with [] => None | o :: r => if f o then Some i else find_opt f r (S i) end.
Section A.
Variable table : list opt.
Definition by_long (s : bytes) : option nat := find_opt (fun o => match o_long o with Some n => beqb n s | None => false end) table 0.
Definition by_short (c : N) : option nat := find_opt (fun o => match o_short o with Some k => k =? c | None => false end) table 0.
Definition by_name (s : bytes) : option nat := find_opt (fun o => beqb (o_name o) s) table 0.
Definition has_arg (i : nat) : bool := match nth_error table i with Some o => o_arg o | None => false end.
(* m_active_options, m_arguments *)
Record ast := mka { a_act : list (nat * bytes); a_args : list bytes }.
Fixpoint assoc (i : nat) (l : list (nat * bytes)) : option bytes := match l with [] => None | (j, v) :: r => if (j =? i)%nat then Some v else assoc i r end.
(* m_active_options.insert: does not replace *)
Definition activate (s : ast) (i : nat) (v : bytes) : ast := match assoc i (a_act s) with Some _ => s | None => mka (a_act s ++ [(i, v)]) (a_args s) end.
(* the part up to the first '=', and the part after it *)
Fixpoint cut_eq (s : bytes) : bytes * option bytes :=
  match s with [] => ([], None) | c :: r => if c =? c_eq then ([], Some r) else let (a, b) := cut_eq r in (c :: a, b) end.
(* the characters of a short option string, 92-108; v: text after '='; next: the next argument.
   Result: None if an option is unknown; the state, and whether next was used *)
Fixpoint shorts (s : ast) (cs : bytes) (v : option bytes) (next : option bytes) : ast * option bool :=
  match cs with
  | [] => (s, Some false)
  | c :: r =>
      match by_short c with
      | None => (s, None)
      | Some i =>
          match r with
          | [] =>
              match v with
              | Some t => (activate s i t, Some false)
              | None => match has_arg i, next with true, Some t => (activate s i t, Some true) | _, _ => (activate s i [], Some false) end
              end
          | _ => shorts (activate s i []) r v next
          end
      end
  end.
(* parse, 50-121; i: index of the first element of l.  The index returned is that of an unknown option,
   or not less than the number of arguments *)
Fixpoint parse_args (s : ast) (l : list bytes) (i : nat) {struct l} : ast * nat :=
  match l with
  | [] => (s, S i)
  | x :: r =>
      match x with
      | [] => parse_args s r (S i)
      | [45; 45] => (mka (a_act s) (a_args s ++ r), (i + 1 + length r)%nat)
      | 45 :: 45 :: rest =>
          let (n, v) := cut_eq rest in
          match by_long n with
          | None => (s, i)
          | Some k =>
              let t := match v with Some t => t | None => [] end in
              match t, has_arg k, r with
              | [], true, y :: r' => parse_args (activate s k y) r' (S (S i))
              | _, _, _ => parse_args (activate s k t) r (S i)
              end
          end
      | 45 :: rest =>
          let (cs, v) := cut_eq rest in
          match shorts s cs v (match r with y :: _ => Some y | [] => None end), r with
          | (s1, None), _ => (s1, i)
          | (s1, Some true), _ :: r' => parse_args s1 r' (S (S i))
          | (s1, Some _), _ => parse_args s1 r (S i)
          end
      | _ => parse_args (mka (a_act s) (a_args s ++ [x])) r (S i)
      end
  end.
(* pos = 1 *)
Definition parse_cmd (l : list bytes) : ast * nat := match l with [] => (mka [] [], 1%nat) | _ => parse_args (mka [] []) l 1 end.
(* get, is_set, options, 123-153 *)
Definition get_opt (s : ast) (name def : bytes) : bytes := match by_name name with Some i => match assoc i (a_act s) with Some v => v | None => def end | None => def end.
Definition is_set (s : ast) (name : bytes) : bool := match by_name name with Some i => match assoc i (a_act s) with Some _ => true | None => false end | None => false end.
(* the map is ordered by the index *)
Definition options (s : ast) : list bytes :=
  flat_map (fun i => match assoc i (a_act s), nth_error table i with Some _, Some o => [o_name o] | _, _ => [] end) (seq 0 (length table)).
End A.
