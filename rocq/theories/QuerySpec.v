(* Specification of CalQL queries, independent of the parser: tokens and their spellings, the clauses of a
   query, the functions, and the query that a list of clauses describes. *)
From Coq Require Import Strings.Ascii Strings.String.
From Verif Require Import Base TextModel ParseModel ParseSpec RConfigModel FilterModel QueryModel.
Open Scope N_scope.

(* ---------- the text ---------- *)
(* A token is a word, a keyword (in any case) or a single character.  A word ends at white space or at one of
   its delimiters; quotes and backslashes make other characters part of it (ParseSpec.spells). *)
Inductive token :=
| TWord (w : bytes)            (* a name or value, delimited by , ; = < > ( ) *)
| TName (w : bytes)            (* the same, not starting with a bare * *)
| TArg (w : bytes)             (* a function argument, delimited by , ; ( ) *)
| TUnit (w : bytes)            (* a unit, delimited by , ; = ( ) *)
| TKey (k : bytes)             (* a keyword or function name: any word that is k in lower case *)
| TChar (c : N).
Definition delims (t : token) : bytes := match t with TArg _ => bs ",;()" | TUnit _ => bs ",;=()" | _ => bs ",;=<>()" end.
Definition token_word (t : token) (w : bytes) : Prop :=
  match t with TWord v | TName v | TArg v | TUnit v => w = v | TKey k => map tolower w = k | TChar _ => False end.
(* t is a text with the given tokens: white space may stand before every token and at the end *)
Inductive spelled : list token -> bytes -> Prop :=
| sp_end sp : spaces sp -> spelled [] sp
| sp_token k w r sp i t : spaces sp -> token_word k w -> i <> [] -> spells (delims k) i w ->
    (forall v, k = TName v -> hd 0 i <> 42) -> stops (delims k) t -> spelled r t -> spelled (k :: r) (sp ++ i ++ t)
| sp_punct c r sp t : spaces sp -> spelled r t -> spelled (TChar c :: r) (sp ++ c :: t).

(* ---------- the clauses ---------- *)
Definition fcall := (bytes * option (list bytes))%type.         (* name, arguments in parentheses if there are any *)
Inductive test := Exists | Equals (v : bytes) | Less (v : bytes) | Greater (v : bytes).
Record condition := mkcnd { cn_not : bool; cn_attr : bytes; cn_test : test }.
Inductive selected := SStar | SColumn (a : bytes) | SCall (f : bytes) (args : list bytes).
Record selitem := mksi { si_what : selected; si_as : option bytes; si_unit : option bytes }.
Inductive direction := DNone | DAsc | DDesc.
Record letitem := mkli { li_target : bytes; li_op : fcall; li_if : option condition }.
Inductive clause :=
| CAggregate (l : list fcall)
| CFormat (f : fcall)
| CGroup (l : list bytes)
| CSelect (l : list selitem)
| COrder (l : list (bytes * direction))
| CWhere (l : list condition)
| CLet (l : list letitem).

(* items separated by commas *)
Definition commas {A} (f : A -> list token) (l : list A) : list token :=
  match l with [] => [] | x :: r => f x ++ flat_map (fun y => TChar 44 :: f y) r end.
Definition args_tokens (l : list bytes) : list token := TChar 40 :: commas (fun a => [TArg a]) l ++ [TChar 41].
Definition call_tokens (c : fcall) : list token := TKey (fst c) :: match snd c with Some l => args_tokens l | None => [] end.
Definition test_tokens (t : test) : list token :=
  match t with Exists => [] | Equals v => [TChar 61; TWord v] | Less v => [TChar 60; TWord v] | Greater v => [TChar 62; TWord v] end.
Definition cond_tokens (c : condition) : list token := (if cn_not c then [TKey (bs "not")] else []) ++ TWord (cn_attr c) :: test_tokens (cn_test c).
Definition opt_tokens (k : string) (f : bytes -> token) (o : option bytes) : list token := match o with Some w => [TKey (bs k); f w] | None => [] end.
Definition sel_tokens (s : selitem) : list token :=
  match si_what s with SStar => [TChar 42] | SColumn a => [TName a] | SCall f l => call_tokens (f, Some l) end
  ++ opt_tokens "as" TWord (si_as s) ++ opt_tokens "unit" TUnit (si_unit s).
Definition order_tokens (o : bytes * direction) : list token :=
  TWord (fst o) :: match snd o with DNone => [] | DAsc => [TKey (bs "asc")] | DDesc => [TKey (bs "desc")] end.
Definition let_tokens (l : letitem) : list token :=
  TWord (li_target l) :: TChar 61 :: call_tokens (li_op l) ++ match li_if l with Some c => TKey (bs "if") :: cond_tokens c | None => [] end.
Definition clause_tokens (c : clause) : list token :=
  match c with
  | CAggregate l => TKey (bs "aggregate") :: commas call_tokens l
  | CFormat f => TKey (bs "format") :: call_tokens f
  | CGroup l => TKey (bs "group") :: TKey (bs "by") :: commas (fun w => [TWord w]) l
  | CSelect l => TKey (bs "select") :: commas sel_tokens l
  | COrder l => TKey (bs "order") :: TKey (bs "by") :: commas order_tokens l
  | CWhere l => TKey (bs "where") :: commas cond_tokens l
  | CLet l => TKey (bs "let") :: commas let_tokens l
  end.
Definition query_tokens (l : list clause) : list token := flat_map clause_tokens l.

(* ---------- functions ---------- *)
(* name, number, least and largest number of arguments, prefix of the result column, number of names in it *)
Definition agg_functions : list (string * N * nat * nat * string * nat) :=
  [("count", 0%N, 0, 0, "count", 0); ("sum", 1%N, 1, 1, "sum#", 1); ("ratio", 2%N, 2, 3, "ratio#", 2); ("percent_total", 3%N, 1, 1, "percent_total#", 1);
   ("inclusive_sum", 4%N, 1, 1, "inclusive#", 1); ("min", 5%N, 1, 1, "min#", 1); ("max", 6%N, 1, 1, "max#", 1); ("avg", 7%N, 1, 1, "avg#", 1);
   ("scale", 8%N, 2, 2, "scale#", 1); ("inclusive_scale", 9%N, 2, 2, "iscale#", 1); ("inclusive_percent_total", 10%N, 1, 1, "ipercent_total#", 1);
   ("any", 11%N, 1, 1, "any#", 1); ("scale_count", 12%N, 1, 1, "scount", 0); ("inclusive_ratio", 13%N, 2, 3, "iratio#", 2);
   ("inclusive_min", 14%N, 1, 1, "imin#", 1); ("inclusive_max", 15%N, 1, 1, "imax#", 1); ("variance", 16%N, 1, 1, "variance#", 1)]%string%nat.
Definition let_functions : list (string * N * nat * nat) :=
  [("ratio", 0%N, 2, 3); ("scale", 1%N, 2, 2); ("truncate", 2%N, 1, 2); ("first", 3%N, 1, 8); ("sum", 4%N, 1, 8); ("leaf", 5%N, 0, 1)]%string%nat.
(* name, number, least number of arguments, names of the arguments *)
Definition formatters : list (string * N * nat * list string) :=
  [("cali", 0%N, 0, []); ("json", 1%N, 0, ["object"; "pretty"; "quote-all"; "separate-nested"; "records"; "split"]); ("expand", 2%N, 0, []);
   ("format", 3%N, 1, ["format"; "title"]); ("table", 4%N, 0, ["column-width"; "print-globals"]);
   ("tree", 5%N, 0, ["path-attributes"; "column-width"; "print-globals"]); ("json-split", 6%N, 0, [])]%string%nat.
Definition call_args (c : fcall) : list bytes := match snd c with Some l => l | None => [] end.
(* function calls with the right number of non-empty arguments *)
Definition call_ok (c : fcall) (lo hi : nat) : Prop := (lo <= length (call_args c) <= hi)%nat /\ ~ In [] (call_args c).
(* the number of the function and its arguments *)
Definition op_is (o : fop) (id : N) (c : fcall) : Prop := f_id (o_sig o) = id /\ o_args o = call_args c.
Definition agg_call (c : fcall) (id : N) (column : bytes) : Prop :=
  exists name lo hi pre n, In (name, id, lo, hi, pre, n) agg_functions /\ fst c = bs name /\ call_ok c lo hi /\
    column = bs pre ++ joinc (bs "/") (firstn n (call_args c)).
Definition let_call (c : fcall) (id : N) : Prop := exists name lo hi, In (name, id, lo, hi) let_functions /\ fst c = bs name /\ call_ok c lo hi.

(* ---------- formatter arguments ---------- *)
(* an argument is  name=value,  name  (a flag) or  value  (for the parameter at its position) *)
Inductive fmtarg := FKey (k v : bytes) | FValue (v : bytes).
Inductive fmtarg_text : fmtarg -> bytes -> Prop :=
| ft_key k v sp i sp1 sp2 j t : spaces sp -> spaces sp1 -> spaces sp2 -> i <> [] -> spells [61] i k -> k <> [] -> j <> [] -> spells [44] j v -> stops [44] t ->
    fmtarg_text (FKey k v) (sp ++ i ++ sp1 ++ 61 :: sp2 ++ j ++ t)
| ft_value v sp i sp1 : spaces sp -> spaces sp1 -> i <> [] -> spells [61] i v -> fmtarg_text (FValue v) (sp ++ i ++ sp1).
(* the assignment made by the argument at position n *)
Definition fmtarg_means (names : list bytes) (n : nat) (a : fmtarg) (kv : bytes * bytes) : Prop :=
  match a with
  | FKey k v => In k names /\ kv = (k, v)
  | FValue v => (In v names /\ kv = (v, bs "true")) \/ (~ In v names /\ nth_error names n = Some (fst kv) /\ snd kv = v)
  end.
Definition format_call (c : fcall) (id : N) (kw : list (bytes * bytes)) : Prop :=
  exists name lo names, In (name, id, lo, names) formatters /\ fst c = bs name /\ call_ok c lo (length names) /\
    length kw = length (call_args c) /\
    forall n a x, nth_error (call_args c) n = Some a -> nth_error kw n = Some x -> exists f, fmtarg_text f a /\ fmtarg_means (map bs names) n f x.

(* ---------- the query that the clauses describe ---------- *)
Definition test_op (neg : bool) (t : test) : cop * bytes :=
  match t, neg with
  | Exists, false => (OExist, []) | Exists, true => (ONotExist, [])
  | Equals v, false => (OEqual, v) | Equals v, true => (ONotEqual, v)
  | Less v, false => (OLess, v) | Less v, true => (OGreaterEq, v)
  | Greater v, false => (OGreater, v) | Greater v, true => (OLessEq, v)
  end.
Definition cond_is (c : condition) (d : cond) : Prop :=
  d = mkcond (fst (test_op (cn_not c) (cn_test c))) (cn_attr c) (snd (test_op (cn_not c) (cn_test c))).
(* the aggregations, in the order of the AGGREGATE and SELECT clauses *)
Definition aggregations (c : clause) : list fcall :=
  match c with
  | CAggregate l => l
  | CSelect l => flat_map (fun s => match si_what s with SCall f a => [(f, Some a)] | _ => [] end) l
  | _ => []
  end.
Definition sel_items (c : clause) : list selitem := match c with CSelect l => l | _ => [] end.
Definition groups (c : clause) : list bytes := match c with CGroup l => l | _ => [] end.
Definition orders (c : clause) : list (bytes * direction) := match c with COrder l => l | _ => [] end.
Definition wheres (c : clause) : list condition := match c with CWhere l => l | _ => [] end.
Definition lets (c : clause) : list letitem := match c with CLet l => l | _ => [] end.
Definition formats (c : clause) : list fcall := match c with CFormat f => [f] | _ => [] end.
(* the column that a selected item stands for: none for * *)
Inductive column_of : selitem -> bytes -> Prop :=
| co_star a u : column_of (mksi SStar a u) []
| co_column n a u : n <> [] -> column_of (mksi (SColumn n) a u) n
| co_call f l a u id n : agg_call (f, Some l) id n -> column_of (mksi (SCall f l) a u) n.
(* what is selected: * selects everything; a column or an aggregation is added to the list, where an
   aggregation after * changes nothing *)
Definition sel_step (p : selopt * list bytes) (x : selitem * bytes) : selopt * list bytes :=
  match si_what (fst x), p with
  | SStar, (_, l) => (SelAll, l)
  | SColumn _, (_, l) => (SelList, l ++ [snd x])
  | SCall _ _, (SelAll, l) => (SelAll, l)
  | SCall _ _, (_, l) => (SelList, l ++ [snd x])
  end.
Definition names_given (f : selitem -> option bytes) (l : list (selitem * bytes)) : list (bytes * bytes) :=
  flat_map (fun x => match f (fst x) with Some w => [(snd x, w)] | None => [] end) l.
(* "path" or the legacy name "prop:nested" in a list stands for the region hierarchy; the first of each is
   taken out of the list *)
Inductive without_first (w : bytes) : list bytes -> list bytes -> bool -> Prop :=
| wf_none l : ~ In w l -> without_first w l l false
| wf_some a b : ~ In w a -> without_first w (a ++ w :: b) (a ++ b) true.
Definition path_taken (l l' : list bytes) (p : bool) : Prop :=
  exists l1 b1 b2, without_first (bs "path") l l1 b1 /\ without_first (bs "prop:nested") l1 l' b2 /\ p = b1 || b2.
Definition listed {A} (none : selopt) (l : list A) : selopt := match l with [] => none | _ => SelList end.
Definition last_of {A} (l : list A) : option A := match rev l with [] => None | x :: _ => Some x end.

(* q is the query described by the clauses *)
Definition describes (cl : list clause) (q : query) : Prop :=
  (* aggregations *)
  Forall2 (fun c o => exists id col, agg_call c id col /\ op_is o id c) (flat_map aggregations cl) (q_agg q) /\
  q_asel q = listed SelNone (q_agg q) /\
  (* GROUP BY *)
  path_taken (flat_map groups cl) (q_grp q) (q_gpath q) /\ q_gsel q = listed SelDefault (flat_map groups cl) /\
  (* SELECT, aliases and units *)
  (exists cols l, Forall2 column_of (flat_map sel_items cl) cols /\
     fold_left sel_step (combine (flat_map sel_items cl) cols) (SelDefault, []) = (q_ssel q, l) /\
     path_taken l (q_sel q) (q_spath q) /\
     q_alias q = names_given si_as (combine (flat_map sel_items cl) cols) /\
     q_unit q = names_given si_unit (combine (flat_map sel_items cl) cols)) /\
  (* WHERE *)
  Forall2 cond_is (flat_map wheres cl) (q_flt q) /\ q_fsel q = listed SelNone (q_flt q) /\
  (* ORDER BY *)
  q_ord q = map (fun o => (fst o, match snd o with DDesc => false | _ => true end)) (flat_map orders cl) /\ q_osel q = listed SelNone (q_ord q) /\
  (* FORMAT: the last one *)
  (match last_of (flat_map formats cl), q_fmt q with
   | None, None => True
   | Some f, Some (d, kw) => format_call f (f_id d) kw
   | _, _ => False
   end) /\
  (* LET *)
  Forall2 (fun l p => p_target p = li_target l /\ (exists id, let_call (li_op l) id /\ op_is (p_op p) id (li_op l)) /\
             match li_if l with Some c => cond_is c (p_cond p) | None => p_cond p = no_cond end) (flat_map lets cl) (q_pre q).

(* ---------- valid clauses ---------- *)
(* names and values are not empty; an attribute in a condition is not "not" *)
Definition cond_ok (c : condition) : Prop :=
  cn_attr c <> [] /\ (cn_not c = false -> map tolower (cn_attr c) <> bs "not") /\
  match cn_test c with Exists => True | Equals v | Less v | Greater v => v <> [] end.
Definition item_ok (s : selitem) : Prop :=
  (exists col, column_of s col) /\ si_as s <> Some [] /\ si_unit s <> Some [].
Definition clause_ok (c : clause) : Prop :=
  match c with
  | CAggregate l => l <> [] /\ Forall (fun c => exists id col, agg_call c id col) l
  | CFormat f => exists id kw, format_call f id kw
  | CGroup l => l <> [] /\ ~ In [] l
  | CSelect l => l <> [] /\ Forall item_ok l
  | COrder l => l <> [] /\ ~ In [] (map fst l)
  | CWhere l => l <> [] /\ Forall cond_ok l
  | CLet l => l <> [] /\ Forall (fun l => (exists id, let_call (li_op l) id) /\ match li_if l with Some c => cond_ok c | None => True end) l
  end.
(* every LET target is defined once *)
Definition query_ok (cl : list clause) : Prop := Forall clause_ok cl /\ NoDup (map li_target (flat_map lets cl)).
