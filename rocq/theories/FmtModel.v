(* Model of the text layout helpers, src/common/util/format_util.cpp, and of the table
   formatter, src/reader/TableFormatter.cpp. *)
From Verif Require Import Base VariantModel VariantSpec NamesModel TextModel TreeModel CaliFileModel AggModel FilterModel.

(* ---------------- format_util.cpp ---------------- *)
Definition sp : N := 32.
(* the loop `for (; s > 80; s -= 80) os << whitespace; os << whitespace + (80 - s)`, 24-27 and 39-42: s blanks.
   fuel: s itself *)
Fixpoint blanks (fuel s : nat) : bytes :=
  match fuel with
  | O => []
  | S f => if (80 <? s)%nat then repeat sp 80 ++ blanks f (s - 80) else skipn (80 - s) (repeat sp 80)
  end.
(* pad_right, 14-30 *)
Definition pad_right (str : bytes) (width : nat) : bytes :=
  str ++ (if (width <? length str)%nat then [sp] else let s := (1 + width - length str)%nat in blanks s s).
(* pad_left, 32-47 *)
Definition pad_left (str : bytes) (width : nat) : bytes :=
  (if (length str <? width)%nat then let s := (width - length str)%nat in blanks s s else []) ++ str ++ [sp].
(* clamp_string, 49-64 *)
Definition clamp (str : bytes) (w : nat) : bytes :=
  if (length str <=? w)%nat then str
  else if (w <? 4)%nat then firstn w str
  else firstn (w / 2 - 1) str ++ [126; 126] ++ skipn (length str - (w / 2 - 1)) str.

(* std::stable_sort with a strict weak ordering has exactly one result; computed here by insertion *)
Section SORT.
Context {A : Type}.
Variable lt : A -> A -> bool.
Fixpoint sinsert (x : A) (l : list A) : list A := match l with [] => [x] | y :: r => if lt y x then y :: sinsert x r else x :: l end.
Fixpoint ssort (l : list A) : list A := match l with [] => [] | x :: r => sinsert x (ssort r) end.
End SORT.

(* ---------------- TableFormatter ---------------- *)
Inductive sord := SNone | SAsc | SDesc.
(* TableImpl::Column, TableFormatter.cpp:28-50 *)
Record column := mkcol { co_name : bytes; co_disp : bytes; co_width : nat; co_attr : option N; co_print : bool; co_ord : sord }.
(* the parts of QuerySpec used: ORDER BY list, SELECT list (None: default or all), SELECT ... AS aliases, column-width argument *)
Record tspec := mkts { ts_sort : list (bytes * sord); ts_sel : option (list bytes); ts_alias : list (bytes * bytes); ts_max : Z }.
Fixpoint lookup_alias (l : list (bytes * bytes)) (s : bytes) : option bytes := match l with (k, v) :: r => if beqb k s then Some v else lookup_alias r s | [] => None end.

Section TABLE.
Variable vtext : value -> bytes.      (* Variant::to_string *)
Variable dparse : bytes -> option N.  (* strtod *)
Variable d : mdb.                     (* the metadata does not change while records are formatted *)
Variable q : tspec.

(* column_width, 65-68 *)
Definition column_width (base : nat) : nat :=
  Z.to_nat (Z.max (if (0 <? ts_max q)%Z then Z.min (Z.of_nat base) (ts_max q) else Z.of_nat base) 4).
(* configure, 70-131 *)
Definition cols_init : list column :=
  map (fun s => mkcol (fst s) (fst s) (length (fst s)) None false (snd s)) (ts_sort q) ++
  match ts_sel q with
  | None => []
  | Some l => map (fun s => let a := match lookup_alias (ts_alias q) s with Some a => a | None => s end in mkcol s a (length a) None true SNone) l
  end.
Definition auto_column : bool := match ts_sel q with None => true | Some _ => false end.
Definition GLOBAL : Z := 512.
Definition is_global (a : N) : bool := negb (Z.land (attr_props d a) GLOBAL =? 0)%Z.
Definition attr_name (a : N) : bytes := match dnode d a with Some n => v_text (n_val n) | None => [] end.
(* the displayed name, 150-162: AS alias, else attribute.alias metadata, else the name *)
Definition meta_alias (a : N) : option bytes :=
  match get_attr d lit_alias with
  | Some k => match climb (length (d_nodes d)) (dnode d) a k with Some v => if nonempty v then Some (vtext v) else None | None => None end
  | None => None
  end.
Definition display_name (a : N) : bytes :=
  match lookup_alias (ts_alias q) (attr_name a) with
  | Some x => x
  | None => match meta_alias a with Some x => x | None => attr_name a end
  end.
Definition is_snone (o : sord) : bool := match o with SNone => true | _ => false end.
Definition has_attr (a : N) (c : column) : bool := match co_attr c with Some x => x =? a | None => false end.
(* update_column_attribute, 133-165 *)
Definition update_col (cols : list column) (a : N) : list column :=
  if existsb (fun c => is_snone (co_ord c) && has_attr a c) cols then cols
  else if negb (is_attr d a) || is_hidden d a || is_global a then cols
  else cols ++ [mkcol (attr_name a) (display_name a) (length (display_name a)) (Some a) true SNone].
(* the attributes of a record, in the order visited at 174-181 *)
Definition rec_attrs (rec : list entry) : list N :=
  flat_map (fun e => match e with ERef i => map fst (node_path d i) | EImm a _ => [a] end) rec.
Definition resolve (c : column) : column :=
  match co_attr c with
  | Some _ => c
  | None => mkcol (co_name c) (co_disp c) (co_width c) (get_attr d (co_name c)) (co_print c) (co_ord c)
  end.
(* update_columns, 167-190 (under m_col_lock) *)
Definition update_columns (cols : list column) (rec : list entry) : list column :=
  map resolve (if auto_column then fold_left update_col (rec_attrs rec) cols else cols).
(* the value of one column, 205-224 *)
Definition slash : N := 47.
Definition ref_text (a : N) (i : N) : bytes :=
  fold_left (fun str x => if fst x =? a then vtext (snd x) ++ (match str with [] => [] | _ => [slash] end) ++ str else str) (node_path d i) [].
Fixpoint cell (a : N) (rec : list entry) : bytes :=
  match rec with
  | [] => []
  | ERef i :: r => match ref_text a i with [] => cell a r | t => t end
  | EImm b v :: r => if b =? a then vtext v else cell a r
  end.
Definition col_cell (rec : list entry) (c : column) : bytes := match co_attr c with Some a => cell a rec | None => [] end.
Definition is_nil (b : bytes) : bool := match b with [] => true | _ => false end.
Definition widen (c : column) (w : nat) : column := mkcol (co_name c) (co_disp c) (Nat.max (co_width c) w) (co_attr c) (co_print c) (co_ord c).
(* the last step of add, 250-256: raise the widths of the first columns *)
Fixpoint widen_all (cols : list column) (ws : list nat) : list column :=
  match cols, ws with c :: cs, w :: r => widen c w :: widen_all cs r | _, _ => cols end.

(* add, 192-257, by any number of threads: the three critical sections are atomic steps.
   tb_a: threads that have computed a row, tb_b: threads that have stored their row but not their widths *)
Record tstate := mktb { tb_cols : list column; tb_rows : list (list bytes); tb_a : list (list bytes * list nat); tb_b : list (list nat) }.
Definition t_init : tstate := mktb cols_init [] [] [].
Inductive tstep : tstate -> option (list entry) -> tstate -> Prop :=
| st_cols s rec : let cols := update_columns (tb_cols s) rec in let row := map (col_cell rec) cols in
    tstep s (Some rec) (mktb cols (tb_rows s) ((row, map (fun p => Nat.max (co_width (fst p)) (length (snd p))) (combine cols row)) :: tb_a s) (tb_b s))
| st_row s p row ws r : tb_a s = p ++ (row, ws) :: r ->
    tstep s None (mktb (tb_cols s) (if forallb is_nil row then tb_rows s else tb_rows s ++ [row]) (p ++ r) (ws :: tb_b s))
| st_width s p ws r : tb_b s = p ++ ws :: r ->
    tstep s None (mktb (widen_all (tb_cols s) ws) (tb_rows s) (tb_a s) (p ++ r)).
(* reachable, with the records added so far *)
Inductive treach : list (list entry) -> tstate -> Prop :=
| tr_init : treach [] t_init
| tr_add s rec s' recs : treach recs s -> tstep s (Some rec) s' -> treach (recs ++ [rec]) s'
| tr_tau s s' recs : treach recs s -> tstep s None s' -> treach recs s'.

(* flush, 259-327 *)
Definition col_type (c : column) : N := match co_attr c with Some a => attr_type d a | None => T_INV end.
Definition row_lt (c : nat) (col : column) (l r : list bytes) : bool :=
  match nth_error l c, nth_error r c with
  | Some x, Some y =>
    let vx := from_string dparse (col_type col) x in let vy := from_string dparse (col_type col) y in
    match co_ord col with SDesc => vgtb vx vy | _ => vltb vx vy end
  | _, _ => match co_ord col with SDesc => (length r <? length l)%nat | _ => (length l <? length r)%nat end
  end.
Fixpoint sort_rows (cols : list column) (c : nat) (rows : list (list bytes)) : list (list bytes) :=
  match cols with
  | [] => rows
  | col :: r => sort_rows r (S c) (if is_snone (co_ord col) then rows else ssort (row_lt c col) rows)
  end.
Definition header (cols : list column) : bytes :=
  flat_map (fun c => if co_print c then let w := column_width (co_width c) in pad_right (clamp (co_disp c) w) w else []) cols ++ [c_nl].
Definition right_aligned (t : N) : bool := (t =? T_INT) || (t =? T_UINT) || (t =? T_DOUBLE).
Definition field (c : column) (x : bytes) : bytes :=
  let w := column_width (co_width c) in
  let str := clamp x w in
  if right_aligned (col_type c) then pad_left str w else pad_right str w.
Definition row_line (cols : list column) (row : list bytes) : bytes :=
  flat_map (fun p => if co_print (fst p) then field (fst p) (snd p) else []) (combine cols row) ++ [c_nl].
Definition table_rows (s : tstate) : list (list bytes) := sort_rows (tb_cols s) 0 (tb_rows s).
Definition tflush (s : tstate) : bytes := header (tb_cols s) ++ flat_map (row_line (tb_cols s)) (table_rows s).
End TABLE.
