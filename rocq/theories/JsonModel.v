(* Model of the JSON formatter, src/reader/JsonFormatter.cpp, and of write_json_esc_string,
   src/common/util/format_util.h. *)
From Coq Require Import Strings.Ascii Strings.String.
From Verif Require Import Base VariantModel VariantSpec NamesModel TextModel TreeModel CaliFileModel AggModel FilterModel RConfigModel FmtModel.

(* write_json_esc_string, format_util.h:33-51 (char is signed) *)
Definition jesc1 (c : N) : bytes :=
  (if c =? c_nl then [c_bs; c_n] else []) ++
  (if ctrl c then [] else if (c =? c_bs) || (c =? 34) then [c_bs; c] else [c]).
Definition jesc (s : bytes) : bytes := flat_map jesc1 s.
Definition quoted (s : bytes) : bytes := 34 :: jesc s ++ [34].
(* the order of std::map<std::string, ...>: by unsigned bytes *)
Fixpoint bltb (a b : bytes) : bool :=
  match a, b with
  | [], [] => false
  | [], _ :: _ => true
  | _ :: _, [] => false
  | x :: a', y :: b' => if x <? y then true else if x =? y then bltb a' b' else false
  end.
(* set or change the element for a key: f is given the old value *)
Fixpoint mput (m : list (bytes * bytes)) (k : bytes) (f : option bytes -> bytes) : list (bytes * bytes) :=
  match m with
  | [] => [(k, f None)]
  | (k', v) :: r => if beqb k k' then (k', f (Some v)) :: r else if bltb k k' then (k, f None) :: m else (k', v) :: mput r k f
  end.
(* the elements of a std::map or std::set with the given insertions, in the order of iteration *)
Fixpoint kins {A} (m : list (bytes * A)) (k : bytes) (v : A) : list (bytes * A) :=
  match m with
  | [] => [(k, v)]
  | (k', v') :: r => if beqb k k' then m else if bltb k k' then (k, v) :: m else (k', v') :: kins r k v
  end.
Definition kmap {A} (l : list (bytes * A)) : list (bytes * A) := fold_left (fun m p => kins m (fst p) (snd p)) l [].

(* QuerySpec and format arguments, configure 48-80 *)
Inductive jlayout := JRecords | JSplit | JObject.
Record jspec := mkjs { js_sel : list bytes; js_alias : list (bytes * bytes); js_layout : jlayout; js_pretty : bool; js_quote_all : bool; js_sep_nested : bool }.

(* Variant::to_string, src/common/Variant.cpp:35-100; dtext: std::to_string(double) *)
Definition to_string (dtext : N -> bytes) (v : value) : bytes :=
  match v with
  | VInv => []
  | VUsr s => usr_text s
  | VInt z => if (z <? 0)%Z then c_minus :: dec (Z.to_N (- z)) else dec (Z.to_N z)
  | VUint n => dec n
  | VStr s => match rev s with 0 :: r => rev r | _ => s end
  | VAddr n => hex n
  | VDouble b => dtext b
  | VBool b => if b then bs "true" else bs "false"
  | VType t => type2string t
  | VPtr p => hex p
  end.

Section JSON.
Variable vtext : value -> bytes.  (* Variant::to_string *)
Variable d : mdb.                 (* the metadata does not change while records are formatted *)
Variable q : jspec.
Definition is_empty {A} (l : list A) : bool := match l with [] => true | _ => false end.
Definition aname (a : N) : bytes := if is_attr d a then attr_name d a else [].
Definition lit_path : bytes := bs "path".
(* get_key, 82-97 *)
Definition get_key (a : N) : bytes :=
  let name := aname a in
  let sel := existsb (fun s => beqb s name) (js_sel q) in
  if negb sel && (negb (is_empty (js_sel q)) || is_hidden d a || is_global d a) then []
  else if is_nested d a && negb (js_sep_nested q) then lit_path
  else match lookup_alias (js_alias q) name with Some x => x | None => name end.
(* print, 113-160: the key-value pairs; (quoted, not quoted) *)
Definition kvs := (list (bytes * bytes) * list (bytes * bytes))%type.
Definition add_node (m : kvs) (x : N * value) : kvs :=
  let k := get_key (fst x) in
  if is_empty k then m
  else (mput (fst m) k (fun o => match o with None => vtext (snd x) | Some s => vtext (snd x) ++ [47] ++ s end), snd m).
Definition add_imm (m : kvs) (a : N) (v : value) : kvs :=
  let k := get_key a in
  if is_empty k then m
  else if js_quote_all q || (attr_type d a =? T_STRING) || (attr_type d a =? T_USR) then (mput (fst m) k (fun _ => vtext v), snd m)
  else (fst m, mput (snd m) k (fun _ => vtext v)).
Definition add_entry (m : kvs) (e : entry) : kvs :=
  match e with ERef i => fold_left add_node (node_path d i) m | EImm a v => add_imm m a v end.
Definition rec_kvs (rec : list entry) : kvs := fold_left add_entry rec ([], []).
(* 168-190: one record *)
Definition pp (s : bytes) : bytes := if js_pretty q then s else [].
Definition members (m : kvs) : list bytes :=
  map (fun p => pp [10; 9] ++ quoted (fst p) ++ [58] ++ quoted (snd p)) (fst m) ++
  map (fun p => pp [10; 9] ++ quoted (fst p) ++ [58] ++ jesc (snd p)) (snd m).
Fixpoint commas (l : list bytes) : bytes := match l with [] => [] | [x] => x | x :: r => x ++ [44] ++ commas r end.
Definition rec_text (m : kvs) : bytes := [123] ++ commas (members m) ++ pp [10] ++ [125].
(* begin_records_section, end_records_section, 99-111 *)
Definition begin_records : bytes := match js_layout q with JRecords => [91; 10] | JObject => [123; 10] ++ quoted (bs "records") ++ bs ": [" ++ [10] | JSplit => [] end.
Definition end_records : bytes := match js_layout q with JSplit => [] | _ => [10; 93] end.
(* the stream and m_num_recs.  print holds m_os_lock while it writes, so calls by several threads take effect
   one after the other *)
Record jstate := mkj { j_out : bytes; j_num : nat }.
Definition j_init : jstate := mkj [] 0.
Definition print (s : jstate) (rec : list entry) : jstate :=
  let m := rec_kvs rec in
  if is_empty (fst m) && is_empty (snd m) then s
  else mkj (j_out s ++ (if (j_num s =? 0)%nat then begin_records else []) ++ (if (0 <? j_num s)%nat then [44; 10] else []) ++ rec_text m) (S (j_num s)).
(* write_globals, 230-261.  globals: db.get_globals() *)
Fixpoint gput (m : list (N * bytes)) (k : N) (f : bytes -> bytes) : list (N * bytes) :=
  match m with
  | [] => [(k, f [])]
  | (k', v) :: r => if k =? k' then (k', f v) :: r else if k <? k' then (k, f []) :: m else (k', v) :: gput r k f
  end.
Definition gadd (m : list (N * bytes)) (e : entry) : list (N * bytes) :=
  match e with
  | ERef i => fold_left (fun m x => gput m (fst x) (fun s => vtext (snd x) ++ (if is_empty s then [] else [47] ++ s))) (node_path d i) m
  | EImm a v => gput m a (fun _ => vtext v)
  end.
Definition global_vals (globals : list entry) : list (N * bytes) := fold_left gadd globals [].
Fixpoint seps (sep : bytes) (l : list bytes) : bytes := match l with [] => [] | [x] => x | x :: r => x ++ sep ++ seps sep r end.
Definition write_globals (globals : list entry) : bytes :=
  seps [44; 10] (map (fun p => pp [9] ++ quoted (aname (fst p)) ++ [58; 32] ++ quoted (snd p)) (global_vals globals)).
(* write_attributes, 192-228; names are not escaped at 215 *)
Definition lit_bool (b : bool) : bytes := if b then bs "true" else bs "false".
Definition attr_list : list N :=
  let attrs := if is_empty (js_sel q) then map snd (kmap (d_attrs d))
               else map snd (kmap (map (fun s => (s, match get_attr d s with Some a => a | None => INV_ID end)) (js_sel q))) in
  filter (fun a => negb (is_hidden d a)) (if js_sep_nested q then attrs else filter (fun a => negb (is_nested d a)) attrs).
Definition attr_text (a : N) : bytes :=
  pp [9] ++ [34] ++ aname a ++ [34] ++ bs ": {" ++ quoted (bs "is_global") ++ [58; 32] ++ lit_bool (is_global d a) ++ [44] ++ quoted (bs "is_nested") ++ [58; 32] ++ lit_bool (is_nested d a) ++
  flat_map (fun x => [44] ++ quoted (aname (fst x)) ++ [58; 32] ++ quoted (vtext (snd x))) (node_path d a) ++ [125].
Definition write_attributes : bytes := match attr_list with [] => [] | l => [10] ++ seps [44; 10] (map attr_text l) end.
(* flush, 263-282 *)
Definition flush (globals : list entry) (s : jstate) : bytes :=
  j_out s ++ (if (j_num s =? 0)%nat then begin_records else []) ++ end_records ++
  (match js_layout q with
   | JObject => [44; 10] ++ quoted (bs "globals") ++ bs ": {" ++ [10] ++ write_globals globals ++ [10; 125] ++
                [44; 10] ++ quoted (bs "attributes") ++ bs ": {" ++ write_attributes ++ [10; 125] ++ [10; 125]
   | _ => []
   end) ++ [10].
Definition json_output (globals : list entry) (recs : list (list entry)) : bytes := flush globals (fold_left print recs j_init).
End JSON.
