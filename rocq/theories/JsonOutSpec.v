(* What JSON output should say about a record, the globals and the attributes. *)
From Coq Require Import Strings.Ascii Strings.String Sorted.
From Verif Require Import Base VariantModel VariantSpec NamesModel TextModel TreeModel CaliFileModel AggModel FilterModel RConfigModel FmtModel JsonSpec JsonModel.

(* the characters JSON output carries: printable ASCII and newline *)
Definition printable (c : N) : bool := ((32 <=? c) && (c <? 128)) || (c =? 10).
Definition kept (s : bytes) : bytes := filter printable s.
Fixpoint slashes (l : list bytes) : bytes := match l with [] => [] | [x] => x | x :: r => x ++ [47] ++ slashes r end.
(* the values that may stand without quotes *)
Definition scalar (t : bytes) : Prop := t = bs "true" \/ t = bs "false" \/ jnum t.
Definition scalar_of (t : bytes) : json := if beqb t (bs "true") then JBool true else if beqb t (bs "false") then JBool false else JNum t.

Section OUT.
Variable vtext : value -> bytes.
Variable d : mdb.
Variable q : jspec.
(* without SELECT: the attributes that are neither hidden nor global *)
Definition shown (a : N) : bool :=
  match js_sel q with [] => negb (is_hidden d a) && negb (is_global d a) | l => existsb (fun s => beqb s (aname d a)) l end.
Definition key (a : N) : bytes :=
  if is_nested d a && negb (js_sep_nested q) then bs "path"
  else match lookup_alias (js_alias q) (aname d a) with Some x => x | None => aname d a end.
(* what the entries of a record add to the keys, in the order of the entries; region nodes innermost first *)
Inductive part := Outer (t : bytes) | Str (t : bytes) | Plain (t : bytes).
Definition parts (rec : list entry) : list (bytes * part) :=
  filter (fun p => negb (beqb (fst p) [])) (flat_map (fun e =>
    match e with
    | ERef i => map (fun x => (key (fst x), Outer (vtext (snd x)))) (filter (fun x => shown (fst x)) (node_path d i))
    | EImm a v => if shown a then [(key a, if js_quote_all q || (attr_type d a =? T_STRING) || (attr_type d a =? T_USR) then Str (vtext v) else Plain (vtext v))] else []
    end) rec).
Definition strs (K : bytes) (rec : list entry) : list part :=
  map snd (filter (fun p => beqb (fst p) K && match snd p with Plain _ => false | _ => true end) (parts rec)).
Definition plains (K : bytes) (rec : list entry) : list bytes :=
  flat_map (fun p => if beqb (fst p) K then match snd p with Plain t => [t] | _ => [] end else []) (parts rec).
(* the text of a key: the last single value, and in front of it the region names that came after it *)
Fixpoint until_str (l : list part) : list bytes := match l with [] => [] | Outer t :: r => t :: until_str r | Str t :: _ => [t] | Plain t :: _ => [t] end.
Definition str_text (K : bytes) (rec : list entry) : bytes := slashes (until_str (rev (strs K rec))).
Definition before (a b : bytes) : Prop := bltb a b = true.
Definition object_of (rec : list entry) (o : list (bytes * json)) : Prop :=
  exists Ks Kp,
    StronglySorted before Ks /\ StronglySorted before Kp /\
    (forall K, In K Ks <-> strs K rec <> []) /\ (forall K, In K Kp <-> plains K rec <> []) /\
    o = map (fun K => (kept K, JStr (kept (str_text K rec)))) Ks ++ map (fun K => (kept K, scalar_of (last (plains K rec) []))) Kp.
Definition has_member (rec : list entry) : bool := negb (is_empty (parts rec)).

(* globals: like records, by attribute; empty values that come first are dropped *)
Definition gparts (globals : list entry) : list (N * part) :=
  flat_map (fun e => match e with ERef i => map (fun x => (fst x, Outer (vtext (snd x)))) (node_path d i) | EImm a v => [(a, Str (vtext v))] end) globals.
Definition gparts_of (a : N) (globals : list entry) : list part := map snd (filter (fun p => fst p =? a) (gparts globals)).
Fixpoint drop_empty (l : list bytes) : list bytes := match l with [] :: r => drop_empty r | _ => l end.
Definition gtext (a : N) (globals : list entry) : bytes := slashes (rev (drop_empty (rev (until_str (rev (gparts_of a globals)))))).
Definition globals_of (globals : list entry) (o : list (bytes * json)) : Prop :=
  exists A, StronglySorted N.lt A /\ (forall a, In a A <-> gparts_of a globals <> []) /\
    o = map (fun a => (kept (aname d a), JStr (kept (gtext a globals)))) A.

(* attributes *)
Definition attr_obj (a : N) : json :=
  JObj ((bs "is_global", JBool (is_global d a)) :: (bs "is_nested", JBool (is_nested d a)) ::
        map (fun x => (kept (aname d (fst x)), JStr (kept (vtext (snd x))))) (node_path d a)).
Definition attrs_of (o : list (bytes * json)) : Prop :=
  exists L : list (bytes * N), StronglySorted (fun x y => before (fst x) (fst y)) L /\
    (forall n a, In (n, a) L <->
       (js_sel q = [] /\ alookup (d_attrs d) n = Some a \/ In n (js_sel q) /\ a = match get_attr d n with Some a => a | None => INV_ID end) /\
       is_hidden d a = false /\ (is_nested d a = true -> js_sep_nested q = true)) /\
    o = map (fun x => (aname d (snd x), attr_obj (snd x))) L.
End OUT.
