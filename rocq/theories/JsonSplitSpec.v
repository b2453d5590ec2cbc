(* How a program reads json-split output. *)
From Coq Require Import Strings.Ascii Strings.String Sorted.
From Verif Require Import Base VariantModel VariantSpec NamesModel TextModel TreeModel CaliFileModel AggModel FilterModel RConfigModel FmtModel JsonSpec JsonModel JsonOutSpec JsonSplitModel.

(* the integer a JSON number text without a fraction stands for *)
Definition jnat (t : bytes) : N := fold_left (fun a c => a * 10 + (c - 48)) t 0.
(* the labels from the outermost node to node i, following the "parent" members *)
Inductive leads (nodes : list json) : N -> list bytes -> Prop :=
| ld_top i l c : nth_error nodes (N.to_nat i) = Some (JObj [(bs "label", JStr l); (bs "column", JStr c)]) -> leads nodes i [l]
| ld_sub i l c t ls : nth_error nodes (N.to_nat i) = Some (JObj [(bs "label", JStr l); (bs "column", JStr c); (bs "parent", JNum t)]) -> leads nodes (jnat t) ls -> leads nodes i (ls ++ [l]).

Section SPEC.
Variable vtext : value -> bytes.
Variable d : mdb.
Variable q : sspec.
(* the values of a record's region nodes with one of the attributes, outermost first *)
Definition region_path (attrs : list N) (rec : list entry) : list bytes :=
  rev (flat_map (fun e => match e with ERef i => map (fun x => vtext (snd x)) (filter (fun x => existsb (fun a => fst x =? a) attrs) (node_path d i)) | EImm _ _ => [] end) rec).
(* the first value of an attribute in a record *)
Definition first_value (a : N) (rec : list entry) : option value := option_map (ent_val d) (find (fun e => ent_attr d e =? a) rec).
(* idf: the node ids the output gives to paths *)
Definition cell_is (nodes : list json) (idf : list bytes -> N) (rec : list entry) (c : scol) (j : json) : Prop :=
  if sc_hier c then
    let L := region_path (sc_attrs c) rec in
    match L with [] => j = JNull | _ => exists t, j = JNum t /\ jnat t = idf L /\ leads nodes (idf L) (map kept L) end
  else exists a, sc_attrs c = [a] /\
    j = match first_value a rec with
        | None => JNull
        | Some v => if unquoted_type d a then JNum (vtext v) else JStr (kept (vtext v))
        end.
(* paths occurring in the output *)
Definition used (cols : list scol) (recs : list (list entry)) (L : list bytes) : Prop :=
  L <> [] /\ exists rec c, In rec recs /\ In c cols /\ sc_hier c = true /\ L = region_path (sc_attrs c) rec.
Definition meta_is (c : scol) (j : json) : Prop :=
  j = JObj ((bs "is_value", JBool (negb (sc_hier c))) ::
     match sc_attrs c with
     | [a] => map (fun x => (kept (aname d (fst x)), JStr (kept (vtext (snd x))))) (filter (fun x => (12 <=? fst x) && negb (is_hidden d (fst x))) (tl (node_path d a)))
     | _ => []
     end).
(* the selected attributes *)
Definition sselected (a : N) : Prop :=
  if ss_all q then is_hidden d a = false /\ is_global d a = false else (ss_path q = true /\ is_nested d a = true) \/ In (aname d a) (ss_names q).
Definition columns_are (cols : list scol) : Prop :=
  exists L : list (bytes * N), StronglySorted (fun x y => before (fst x) (fst y)) L /\ (forall n a, In (n, a) L <-> alookup (d_attrs d) n = Some a /\ sselected a) /\
    let single := filter (fun x => negb (is_nested d (snd x))) L in let nested := filter (fun x => is_nested d (snd x)) L in
    exists path, (nested = [] /\ path = [] \/ nested <> [] /\ path = [mksc (bs "path") (map snd nested) true]) /\
    cols = map (fun x => mksc (match lookup_alias (ss_alias q) (aname d (snd x)) with Some t => t | None => aname d (snd x) end) [snd x] (negb (as_value d (snd x)))) single ++ path.
End SPEC.
