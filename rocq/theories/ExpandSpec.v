(* What the expand formatter's output says: a reader for the text, and the fields a record has. *)
From Coq Require Import Sorted.
From Verif Require Import Base VariantModel VariantSpec NamesModel TextModel TreeModel CaliFileModel AggModel FilterModel FmtModel ExpandModel.
Open Scope N_scope.

(* the pieces of a text between separators: always at least one *)
Fixpoint pieces (c : N) (s : bytes) : list bytes :=
  match s with
  | [] => [[]]
  | x :: r => if x =? c then [] :: pieces c r else match pieces c r with p :: l => (x :: p) :: l | [] => [[x]] end
  end.
(* name and values of a field: the text before the first '=', and the rest in pieces separated by '/' *)
Fixpoint field (s : bytes) : option (bytes * list bytes) :=
  match s with
  | [] => None
  | x :: r => if x =? 61 then Some ([], pieces 47 r) else match field r with Some (n, v) => Some (x :: n, v) | None => None end
  end.
(* the fields of a line; the lines of a text, each one ended by a newline *)
Definition line_fields (s : bytes) : list (option (bytes * list bytes)) := map field (pieces 44 s).
Definition text_lines (s : bytes) : list bytes := removelast (pieces 10 s).
Definition read_text (s : bytes) : list (list (option (bytes * list bytes))) := map line_fields (text_lines s).

(* texts that can be told apart: names without , = newline, values without , / newline *)
Definition clear_name (s : bytes) : Prop := ~ In 44 s /\ ~ In 61 s /\ ~ In 10 s.
Definition clear_value (s : bytes) : Prop := ~ In 44 s /\ ~ In 47 s /\ ~ In 10 s.

Section SPEC.
Variable vtext : value -> bytes.
Variable d : mdb.
Variable sel : N -> Prop.       (* the attributes the SELECT list contains *)
Variable label : N -> bytes.    (* their names or aliases *)
(* the values of attribute a on the path of node i, outermost first *)
Definition values_of (i a : N) : list value := map snd (filter (fun x => fst x =? a) (rev (node_path d i))).
(* the fields of an entry: an immediate value has one if its attribute is selected; a node has one for every
   selected attribute on its path, latest attribute first, with all its values from the outermost to the innermost *)
Inductive shows : entry -> list (bytes * list bytes) -> Prop :=
| sh_imm a v : sel a -> shows (EImm a v) [(label a, [vtext v])]
| sh_not a v : ~ sel a -> shows (EImm a v) []
| sh_ref i ids : StronglySorted (fun a b => b < a) ids -> (forall a, In a ids <-> sel a /\ In a (map fst (node_path d i))) ->
    shows (ERef i) (map (fun a => (label a, map vtext (values_of i a))) ids).
Definition rec_shows (rec : list entry) (fs : list (bytes * list bytes)) : Prop :=
  exists l, Forall2 shows rec l /\ fs = concat l.
End SPEC.
(* SELECT: all attributes if there is no list, otherwise those whose names are in it *)
Definition x_selects (d : mdb) (l : list bytes) (a : N) : Prop := l = [] \/ In (xname d a) l.
