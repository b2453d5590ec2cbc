(* Spellings of words and nested texts, independent of the reader *)
From Verif Require Import Base TextModel ParseModel.
Open Scope N_scope.

(* text between double quotes: a backslash makes the next character literal *)
Inductive quoted : bytes -> bytes -> Prop :=
| q_nil : quoted [] []
| q_char c i w : c <> 34 -> c <> 92 -> quoted i w -> quoted (c :: i) (c :: w)
| q_esc c i w : quoted i w -> quoted (92 :: c :: i) (c :: w).
(* a character that ends a word *)
Definition delim (seps : bytes) (c : N) : Prop := isspace c = true \/ In c seps.
Definition plain (seps : bytes) (c : N) : Prop := c <> 34 /\ c <> 92 /\ ~ delim seps c.
(* i is a spelling of the word w: plain characters, escaped characters, quoted pieces *)
Inductive spells (seps : bytes) : bytes -> bytes -> Prop :=
| sp_nil : spells seps [] []
| sp_char c i w : plain seps c -> spells seps i w -> spells seps (c :: i) (c :: w)
| sp_esc c i w : spells seps i w -> spells seps (92 :: c :: i) (c :: w)
| sp_quote i w i' w' : quoted i w -> spells seps i' w' -> spells seps (34 :: i ++ 34 :: i') (w ++ w').
(* the input ends inside of quotes or right after a backslash *)
Definition cut_off (seps : bytes) (i w : bytes) : Prop :=
  exists i1 w1, spells seps i1 w1 /\
    (i = i1 ++ [92] /\ w = w1 \/ exists i2 w2 t, quoted i2 w2 /\ i = i1 ++ 34 :: i2 ++ t /\ w = w1 ++ w2 /\ (t = [] \/ t = [92])).
(* the text after the word: nothing, or it starts with a delimiter *)
Definition stops (seps : bytes) (rest : bytes) : Prop := match rest with [] => True | c :: _ => delim seps c /\ c <> 34 /\ c <> 92 end.
Definition spaces (s : bytes) : Prop := Forall (fun c => isspace c = true) s.
(* the canonical spelling *)
Definition quote (w : bytes) : bytes := 34 :: flat_map (fun c => if (c =? 34) || (c =? 92) then [92; c] else [c]) w ++ [34].

(* text in which every bracket cs outside of quotes is closed by ce *)
Inductive balanced (cs ce : N) : bytes -> Prop :=
| b_nil : balanced cs ce []
| b_char c t : c <> 34 -> c <> 92 -> c <> cs -> c <> ce -> balanced cs ce t -> balanced cs ce (c :: t)
| b_esc c t : balanced cs ce t -> balanced cs ce (92 :: c :: t)
| b_quote i w t : quoted i w -> balanced cs ce t -> balanced cs ce (34 :: i ++ 34 :: t)
| b_nest t t' : balanced cs ce t -> balanced cs ce t' -> balanced cs ce (cs :: t ++ ce :: t').

(* structured values: words, lists, dictionaries *)
Inductive sval := SWord (w : bytes) | SList (l : list sval) | SDict (l : list (bytes * sval)).
Definition joinc (sep : bytes) (l : list bytes) : bytes := match l with [] => [] | x :: r => x ++ flat_map (fun y => sep ++ y) r end.
(* their text, with white space ws before every item and delimiter *)
Fixpoint stext (ws : bytes) (v : sval) : bytes :=
  match v with
  | SWord w => quote w
  | SList l => [c_lbrack] ++ joinc (ws ++ [c_comma]) (map (fun x => ws ++ stext ws x) l) ++ ws ++ [c_rbrack]
  | SDict l => [c_lbrace] ++ joinc (ws ++ [c_comma]) (map (fun x => ws ++ quote (fst x) ++ ws ++ [c_colon] ++ ws ++ stext ws (snd x)) l) ++ ws ++ [c_rbrace]
  end.
(* what the reader returns for an element: words unquoted, the rest as text *)
Definition elem_text (ws : bytes) (v : sval) : bytes := match v with SWord w => w | _ => stext ws v end.
Definition nonempty (s : bytes) : bool := match s with [] => false | _ => true end.
