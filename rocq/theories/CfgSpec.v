(* Specification of configuration options, independent of ConfigManager's code *)
From Coq Require Import Strings.Ascii Strings.String.
From Coq Require Import Sorting.Sorted.
From Verif Require Import Base TextModel ParseModel ParseSpec RConfigModel CfgModel.
Open Scope N_scope.

(* options inherited directly or indirectly *)
Inductive reaches (s : ospec) : bytes -> bytes -> Prop :=
| r_self a : reaches s a a
| r_step a o b c : lookup s a = Some o -> In b (op_inherit o) -> reaches s b c -> reaches s a c.
(* a value that says yes or no: true, t, false, f in any case, or a decimal number (0 is no) *)
Inductive says (v : bytes) : bool -> Prop :=
| says_true : In (map tolower v) [bs "true"; bs "t"] -> says v true
| says_false : In (map tolower v) [bs "false"; bs "f"] -> says v false
| says_number n : ~ In (map tolower v) [bs "true"; bs "t"; bs "false"; bs "f"] -> stoull 10 v = Some n -> says v (negb (n =? 0)).
(* an argument that switches an option on: any value of an option that is not boolean, yes for a boolean one *)
Definition switches_on (s : ospec) (a v : bytes) : Prop :=
  exists o, lookup s a = Some o /\ (op_type o = bs "bool" -> says v true).
(* inheritance without cycles *)
Definition acyclic (s : ospec) (rank : bytes -> nat) : Prop :=
  forall a o b, lookup s a = Some o -> In b (op_inherit o) -> (rank b < rank a)%nat.
(* strictly increasing in the order of std::string *)
Definition increasing (l : list bytes) : Prop := StronglySorted (fun a b => JsonModel.bltb a b = true) l.
(* text without the placeholder {}, in which every other opening brace is followed by some character *)
Inductive literal : bytes -> Prop :=
| lit_nil : literal []
| lit_char c t : c <> 123 -> literal t -> literal (c :: t)
| lit_brace c t : c <> 125 -> literal t -> literal (123 :: c :: t).
(* the last element of a list with a property *)
Definition last_with {A} (P : A -> Prop) (l : list A) (x : A) : Prop := exists l1 l2, l = l1 ++ x :: l2 /\ P x /\ forall y, In y l2 -> ~ P y.
(* the first value of a key, in the first list that has one *)
Definition first_of (ls : list arglist) (k : bytes) : option bytes := lookup (concat ls) k.
