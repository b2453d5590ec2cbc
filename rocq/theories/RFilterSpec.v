(* Region filter configurations as lists of items, and what they mean *)
From Verif Require Import Base TextModel ParseModel ParseSpec RFilterModel.
Open Scope N_scope.

(* a filter configuration: names, match(...), startswith(...), regex(...) *)
Inductive fitem := FName (w : bytes) | FMatch (l : list bytes) | FStarts (l : list bytes) | FRegex (l : list bytes).

(* a word with white space around it; an empty word can be left out *)
Definition padded (i w : bytes) : Prop :=
  exists sp i' sp', i = sp ++ i' ++ sp' /\ spaces sp /\ spaces sp' /\ spells f_seps i' w /\ (i' = [] -> sp' = []).
(* comma separated arguments *)
Inductive args_text : bytes -> list bytes -> Prop :=
| at_one i w : padded i w -> args_text i [w]
| at_cons i w t l : padded i w -> args_text t l -> args_text (i ++ c_comma :: t) (w :: l).
Definition keyword (w : bytes) : Prop := w = k_match \/ w = k_startswith \/ w = k_regex.
(* spelling of "kw ( arguments )" *)
Definition call_text (kw i : bytes) (l : list bytes) : Prop :=
  exists k a sp, i = k ++ c_lpar :: a ++ c_rpar :: sp /\ padded k kw /\ args_text a l /\ spaces sp.
(* the keyword may stand without any argument list *)
Definition func_text (kw i : bytes) (l : list bytes) : Prop := call_text kw i l \/ (padded i kw /\ l = []).
Definition item_text (i : bytes) (it : fitem) : Prop :=
  match it with
  | FName w => padded i w /\ ~ keyword w
  | FMatch l => func_text k_match i l
  | FStarts l => func_text k_startswith i l
  | FRegex l => func_text k_regex i l
  end.

(* what an item says about a region name; empty words say nothing *)
Section RX.
Variable rx_match : bytes -> bytes -> bool.
Definition selects (it : fitem) (v : bytes) : Prop :=
  match it with
  | FName w => w <> [] /\ v = w
  | FMatch l => exists w, In w l /\ w <> [] /\ v = w
  | FStarts l => exists w rest, In w l /\ w <> [] /\ v = w ++ rest
  | FRegex l => exists r, In r l /\ r <> [] /\ rx_match r v = true
  end.
End RX.
(* the item contains a pattern at all *)
Definition has_pattern (it : fitem) : Prop :=
  match it with FName w => w <> [] | FMatch l | FStarts l | FRegex l => exists w, In w l /\ w <> [] end.
(* the patterns of the item that have to compile *)
Definition regexes (it : fitem) : list bytes := match it with FRegex l => filter nonempty l | _ => [] end.
