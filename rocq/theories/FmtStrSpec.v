(* What a format string means. *)
From Verif Require Import Base VariantModel VariantSpec TextModel FmtStrModel.
Open Scope N_scope.
(* literal text, or a field with an attribute name and possibly a width, before or after the name *)
Inductive item := Lit (t : bytes) | Fld (name : bytes) (width : option N) (first : bool).
Definition item_src (i : item) : bytes :=
  match i with
  | Lit t => t
  | Fld n None _ => [c_pct] ++ n ++ [c_pct]
  | Fld n (Some w) true => [c_pct; c_lb] ++ dec w ++ [c_rb] ++ n ++ [c_pct]
  | Fld n (Some w) false => [c_pct] ++ n ++ [c_lb] ++ dec w ++ [c_rb; c_pct]
  end.
Definition template (l : list item) : bytes := concat (map item_src l).
(* no percent signs in literals, no percent signs or brackets in names, widths up to 80 *)
Definition item_ok (i : item) : Prop :=
  match i with
  | Lit t => ~ In c_pct t
  | Fld n w _ => n <> [] /\ ~ In c_pct n /\ ~ In c_lb n /\ ~ In c_rb n /\ match w with Some k => k <= 80 | None => True end
  end.
(* the values of an attribute in an entry, outermost first *)
Definition entry_values (id : N) (e : fent) : list bytes :=
  match e with FRef p => rev (map snd (filter (fun n => fst n =? id) p)) | FImm a v => if a =? id then [v] else [] | FNone => [] end.
(* separated by slashes *)
Fixpoint slashed (l : list bytes) : bytes := match l with [] => [] | [v] => v | v :: r => v ++ [c_sl] ++ slashed r end.
(* the value shown for an attribute: that of the first entry with the attribute *)
Definition shown (db : fdb) (rec : list fent) (name : bytes) : bytes :=
  match db name with
  | Some (id, _) => match filter (fun e => negb (match entry_values id e with [] => true | _ => false end)) rec with e :: _ => slashed (entry_values id e) | [] => [] end
  | None => []
  end.
Definition numeric (db : fdb) (name : bytes) : bool :=
  match db name with Some (_, ty) => existsb (N.eqb ty) [T_INT; T_UINT; T_ADDR; T_DOUBLE] | None => false end.
(* filled up with blanks to the width: numbers on the left, other values on the right *)
Definition blanks (w : option N) (v : bytes) : bytes := repeat c_sp (match w with Some k => N.to_nat k - length v | None => 0 end).
Definition item_out (numbers_right : bool) (db : fdb) (rec : list fent) (i : item) : bytes :=
  match i with
  | Lit t => t
  | Fld n w _ => let v := shown db rec n in if numbers_right && numeric db n then blanks w v ++ v else v ++ blanks w v
  end.
Definition expected (numbers_right : bool) (db : fdb) (rec : list fent) (l : list item) : bytes := concat (map (item_out numbers_right db rec) l).
(* all values have some text *)
Definition with_text (rec : list fent) : Prop := forall id e, In e rec -> ~ In [] (entry_values id e).
