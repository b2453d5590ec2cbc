(* Command lines *)
From Verif Require Import Base NamesModel ArgsModel.
Open Scope N_scope.
(* what a user can write: long options with the value after '=' or as the next word, groups of short
   options the last of which can have a value, other words *)
Inductive word :=
| LongFlag (o : opt) | LongEq (o : opt) (v : bytes) | LongNext (o : opt) (v : bytes)
| ShortFlags (g : list opt) | ShortEq (g : list opt) (o : opt) (v : bytes) | ShortNext (g : list opt) (o : opt) (v : bytes)
| Plain (w : bytes).
Definition long_of (o : opt) : bytes := match o_long o with Some n => n | None => [] end.
Definition short_of (o : opt) : N := match o_short o with Some c => c | None => 0 end.
Definition argv_of (w : word) : list bytes :=
  match w with
  | LongFlag o => [[c_dash; c_dash] ++ long_of o]
  | LongEq o v => [[c_dash; c_dash] ++ long_of o ++ [c_eq] ++ v]
  | LongNext o v => [[c_dash; c_dash] ++ long_of o; v]
  | ShortFlags g => [c_dash :: map short_of g]
  | ShortEq g o v => [c_dash :: map short_of g ++ [short_of o] ++ [c_eq] ++ v]
  | ShortNext g o v => [c_dash :: map short_of g ++ [short_of o]; v]
  | Plain x => [x]
  end.
(* what it sets, and the other words *)
Definition sets (w : word) : list (opt * bytes) :=
  match w with
  | LongFlag o => [(o, [])]
  | LongEq o v | LongNext o v => [(o, v)]
  | ShortFlags g => map (fun o => (o, [])) g
  | ShortEq g o v | ShortNext g o v => map (fun o => (o, [])) g ++ [(o, v)]
  | Plain _ => []
  end.
Definition rest_of (w : word) : list bytes := match w with Plain x => [x] | _ => [] end.
(* the value of the first occurrence counts *)
Definition given (name : bytes) (l : list (opt * bytes)) : option bytes := option_map snd (find (fun x => beqb (o_name (fst x)) name) l).

Definition has_long (o : opt) : Prop := exists n, o_long o = Some n.
Definition has_short (o : opt) : Prop := exists c, o_short o = Some c.
Definition word_ok (table : list opt) (w : word) : Prop :=
  match w with
  | LongFlag o => In o table /\ has_long o /\ o_arg o = false
  | LongEq o v => In o table /\ has_long o /\ (v <> [] \/ o_arg o = false)
  | LongNext o v => In o table /\ has_long o /\ o_arg o = true
  | ShortFlags g => g <> [] /\ (forall o, In o g -> In o table /\ has_short o) /\ o_arg (last g (mkopt [] None None false)) = false
  | ShortEq g o v => forall o', In o' (g ++ [o]) -> In o' table /\ has_short o'
  | ShortNext g o v => (forall o', In o' (g ++ [o]) -> In o' table /\ has_short o') /\ o_arg o = true
  | Plain x => x <> [] /\ hd 0 x <> c_dash
  end.
(* option tables: names and option letters are different, and have no '=' *)
Record table_ok (table : list opt) : Prop := mktab {
  tb_names : NoDup (map o_name table);
  tb_long : forall o o' n, In o table -> In o' table -> o_long o = Some n -> o_long o' = Some n -> o = o';
  tb_short : forall o o' c, In o table -> In o' table -> o_short o = Some c -> o_short o' = Some c -> o = o';
  tb_eq : forall o, In o table -> (forall n, o_long o = Some n -> n <> [] /\ ~ In c_eq n) /\ (forall c, o_short o = Some c -> c <> c_eq /\ c <> c_dash)
}.
Definition cmdline (ws : list word) : list bytes := flat_map argv_of ws.
Definition all_sets (ws : list word) : list (opt * bytes) := flat_map sets ws.
Definition all_rest (ws : list word) : list bytes := flat_map rest_of ws.
(* possibly "--" and anything after it *)
Definition ending (tail : option (list bytes)) : list bytes := match tail with Some l => [c_dash; c_dash] :: l | None => [] end.
Definition ending_rest (tail : option (list bytes)) : list bytes := match tail with Some l => l | None => [] end.
