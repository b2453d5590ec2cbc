(* Model of the expand formatter, src/reader/Expand.cpp: one line of attribute=value pairs per record.
   The output stream's mutex is held while a line is written (114-118), so lines of concurrent calls are whole. *)
From Verif Require Import Base VariantModel VariantSpec NamesModel TextModel TreeModel CaliFileModel AggModel FilterModel FmtModel.
Open Scope N_scope.

(* SELECT list (empty: everything, also for SELECT * and no SELECT), aliases; configure 37-55 *)
Record xspec := mkxs { xs_sel : list bytes; xs_alias : list (bytes * bytes) }.
Section EXPAND.
Variable vtext : value -> bytes.  (* Variant::to_string, also used by operator<<, Variant.cpp:179-183 *)
Variable d : mdb.
Variable q : xspec.
(* get_attribute(id).name() *)
Definition xname (a : N) : bytes := if is_attr d a then attr_name d a else [].
(* 70-71, 104-105: m_selected.empty() or the name is in it *)
Definition xsel (a : N) : bool := match xs_sel q with [] => true | l => existsb (fun s => beqb s (xname a)) l end.
(* 90-94, 107-111 *)
Definition xlabel (a : N) : bytes := match lookup_alias (xs_alias q) (xname a) with Some x => x | None => xname a end.
(* the loop at 86-100 over the sorted nodes, backwards; n: nentry, prev: prev_attr_id (None: CALI_INV_ID, which no node
   of a path has) *)
Fixpoint xemit (prev : option N) (n : nat) (l : list (N * value)) : bytes * nat :=
  match l with
  | [] => ([], n)
  | (a, v) :: r =>
      if match prev with Some p => a =? p | None => false end then
        let (t, n1) := xemit prev n r in (47 :: vtext v ++ t, n1)
      else
        let (t, n1) := xemit (Some a) (S n) r in ((if (n =? 0)%nat then [] else [44]) ++ xlabel a ++ 61 :: vtext v ++ t, n1)
  end.
(* one entry, 64-112; node_path: from the entry's node to the root *)
Definition xentry (s : bytes * nat) (e : entry) : bytes * nat :=
  match e with
  | ERef i =>
      let nodes := ssort (fun x y => fst x <? fst y) (filter (fun x => xsel (fst x)) (node_path d i)) in
      let (t, n) := xemit None (snd s) (rev nodes) in (fst s ++ t, n)
  | EImm a v =>
      if xsel a then (fst s ++ (if (snd s =? 0)%nat then [] else [44]) ++ xlabel a ++ 61 :: vtext v, S (snd s)) else s
  end.
(* print, 57-119 *)
Definition xprint (rec : list entry) : bytes :=
  let (t, n) := fold_left xentry rec ([], 0%nat) in if (n =? 0)%nat then [] else t ++ [10].
Definition expand_output (recs : list (list entry)) : bytes := flat_map xprint recs.
End EXPAND.
