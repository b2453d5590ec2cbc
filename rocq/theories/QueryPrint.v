(* Model of the query printer, operator<<(std::ostream&, const QuerySpec&) in src/reader/QuerySpec.cpp *)
From Coq Require Import Strings.Ascii Strings.String.
From Verif Require Import Base TextModel ParseModel RConfigModel FilterModel JsonModel QueryModel.
Open Scope N_scope.
(* format_condition, lines 15-46 *)
Definition print_cond (c : cond) : bytes :=
  match c_op c with
  | ONone => []
  | OExist => c_name c
  | ONotExist => bs " not " ++ c_name c
  | OEqual => c_name c ++ bs "=" ++ c_text c
  | ONotEqual => bs " not " ++ c_name c ++ bs "=" ++ c_text c
  | OLess => c_name c ++ bs "<" ++ c_text c
  | OGreater => c_name c ++ bs ">" ++ c_text c
  | OLessEq => bs " not " ++ c_name c ++ bs ">" ++ c_text c
  | OGreaterEq => bs " not " ++ c_name c ++ bs "<" ++ c_text c
  end.
(* items, the first after pre, the others after ", " *)
Definition print_list {A} (pre : bytes) (f : A -> bytes) (l : list A) : bytes :=
  match l with [] => [] | x :: r => pre ++ f x ++ flat_map (fun y => bs ", " ++ f y) r end.
(* format_preprocess_op, lines 48-61 *)
Definition print_pre (p : pspec) : bytes :=
  p_target p ++ bs "=" ++ f_name (o_sig (p_op p)) ++ bs "(" ++ print_list [] (fun a => a) (o_args (p_op p)) ++ bs ")"
  ++ (match c_op (p_cond p) with ONone => [] | _ => bs " if " ++ print_cond (p_cond p) end).
(* format_aggregation_op, lines 63-70: count stays 0, so there is no separator between the arguments *)
Definition print_agg (o : fop) : bytes := f_name (o_sig o) ++ bs "(" ++ concat (o_args o) ++ bs ")".
(* the value of a key in a map: the last assignment *)
Definition map_get (l : list (bytes * bytes)) (k : bytes) : option bytes := option_map snd (find (fun x => beq (fst x) k) (rev l)).
(* lines 77-146 *)
Definition print_query (q : query) : bytes :=
  print_list (bs "let ") print_pre (q_pre q)
  ++ (match q_asel q with SelList => print_list (bs " aggregate ") print_agg (q_agg q) | _ => [] end)
  ++ (match q_ssel q with
      | SelAll => bs " select *"
      | SelList =>
          let item s := s ++ (match map_get (q_alias q) s with Some w => bs " as " ++ w | None => [] end) ++ (match map_get (q_unit q) s with Some w => bs " unit " ++ w | None => [] end) in
          if q_spath q then bs " select path" ++ flat_map (fun s => bs ", " ++ item s) (q_sel q) else print_list (bs " select ") item (q_sel q)
      | _ => []
      end)
  ++ (match q_gsel q with
      | SelList => if q_gpath q then bs " group by path" ++ flat_map (fun s => bs ", " ++ s) (q_grp q) else print_list (bs " group by ") (fun s => s) (q_grp q)
      | _ => []
      end)
  ++ (match q_fsel q with SelList => print_list (bs " where ") print_cond (q_flt q) | _ => [] end)
  ++ (match q_osel q with SelList => print_list (bs " order by ") (fun o : bytes * bool => fst o ++ (if snd o then bs " ASC" else bs " DESC")) (q_ord q) | _ => [] end)
  ++ (match q_fmt q with
      | Some (d, kw) => bs " format " ++ f_name d ++
          (match kmap (rev kw) with [] => [] | m => bs "(" ++ print_list [] (fun p : bytes * bytes => fst p ++ bs "=" ++ snd p) m ++ bs ")" end)
      | None => []
      end).
