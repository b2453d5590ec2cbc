(* Format strings: the names of output files (SnapshotTextFormatter through OutputStream::set_filename)
   and FORMAT format(...) of queries (UserFormatter).
   src/common/SnapshotTextFormatter.cpp, src/common/OutputStream.cpp:211-236, src/reader/UserFormatter.cpp,
   src/common/util/split.hpp.
   Simplified: values are given by their text (Variant::to_string); a reference entry is the list of
   (attribute, value) of its node, the node's parent and so on. *)
From Verif Require Import Base VariantModel VariantSpec NamesModel TextModel.
Open Scope N_scope.

Definition c_pct : N := 37. Definition c_lb : N := 91. Definition c_rb : N := 93. Definition c_sl : N := 47. Definition c_sp : N := 32.
(* util::split, split.hpp:15-31: nothing is put out for an empty last part *)
Fixpoint split_go (sep : N) (s str : bytes) : list bytes :=
  match s with
  | [] => match str with [] => [] | _ => [str] end
  | c :: r => if c =? sep then str :: split_go sep r [] else split_go sep r (str ++ [c])
  end.
Definition split (sep : N) (s : bytes) : list bytes := split_go sep s [].
(* util::tokenize with "[]", split.hpp:33-60 *)
Fixpoint tok_go (s str : bytes) : list bytes :=
  match s with
  | [] => match str with [] => [] | _ => [str] end
  | c :: r => if (c =? c_lb) || (c =? c_rb) then (match str with [] => [] | _ => [str] end) ++ [c] :: tok_go r [] else tok_go r (str ++ [c])
  end.
Definition tokenize (s : bytes) : list bytes := tok_go s [].
(* std::stoi: None for an exception *)
Definition stoi (s : bytes) : option Z :=
  match strtoll (cstr s) with Some z => if ((-2147483648 <=? z) && (z <=? 2147483647))%Z then Some z else None | None => None end.
(* the last position of a token; the loops SnapshotTextFormatter.cpp:65-69, UserFormatter.cpp:74-78 *)
Fixpoint last_pos (t : bytes) (l : list bytes) (i : Z) (found : Z) : Z :=
  match l with [] => found | x :: r => last_pos t r (i + 1)%Z (if beqb x t then i else found) end.
(* a field: literal prefix, attribute name, width *)
Record field := mkfld { f_pre : bytes; f_name : bytes; f_width : Z }.
(* the field entry, SnapshotTextFormatter.cpp:51-83, UserFormatter.cpp:60-92; None: stoi throws *)
Definition parse_field (pre e : bytes) : option field :=
  let l := tokenize e in
  let n := Z.of_nat (length l) in
  let b := last_pos [c_lb] l 0 (-1) in
  let d := last_pos [c_rb] l 0 (-1) in
  if ((0 <=? b) && (b + 1 <? d))%Z then
    match stoi (nth (Z.to_nat (b + 1)) l []) with
    | Some w =>
        let apos := if (0 <? b)%Z then 0%Z else if (d + 1 <? n)%Z then (d + 1)%Z else (-1)%Z in
        Some (mkfld pre (if (0 <=? apos)%Z then nth (Z.to_nat apos) l [] else []) w)
    | None => None
    end
  else Some (mkfld pre (if (0 <? n)%Z then nth 0 l [] else []) 0).
(* parse, SnapshotTextFormatter.cpp:35-87, UserFormatter.cpp:49-97 *)
Fixpoint parse_parts (l : list bytes) : option (list field) :=
  match l with
  | [] => Some []
  | [p] => Some [mkfld p [] 0]
  | p :: e :: r =>
      match parse_field p e with
      | Some f => match parse_parts r with Some fs => Some (f :: fs) | None => None end
      | None => None
      end
  end.
Definition parse (s : bytes) : option (list field) := parse_parts (split c_pct s).

(* entries of a record; a path starts at the node *)
Inductive fent := FRef (path : list (N * bytes)) | FImm (a : N) (v : bytes) | FNone.
(* attribute lookup by name: id and type *)
Definition fdb := bytes -> option (N * N).
(* Entry::count != 0, Entry.cpp:14-28 *)
Definition has_attr (id : N) (e : fent) : bool :=
  match e with FRef p => existsb (fun n => fst n =? id) p | FImm a _ => a =? id | FNone => false end.
(* the loop from the node to the root, SnapshotTextFormatter.cpp:128-131, UserFormatter.cpp:127-130 *)
Fixpoint ref_text (id : N) (p : list (N * bytes)) (str : bytes) : bytes :=
  match p with
  | [] => str
  | (a, v) :: r => ref_text id r (if a =? id then v ++ (match str with [] => [] | _ => [c_sl] end) ++ str else str)
  end.
Definition is_num (ty : N) : bool := (ty =? T_DOUBLE) || (ty =? T_INT) || (ty =? T_UINT) || (ty =? T_ADDR).
Definition spaces (w : Z) : bytes := repeat c_sp (Z.to_nat w).
(* SnapshotTextFormatter: a field with the attribute that has been looked up; s_pend: the name is still set *)
Record sfield := mksf { s_fld : field; s_pend : bool; s_attr : option (N * N); s_right : bool }.
Definition sf_init (f : field) : sfield := mksf f (match f_name f with [] => false | _ => true end) None false.
(* lookup, SnapshotTextFormatter.cpp:103-116 *)
Definition lookup (db : fdb) (f : sfield) : sfield :=
  if s_pend f then let a := db (f_name (s_fld f)) in mksf (s_fld f) false a (match a with Some (_, ty) => is_num ty | None => false end) else f.
(* text of the value, 118-135 *)
Definition find_text (id : N) (rec : list fent) : bytes :=
  match find (has_attr id) rec with Some (FRef p) => ref_text id p [] | Some (FImm _ v) => v | _ => [] end.
(* a field, 137-148 *)
Definition print_field (f : sfield) (rec : list fent) : bytes :=
  let str := match s_attr f with Some (id, _) => find_text id rec | None => [] end in
  let len := Z.of_nat (length str) in
  let w := (if len <? f_width (s_fld f) then Z.min (f_width (s_fld f) - len) 80 else 0)%Z in
  if s_right f then f_pre (s_fld f) ++ spaces w ++ str else f_pre (s_fld f) ++ str ++ spaces w.
(* print, 89-158: the text and the fields afterwards *)
Definition sprint (fs : list sfield) (db : fdb) (rec : list fent) : bytes * list sfield :=
  let fs1 := map (lookup db) fs in (concat (map (fun f => print_field f rec) fs1), fs1).
(* a sequence of prints *)
Fixpoint sprints (fs : list sfield) (l : list (fdb * list fent)) : list bytes :=
  match l with [] => [] | (db, rec) :: r => let (t, fs1) := sprint fs db rec in t :: sprints fs1 r end.

(* OutputStream::set_filename, OutputStream.cpp:211-236 *)
Inductive target := ToStdout | ToStderr | ToFile (name : bytes).
Definition c_stdout : bytes := [115;116;100;111;117;116].
Definition c_stderr : bytes := [115;116;100;101;114;114].
Definition set_filename (fmt : bytes) (db : fdb) (rec : list fent) : option target :=
  if beqb fmt c_stdout then Some ToStdout
  else if beqb fmt c_stderr then Some ToStderr
  else match parse fmt with Some fs => Some (ToFile (fst (sprint (map sf_init fs) db rec))) | None => None end.

(* UserFormatter::print, UserFormatter.cpp:107-155; the width is a size_t *)
Definition W64Z : Z := 18446744073709551616%Z.
Definition ent_text (id : N) (e : fent) : bytes :=
  match e with FRef p => ref_text id p [] | FImm a v => if a =? id then v else [] | FNone => [] end.
Fixpoint first_text (id : N) (rec : list fent) : bytes :=
  match rec with [] => [] | e :: r => match ent_text id e with [] => first_text id r | s => s end end.
Definition uprint_field (db : fdb) (rec : list fent) (f : field) : bytes :=
  let str := match db (f_name f) with Some (id, _) => first_text id rec | None => [] end in
  let len := Z.of_nat (length str) in
  let width := (f_width f mod W64Z)%Z in
  let w := (if len <? width then Z.min (width - len) 80 else 0)%Z in
  f_pre f ++ str ++ spaces w.
Definition uprint (fs : list field) (db : fdb) (rec : list fent) : bytes := concat (map (uprint_field db rec) fs) ++ [c_nl].
(* title, then one line for each record, 157-177 *)
Definition uoutput (fmt : bytes) (title : option bytes) (db : fdb) (recs : list (list fent)) : option bytes :=
  match parse fmt with
  | Some fs => Some ((match title with Some t => t ++ [c_nl] | None => [] end) ++ concat (map (uprint fs db) recs))
  | None => None
  end.
