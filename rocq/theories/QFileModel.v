(* Model of a query over .cali files: CaliReader::read (src/reader/CaliReader.cpp:143-273) with
   QueryProcessor::process_record as the snapshot processor (src/reader/QueryProcessor.cpp:15-62), and the file loop
   of cali-query (src/tools/cali-query/cali-query.cpp, "Process files", "Flush outputs").

   Simplifications: LET operators are not part of it (C35 is about them); the output of a query is the list of
   records handed to the formatter together with the database; a record with an empty entry (a reference to an id the
   file never defined) is outside of the model (None); globals as in CaliFileModel. *)
From Verif Require Import Base VariantModel VariantSpec NamesModel TextModel TreeModel CaliFileModel AggModel FilterModel.
Open Scope N_scope.

Fixpoint whole (rec : list (option entry)) : option (list entry) :=
  match rec with
  | [] => Some []
  | Some e :: r => option_map (cons e) (whole r)
  | None :: _ => None
  end.

Section Query.
Variable dparse : bytes -> option N.
Variable parse : N -> bytes -> value.
Variable conds : list cond.
(* what becomes of the records that pass: aggregator.add or formatter.process_record; X: its state *)
Variable X : Type.
Variable push : mdb * X -> list entry -> mdb * X.

(* QueryProcessorImpl::process_record, lines 24-33 *)
Definition process_record (st : mdb * X) (rec : list entry) : mdb * X :=
  if pass parse (fst st) conds rec then push st rec else st.
(* the state while a file is read *)
Record qstate := mkqs { qs_db : mdb; qs_map : idmap; qs_err : bool; qs_x : X }.
(* CaliReader::read_record: read_node, read_snapshot with snap_proc(db, rec) *)
Definition query_line (s : qstate) (line : bytes) : option qstate :=
  match read_line dparse (mkrs (qs_db s) (qs_map s) [] (qs_err s)) line with
  | None => None
  | Some s1 =>
      match r_recs s1 with
      | [] => Some (mkqs (r_db s1) (r_map s1) (r_err s1) (qs_x s))
      | r :: _ =>
          match whole r with
          | None => None
          | Some rec => let (d, x) := process_record (r_db s1, qs_x s) rec in Some (mkqs d (r_map s1) (r_err s1) x)
          end
      end
  end.
Fixpoint query_lines (s : qstate) (ls : list bytes) : option qstate :=
  match ls with [] => Some s | l :: r => match query_line s l with Some s1 => query_lines s1 r | None => None end end.
(* CaliReader::read: a fresh id map for every file, one database *)
Fixpoint query_files (d : mdb) (x : X) (e : bool) (texts : list bytes) : option (mdb * X * bool) :=
  match texts with
  | [] => Some (d, x, e)
  | t :: r => match query_lines (mkqs d [] e x) (split_lines t []) with
              | Some s => query_files (qs_db s) (qs_x s) (qs_err s) r
              | None => None
              end
  end.
End Query.
Arguments mkqs {X}. Arguments qs_db {X}. Arguments qs_map {X}. Arguments qs_err {X}. Arguments qs_x {X}.
Arguments process_record parse conds {X}. Arguments query_line dparse parse conds {X}. Arguments query_lines dparse parse conds {X}. Arguments query_files dparse parse conds {X}.

(* a query with aggregation: do_aggregate, Aggregator.cpp *)
Definition aggregate_files (dparse : bytes -> option N) (parse : N -> bytes -> value) (conds : list cond) (q : qspec) (texts : list bytes) : option (mdb * agg * bool) :=
  query_files dparse parse conds (process q) db_init (agg_init (q_ker q)) false texts.
(* a query without: the records go to the formatter *)
Definition list_record (st : mdb * list (list entry)) (rec : list entry) : mdb * list (list entry) := (fst st, snd st ++ [rec]).
Definition list_files (dparse : bytes -> option N) (parse : N -> bytes -> value) (conds : list cond) (texts : list bytes) : option (mdb * list (list entry) * bool) :=
  query_files dparse parse conds list_record db_init [] false texts.
