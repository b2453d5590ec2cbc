(* Model of src/reader/CaliWriter.cpp used by several threads at once (cali-query --threads with a
   .cali output: FormatProcessor.cpp:38-53 calls CaliWriter::write_snapshot from every reader
   thread).

   Each thread executes the statements of write_entrylist and recursive_write_node one critical
   section at a time; between two critical sections the other threads may do anything, and the
   metadata database may grow (CaliperMetadataDB::merge_node in other threads).

   Simplifications: the call stack of a thread is a list of statements that remain to be executed;
   node->attribute(), node->parent()->id() and node->data() never change after a node exists, so
   they are read together with db.node(id); the two pushes to ref_entries / imm_entries (thread
   local vectors) are folded into the record written at the end, in the order of the entries; the
   output stream does not fail. *)
From Verif Require Import Base VariantModel VariantSpec NamesModel TextModel TreeModel CaliFileModel.

Inductive stmt :=
| SNode (id : N)                             (* call recursive_write_node(db, id), CaliWriter.cpp:85 *)
| SLook (id : N)                             (* behind the check of m_written_nodes, line 97 *)
| SEmit (n : tnode)                          (* write_node_content under m_os_lock, lines 109-116 *)
| SMark (id : N)                             (* m_written_nodes.insert(id), lines 118-122 *)
| SRec (globals : bool) (rec : list entry).  (* write_record_content under m_os_lock, lines 148-157 *)

(* CaliWriterImpl (lines 73-83), the database, and what each thread still has to do.  Every line
   of the output carries the number of the thread that wrote it; the number is not part of the file. *)
Record cw := mkcw { cw_db : N -> option tnode; cw_written : list N; cw_out : list (N * wline); cw_todo : N -> list stmt }.
Definition cw_start (db : N -> option tnode) : cw := mkcw db [] [] (fun _ => []).
Definition set_todo (s : cw) (t : N) (l : list stmt) : cw := mkcw (cw_db s) (cw_written s) (cw_out s) (upd (cw_todo s) t l).

(* the statements of write_entrylist, lines 127-158: the nodes of all entries in order, then the record *)
Definition call_stmts (globals : bool) (rec : list entry) : list stmt := map (fun e => SNode (entry_node e)) rec ++ [SRec globals rec].
(* lines 102-107: first the attribute, then the parent unless there is none or it is the root *)
Definition node_stmts (id : N) (n : tnode) : list stmt :=
  SNode (n_attr n) ::
  match n_par n with Some p => if p =? INV_ID then [] else [SNode p] | None => [] end ++
  [SEmit n; SMark id].

(* thread t executes its next statement *)
Definition cw_exec (s : cw) (t : N) : option cw :=
  match cw_todo s t with
  | [] => None
  | SNode id :: r =>
      if id <? 11 then Some (set_todo s t r)                                 (* lines 87-88 *)
      else if mem id (cw_written s) then Some (set_todo s t r)               (* lines 90-95 *)
      else Some (set_todo s t (SLook id :: r))
  | SLook id :: r =>
      match cw_db s id with                                                  (* lines 97-100 *)
      | None => Some (set_todo s t r)
      | Some n => Some (set_todo s t (node_stmts id n ++ r))
      end
  | SEmit n :: r => Some (mkcw (cw_db s) (cw_written s) (cw_out s ++ [(t, WNode n)]) (upd (cw_todo s) t r))
  | SMark id :: r => Some (mkcw (cw_db s) (id :: cw_written s) (cw_out s) (upd (cw_todo s) t r))
  | SRec g rec :: r => Some (mkcw (cw_db s) (cw_written s) (cw_out s ++ [(t, WRec g (refs_of rec) (imms_of rec))]) (upd (cw_todo s) t r))
  end.

(* what can happen: a thread that is idle calls write_snapshot / write_globals (lines 170-178), a
   thread executes one statement, the database grows *)
Inductive cact := ACall (t : N) (globals : bool) (rec : list entry) | AExec (t : N) | AGrow (db : N -> option tnode).
Definition cw_act (s : cw) (a : cact) : option cw :=
  match a with
  | ACall t g rec => match cw_todo s t with [] => Some (set_todo s t (call_stmts g rec)) | _ => None end
  | AExec t => cw_exec s t
  | AGrow db => Some (mkcw db (cw_written s) (cw_out s) (cw_todo s))
  end.
Fixpoint cw_run (s : cw) (l : list cact) : option cw :=
  match l with [] => Some s | a :: r => match cw_act s a with Some s1 => cw_run s1 r | None => None end end.
(* CaliWriter::num_written, lines 164-167 *)
Definition num_written (s : cw) : nat := length (cw_out s).
(* the file *)
Definition cw_lines (s : cw) : list wline := map snd (cw_out s).
