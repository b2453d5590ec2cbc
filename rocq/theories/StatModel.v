(* Model of cali-stat, src/tools/cali-stat/cali-stat.cpp: statistics of the node and snapshot records of .cali files.
   The reader (properties C27, C28) delivers a sequence of nodes and records; a record is a list of entries, and a
   reference stands for a path of (attribute id, data) nodes.  The counters are int: every update wraps (int
   overflow of the += of ints is undefined in C++; taken to wrap).  Not modelled: averages, the unit of sizes
   (format_size), alignment of columns, command line. *)
From Verif Require Import Base MsgTraceModel.
From Coq Require Import ZArith.
Open Scope Z_scope.

Definition text := list N.
(* a node record: attribute, data as a string, whether the attribute's type is string or usr, data size in bytes *)
Record snode := mksn { sn_attr : N; sn_text : text; sn_str : bool; sn_size : Z }.
(* an entry of a snapshot record: reference with its nodes from the node up to the last below the root, immediate
   value, empty *)
Inductive sentry := Ref (path : list (N * text)) | Imm | Empty.
Inductive sitem := NodeRec (n : snode) | SnapRec (es : list sentry).

(* cali-stat.cpp:117-137 CaliStreamStat::S *)
Record sstat := mkss { t_snaps : Z; t_nodes : Z; t_max : Z; t_min : Z; t_ref : Z; t_val : Z; t_tot : Z; t_attr : Z; t_snodes : Z; t_ssnaps : Z }.
Definition int_max : Z := 2147483647.
Definition stat0 : sstat := mkss 0 0 0 int_max 0 0 0 0 0 0.
(* cali-stat.cpp:192-200 process_node *)
Definition stat_node (s : sstat) (n : snode) : sstat :=
  mkss (t_snaps s) (i32 (t_nodes s + 1)) (t_max s) (t_min s) (t_ref s) (t_val s) (t_tot s) (t_attr s) (i32 (t_snodes s + (24 + if sn_str n then sn_size n else 8))) (t_ssnaps s).
(* cali-stat.cpp:202-233 process_rec: the loop over the entries counts imm, ref, ref_attr *)
Definition stat_entry (acc : Z * Z * Z) (e : sentry) : Z * Z * Z :=
  match acc, e with
  | (imm, ref, ra), Imm => (i32 (imm + 1), ref, ra)
  | (imm, ref, ra), Ref p => (imm, i32 (ref + 1), fold_left (fun ra _ => i32 (ra + 1)) p ra)
  | acc, Empty => acc
  end.
Definition stat_rec (s : sstat) (es : list sentry) : sstat :=
  match fold_left stat_entry es (0, 0, 0) with
  | (imm, ref, ra) =>
      mkss (i32 (t_snaps s + 1)) (t_nodes s) (Z.max (t_max s) (i32 (ref + i32 (2 * imm)))) (Z.min (t_min s) (i32 (ref + i32 (2 * imm))))
           (i32 (t_ref s + ref)) (i32 (t_val s + imm)) (i32 (t_tot s + i32 (ref + i32 (2 * imm)))) (i32 (t_attr s + i32 (ra + imm))) (t_snodes s) (i32 (t_ssnaps s + i32 (ref * 8)))
  end.

(* cali-stat.cpp:41-49 ReuseStat::S: by attribute, number of nodes and number of uses of each data text *)
Definition uses := list (text * Z).
Definition reuse := list (N * (Z * uses)).
Definition teq (a b : text) : bool := if list_eq_dec N.eq_dec a b then true else false.
(* ++data[text]: std::map inserts 0 for a new key (the order of keys is not kept here: it does not show) *)
Fixpoint incr (t : text) (u : uses) : uses := match u with [] => [(t, 1)] | (t', k) :: u => if teq t t' then (t', i32 (k + 1)) :: u else (t', k) :: incr t u end.
Fixpoint rfind (a : N) (r : reuse) : option (Z * uses) := match r with [] => None | (a', i) :: r => if N.eqb a a' then Some i else rfind a r end.
Fixpoint rupd (a : N) (f : Z * uses -> Z * uses) (r : reuse) : reuse := match r with [] => [] | (a', i) :: r => if N.eqb a a' then (a', f i) :: r else (a', i) :: rupd a f r end.
(* cali-stat.cpp:79-93 process_node *)
Definition reuse_node (r : reuse) (n : snode) : reuse :=
  match rfind (sn_attr n) r with
  | None => (sn_attr n, (1, [(sn_text n, 1)])) :: r
  | Some _ => rupd (sn_attr n) (fun i => (i32 (fst i + 1), incr (sn_text n) (snd i))) r
  end.
(* cali-stat.cpp:95-105 process_rec: the nodes of a path and the root, whose attribute is CALI_INV_ID *)
Definition inv_id : N := 18446744073709551615%N.
Definition reuse_use (r : reuse) (p : N * text) : reuse :=
  match rfind (fst p) r with None => r | Some _ => rupd (fst p) (fun i => (fst i, incr (snd p) (snd i))) r end.
Definition reuse_rec (r : reuse) (es : list sentry) : reuse :=
  fold_left (fun r e => match e with Ref p => fold_left reuse_use (p ++ [(inv_id, [])]) r | _ => r end) es r.

(* cali-stat.cpp:236-256 Processor (with option --reuse), over everything the readers deliver *)
Definition process (st : sstat * reuse) (i : sitem) : sstat * reuse :=
  match i with
  | NodeRec n => (stat_node (fst st) n, reuse_node (snd st) n)
  | SnapRec es => (stat_rec (fst st) es, reuse_rec (snd st) es)
  end.
Definition cali_stat (items : list sitem) : sstat * reuse := fold_left process items (stat0, []).
(* cali-stat.cpp:157-190 print_results: the integers, in the order they are printed *)
Record report := mkrep { r_total : Z; r_nodes : Z; r_snaps : Z; e_total : Z; e_nodes : Z; e_refs : Z; e_vals : Z; b_total : Z; b_nodes : Z; b_snaps : Z; m_min : Z; m_max : Z; a_total : Z }.
Definition results (s : sstat) : report :=
  mkrep (i32 (t_snaps s + t_nodes s)) (t_nodes s) (t_snaps s) (i32 (t_tot s + i32 (4 * t_nodes s))) (i32 (4 * t_nodes s)) (t_ref s) (i32 (2 * t_val s))
        (i32 (t_snodes s + t_ssnaps s)) (t_snodes s) (t_ssnaps s) (t_min s) (t_max s) (t_attr s).
(* cali-stat.cpp:55-76: for each attribute nodes, elements, uses (a sum of doubles, exact below 2^53) *)
Definition reuse_line (i : Z * uses) : Z * Z * Z := (fst i, Z.of_nat (length (snd i)), fold_left (fun s p => s + snd p) (snd i) 0).
