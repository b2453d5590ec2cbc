(* Model of src/reader/CalQLParser.cpp (the CalQL query parser) and of the query printer in
   src/reader/QuerySpec.cpp, on the stream model and word reader of ParseModel.

   Simplifications: error messages and positions are not modelled, only the error flag; std::map members
   (aliases, units, kwargs) are the list of the assignments made to them, the last one for a key is its value;
   use_path of the selections other than SELECT and GROUP BY is never set by the code and left out;
   FunctionSignature::args beyond max_args are not represented; the call of parse_clause_from_word at the end
   of parse_select, parse_sort and parse_let, after which these return, is a loop (clause_chain) on the keyword
   they have read.  Loops are bounded by the number of characters left, since each round reads one. *)
From Coq Require Import Strings.Ascii Strings.String.
From Verif Require Import Base TextModel ParseModel RConfigModel FilterModel.
Open Scope N_scope.

(* QuerySpec::FunctionSignature, include/caliper/reader/QuerySpec.h:41-47 *)
Record fsig := mkf { f_id : N; f_name : bytes; f_min : nat; f_max : nat; f_args : list bytes }.
Definition kernel_args : list bytes := [bs "attribute"].
Definition sratio_args : list bytes := [bs "numerator"; bs "denominator"; bs "scale"].
Definition scale_args : list bytes := [bs "attribute"; bs "scale"].
(* Aggregator.cpp:852-898, aggregation_defs() *)
Definition agg_defs : list fsig :=
  [mkf 0 (bs "count") 0 0 []; mkf 1 (bs "sum") 1 1 kernel_args; mkf 2 (bs "ratio") 2 3 sratio_args;
   mkf 3 (bs "percent_total") 1 1 kernel_args; mkf 4 (bs "inclusive_sum") 1 1 kernel_args; mkf 5 (bs "min") 1 1 kernel_args;
   mkf 6 (bs "max") 1 1 kernel_args; mkf 7 (bs "avg") 1 1 kernel_args; mkf 8 (bs "scale") 2 2 scale_args;
   mkf 9 (bs "inclusive_scale") 2 2 scale_args; mkf 10 (bs "inclusive_percent_total") 1 1 kernel_args;
   mkf 11 (bs "any") 1 1 kernel_args; mkf 12 (bs "scale_count") 1 1 [bs "scale"]; mkf 13 (bs "inclusive_ratio") 2 3 sratio_args;
   mkf 14 (bs "inclusive_min") 1 1 kernel_args; mkf 15 (bs "inclusive_max") 1 1 kernel_args; mkf 16 (bs "variance") 1 1 kernel_args].
(* FormatProcessor.cpp:23-38, formatter_defs() *)
Definition format_defs : list fsig :=
  [mkf 0 (bs "cali") 0 0 []; mkf 1 (bs "json") 0 6 [bs "object"; bs "pretty"; bs "quote-all"; bs "separate-nested"; bs "records"; bs "split"];
   mkf 2 (bs "expand") 0 0 []; mkf 3 (bs "format") 1 2 [bs "format"; bs "title"];
   mkf 4 (bs "table") 0 2 [bs "column-width"; bs "print-globals"];
   mkf 5 (bs "tree") 0 3 [bs "path-attributes"; bs "column-width"; bs "print-globals"]; mkf 6 (bs "json-split") 0 0 []].
(* Preprocessor.cpp:334-348, preprocess_defs() *)
Definition first_args : list bytes := map bs ["attribute0"; "attribute1"; "attribute2"; "attribute3"; "attribute4"; "attribute5"; "attribute6"; "attribute7"]%string.
Definition let_defs : list fsig :=
  [mkf 0 (bs "ratio") 2 3 sratio_args; mkf 1 (bs "scale") 2 2 scale_args; mkf 2 (bs "truncate") 1 2 scale_args;
   mkf 3 (bs "first") 1 8 first_args; mkf 4 (bs "sum") 1 8 first_args; mkf 5 (bs "leaf") 0 1 [bs "attribute"]].

(* QuerySpec.h:25-39, 51-60: an operator and its arguments *)
Inductive selopt := SelDefault | SelNone | SelAll | SelList.
Record fop := mko { o_sig : fsig; o_args : list bytes }.
(* PreprocessSpec, QuerySpec.h:98-102; cond.op is None without IF *)
Record pspec := mkp { p_target : bytes; p_op : fop; p_cond : cond }.
Definition no_cond : cond := mkcond ONone [] [].
(* QuerySpec.h:23-140 *)
Record query := mkqy {
  q_asel : selopt; q_agg : list fop;
  q_gsel : selopt; q_grp : list bytes; q_gpath : bool;
  q_ssel : selopt; q_sel : list bytes; q_spath : bool;
  q_fsel : selopt; q_flt : list cond;
  q_osel : selopt; q_ord : list (bytes * bool);          (* true: ascending *)
  q_fmt : option (fsig * list (bytes * bytes));          (* None: FormatSpec::Default *)
  q_alias : list (bytes * bytes); q_unit : list (bytes * bytes);
  q_pre : list pspec }.
(* CalQLParserImpl(), CalQLParser.cpp:676-684 *)
Definition query0 : query := mkqy SelNone [] SelDefault [] false SelDefault [] false SelNone [] SelNone [] None [] [] [].
(* field updates *)
Definition add_agg (q : query) (o : fop) : query :=
  mkqy SelList (q_agg q ++ [o]) (q_gsel q) (q_grp q) (q_gpath q) (q_ssel q) (q_sel q) (q_spath q) (q_fsel q) (q_flt q) (q_osel q) (q_ord q) (q_fmt q) (q_alias q) (q_unit q) (q_pre q).
Definition add_group (q : query) (w : bytes) : query :=
  mkqy (q_asel q) (q_agg q) SelList (q_grp q ++ [w]) (q_gpath q) (q_ssel q) (q_sel q) (q_spath q) (q_fsel q) (q_flt q) (q_osel q) (q_ord q) (q_fmt q) (q_alias q) (q_unit q) (q_pre q).
Definition set_select (q : query) (o : selopt) (l : list bytes) : query :=
  mkqy (q_asel q) (q_agg q) (q_gsel q) (q_grp q) (q_gpath q) o l (q_spath q) (q_fsel q) (q_flt q) (q_osel q) (q_ord q) (q_fmt q) (q_alias q) (q_unit q) (q_pre q).
Definition add_filter (q : query) (c : cond) : query :=
  mkqy (q_asel q) (q_agg q) (q_gsel q) (q_grp q) (q_gpath q) (q_ssel q) (q_sel q) (q_spath q) SelList (q_flt q ++ [c]) (q_osel q) (q_ord q) (q_fmt q) (q_alias q) (q_unit q) (q_pre q).
Definition add_order (q : query) (w : bytes) (asc : bool) : query :=
  mkqy (q_asel q) (q_agg q) (q_gsel q) (q_grp q) (q_gpath q) (q_ssel q) (q_sel q) (q_spath q) (q_fsel q) (q_flt q) SelList (q_ord q ++ [(w, asc)]) (q_fmt q) (q_alias q) (q_unit q) (q_pre q).
Definition set_format (q : query) (f : fsig) (kw : list (bytes * bytes)) : query :=
  mkqy (q_asel q) (q_agg q) (q_gsel q) (q_grp q) (q_gpath q) (q_ssel q) (q_sel q) (q_spath q) (q_fsel q) (q_flt q) (q_osel q) (q_ord q) (Some (f, kw)) (q_alias q) (q_unit q) (q_pre q).
Definition add_alias (q : query) (a w : bytes) : query :=
  mkqy (q_asel q) (q_agg q) (q_gsel q) (q_grp q) (q_gpath q) (q_ssel q) (q_sel q) (q_spath q) (q_fsel q) (q_flt q) (q_osel q) (q_ord q) (q_fmt q) (q_alias q ++ [(a, w)]) (q_unit q) (q_pre q).
Definition add_unit (q : query) (a w : bytes) : query :=
  mkqy (q_asel q) (q_agg q) (q_gsel q) (q_grp q) (q_gpath q) (q_ssel q) (q_sel q) (q_spath q) (q_fsel q) (q_flt q) (q_osel q) (q_ord q) (q_fmt q) (q_alias q) (q_unit q ++ [(a, w)]) (q_pre q).
Definition add_pre (q : query) (p : pspec) : query :=
  mkqy (q_asel q) (q_agg q) (q_gsel q) (q_grp q) (q_gpath q) (q_ssel q) (q_sel q) (q_spath q) (q_fsel q) (q_flt q) (q_osel q) (q_ord q) (q_fmt q) (q_alias q) (q_unit q) (q_pre q ++ [p]).
Definition set_paths (q : query) (gl : list bytes) (gp : bool) (sl : list bytes) (sp : bool) : query :=
  mkqy (q_asel q) (q_agg q) (q_gsel q) gl gp (q_ssel q) sl sp (q_fsel q) (q_flt q) (q_osel q) (q_ord q) (q_fmt q) (q_alias q) (q_unit q) (q_pre q).

Definition beq (a b : bytes) : bool := if list_eq_dec N.eq_dec a b then true else false.
Definition lower (w : bytes) : bytes := map tolower w.
(* the separator strings ",;=<>()\n", ",;()\n", ",;=()\n" *)
Definition wseps : bytes := [44; 59; 61; 60; 62; 40; 41; 10].
Definition aseps : bytes := [44; 59; 40; 41; 10].
Definition useps : bytes := [44; 59; 61; 40; 41; 10].
(* the character read, as tested by if (c): 0 is the NUL byte *)
Definition back (c : N) (s : stream) : stream := if c =? 0 then s else s_unget s.

(* get_definition_id, lines 21-35; also the loops in lines 220-223 and 529-532, where the name may be empty
   (no table contains an empty name) *)
Definition get_def (w : bytes) (defs : list fsig) : option fsig := find (fun d => beq (lower w) (f_name d)) defs.
(* get_keyval, lines 37-50: read_word's default separator is a comma *)
Definition get_keyval (str : bytes) : bytes * bytes :=
  let (first, s1) := read_word [61] (s_open str) in
  let (c, s2) := read_char s1 in
  if c =? 61 then (first, fst (read_word [44] s2)) else ([], first).
(* is_in_arglist, lines 52-58 *)
Definition in_arglist (w : bytes) (d : fsig) : bool := existsb (beq w) (firstn (f_max d) (f_args d)).
(* extract_path_keyword, lines 60-78 *)
Fixpoint erase_first (w : bytes) (l : list bytes) : bool * list bytes :=
  match l with
  | [] => (false, [])
  | x :: r => if beq x w then (true, r) else let (b, r') := erase_first w r in (b, x :: r')
  end.
Definition extract_path (l : list bytes) : bool * list bytes :=
  let (b1, l1) := erase_first (bs "path") l in
  let (b2, l2) := erase_first (bs "prop:nested") l1 in (b1 || b2, l2).

(* parse_arglist, lines 117-148: the arguments, whether an error was set, the stream *)
Fixpoint arg_loop (fuel : nat) (s : stream) (ret : list bytes) : list bytes * bool * stream :=
  match fuel with
  | O => ([], true, s)
  | S f =>
      let (str, s1) := read_word aseps s in
      let (c, s2) := read_char s1 in
      let ret1 := match str with [] => ret | _ => if (c =? 44) || (c =? 41) then str :: ret else ret end in
      if s_good s2 && (c =? 44) then arg_loop f s2 ret1
      else if c =? 41 then (rev ret1, false, s2) else ([], true, s_unget s2)
  end.
Definition parse_arglist (s : stream) : list bytes * bool * stream :=
  let (c, s1) := read_char s in
  if negb (s_good s1) then ([], false, s1)
  else if c =? 40 then arg_loop (S (length (s_rest s1))) s1 []
  else ([], false, s_unget s1).
(* make_kwargs, lines 150-179: the assignments and whether an error was set *)
Fixpoint kwargs_loop (d : fsig) (names : list bytes) (args : list bytes) (ret : list (bytes * bytes)) : list (bytes * bytes) * bool :=
  match names, args with
  | n :: ns, a :: r =>
      let (k, v) := get_keyval a in
      match k with
      | [] => kwargs_loop d ns r (ret ++ [if in_arglist v d then (v, bs "true") else (n, v)])
      | _ => if in_arglist k d then kwargs_loop d ns r (ret ++ [(k, v)]) else ([], true)
      end
  | _, _ => (ret, false)
  end.
Definition make_kwargs (d : fsig) (args : list bytes) : list (bytes * bytes) * bool := kwargs_loop d (firstn (f_max d) (f_args d)) args [].
(* Aggregator::get_aggregation_attribute_name, Aggregator.cpp:1183-1226 *)
Definition arg (l : list bytes) (n : nat) : bytes := nth n l [].
Definition agg_column (o : fop) : bytes :=
  let a := arg (o_args o) 0 in
  let b := arg (o_args o) 1 in
  match f_id (o_sig o) with
  | 0 => bs "count" | 1 => bs "sum#" ++ a | 2 => bs "ratio#" ++ a ++ bs "/" ++ b | 3 => bs "percent_total#" ++ a
  | 4 => bs "inclusive#" ++ a | 5 => bs "min#" ++ a | 6 => bs "max#" ++ a | 7 => bs "avg#" ++ a | 8 => bs "scale#" ++ a
  | 9 => bs "iscale#" ++ a | 10 => bs "ipercent_total#" ++ a | 11 => bs "any#" ++ a | 12 => bs "scount"
  | 13 => bs "iratio#" ++ a ++ bs "/" ++ b | 14 => bs "imin#" ++ a | 15 => bs "imax#" ++ a | 16 => bs "variance#" ++ a
  | _ => []
  end.
Definition argc_ok (d : fsig) (args : list bytes) : bool := negb ((length args <? f_min d)%nat || (f_max d <? length args)%nat).

(* the parser state: spec and error *)
Record pst := mkst { st_q : query; st_err : bool }.
Definition fail (t : pst) : pst := mkst (st_q t) true.
Definition upd (t : pst) (q : query) : pst := mkst q (st_err t).
Definition err_if (b : bool) (t : pst) : pst := if b then fail t else t.

(* parse_aggregate, lines 181-211 *)
Fixpoint aggregate_loop (fuel : nat) (t : pst) (s : stream) : pst * stream :=
  match fuel with
  | O => (fail t, s)
  | S f =>
      let (w, s1) := read_word wseps s in
      let '(args, e, s2) := parse_arglist s1 in
      let t1 := err_if e t in
      let t2 := match (match w with [] => None | _ => get_def w agg_defs end) with
                | Some d => if argc_ok d args then upd t1 (add_agg (st_q t1) (mko d args)) else fail t1
                | None => fail t1
                end in
      let (c, s3) := read_char s2 in
      if negb (st_err t2) && s_good s3 && (c =? 44) then aggregate_loop f t2 s3 else (t2, back c s3)
  end.
(* parse_format, lines 213-242 *)
Definition parse_format (t : pst) (s : stream) : pst * stream :=
  let (w, s1) := read_word wseps s in
  match get_def w format_defs with
  | None => (fail t, s1)
  | Some d =>
      let '(args, e, s2) := parse_arglist s1 in
      let t1 := err_if e t in
      if argc_ok d args then
        let (kw, e2) := make_kwargs d args in
        (err_if e2 (upd t1 (set_format (st_q t1) d kw)), s2)
      else (fail t1, s2)
  end.
(* parse_groupby, lines 244-262 *)
Fixpoint groupby_loop (fuel : nat) (t : pst) (s : stream) : pst * stream :=
  match fuel with
  | O => (fail t, s)
  | S f =>
      let (w, s1) := read_word wseps s in
      let t1 := match w with [] => t | _ => upd t (add_group (st_q t) w) end in
      let (c, s2) := read_char s1 in
      if negb (st_err t1) && s_good s2 && (c =? 44) then groupby_loop f t1 s2 else (t1, back c s2)
  end.
(* parse_select: the selection itself, lines 274-327; the name that AS and UNIT refer to *)
Definition select_item (t : pst) (s : stream) : pst * bytes * stream :=
  let (c, s1) := read_char s in
  if c =? 42 then (upd t (set_select (st_q t) SelAll (q_sel (st_q t))), [], s1)
  else
    let (w, s2) := read_word wseps (s_unget s1) in
    let (c2, s3) := read_char s2 in
    let s4 := s_unget s3 in
    if c2 =? 40 then
      match (match w with [] => None | _ => get_def w agg_defs end) with
      | Some d =>
          let '(args, e, s5) := parse_arglist s4 in
          let t1 := err_if e t in
          if argc_ok d args then
            let o := mko d args in
            let q1 := add_agg (st_q t1) o in
            let q2 := match q_ssel q1 with SelAll => q1 | _ => set_select q1 SelList (q_sel q1 ++ [agg_column o]) end in
            (upd t1 q2, agg_column o, s5)
          else (fail t1, [], s5)
      | None => (fail t, [], s4)
      end
    else
      match w with
      | [] => (fail t, [], s4)
      | _ => (upd t (set_select (st_q t) SelList (q_sel (st_q t) ++ [w])), w, s4)
      end.
(* the alias and the unit, lines 331-364: the state, the keyword read next, the stream *)
Definition select_as (t : pst) (name kw : bytes) (s : stream) : pst * bytes * stream :=
  if negb (st_err t) && beq kw (bs "as") then
    let (w, s1) := read_word wseps s in
    let t1 := match w with [] => fail t | _ => upd t (add_alias (st_q t) name w) end in
    let (k, s2) := read_word wseps s1 in (t1, lower k, s2)
  else (t, kw, s).
Definition select_unit (t : pst) (name kw : bytes) (s : stream) : pst * bytes * stream :=
  if negb (st_err t) && beq kw (bs "unit") then
    let (w, s1) := read_word useps s in
    let t1 := match w with [] => fail t | _ => upd t (add_unit (st_q t) name w) end in
    let (k, s2) := read_word wseps s1 in (t1, lower k, s2)
  else (t, kw, s).
(* parse_select, lines 264-380; the result has the keyword for parse_clause_from_word, [] if none *)
Fixpoint select_loop (fuel : nat) (t : pst) (s : stream) : pst * bytes * stream :=
  match fuel with
  | O => (fail t, [], s)
  | S f =>
      let '(t1, name, s1) := select_item t s in
      let (k, s2) := read_word wseps s1 in
      let '(t2, k2, s3) := select_as t1 name (lower k) s2 in
      let '(t3, k3, s4) := select_unit t2 name k2 s3 in
      match (if st_err t3 then [] else k3) with
      | [] =>
          let (c, s5) := read_char s4 in
          if negb (st_err t3) && s_good s5 && (c =? 44) then select_loop f t3 s5 else (t3, k3, back c s5)
      | _ => (t3, k3, s4)
      end
  end.
(* parse_sort, lines 382-425 *)
Fixpoint sort_loop (fuel : nat) (t : pst) (s : stream) : pst * bytes * stream :=
  match fuel with
  | O => (fail t, [], s)
  | S f =>
      let (w, s1) := read_word wseps s in
      match w with
      | [] => (fail t, [], s1)
      | _ =>
          let (k, s2) := read_word wseps s1 in
          let kl := lower k in
          let t1 := upd t (add_order (st_q t) w (negb (beq kl (bs "desc")))) in
          let kl1 := if beq kl (bs "asc") || beq kl (bs "desc") then [] else kl in
          match kl1 with
          | [] =>
              let (c, s3) := read_char s2 in
              if negb (st_err t1) && s_good s3 && (c =? 44) then sort_loop f t1 s3 else (t1, [], back c s3)
          | _ => (t1, kl1, s2)
          end
      end
  end.
(* parse_filter_clause, lines 427-491: the condition, whether an error was set *)
Definition parse_cond (s : stream) : cond * bool * stream :=
  let (w0, s0) := read_word wseps s in
  let neg := beq (lower w0) (bs "not") in
  let (w, s1) := if neg then read_word wseps s0 else (w0, s0) in
  match w with
  | [] => (mkcond ONone w [], true, s1)
  | _ =>
      let (c, s2) := read_char s1 in
      let cmp (op nop : cop) :=
        let (v, s3) := read_word wseps s2 in
        match v with [] => (mkcond ONone w [], true, s3) | _ => (mkcond (if neg then nop else op) w v, false, s3) end in
      if c =? 61 then cmp OEqual ONotEqual
      else if c =? 60 then cmp OLess OGreaterEq
      else if c =? 62 then cmp OGreater OLessEq
      else (mkcond (if neg then ONotExist else OExist) w [], false, s_unget s2)
  end.
(* parse_where, lines 493-510 *)
Fixpoint where_loop (fuel : nat) (t : pst) (s : stream) : pst * stream :=
  match fuel with
  | O => (fail t, s)
  | S f =>
      let '(cd, e, s1) := parse_cond s in
      let t0 := err_if e t in
      let t1 := if negb (st_err t0) && negb (match c_op cd with ONone => true | _ => false end) then upd t0 (add_filter (st_q t0) cd) else t0 in
      let (c, s2) := read_char s1 in
      if negb (st_err t1) && s_good s2 && (c =? 44) then where_loop f t1 s2 else (t1, back c s2)
  end.
(* parse_let, lines 512-588 *)
Fixpoint let_loop (fuel : nat) (t : pst) (s : stream) : pst * bytes * stream :=
  match fuel with
  | O => (fail t, [], s)
  | S f =>
      let (target, s1) := read_word wseps s in
      let (c, s2) := read_char s1 in
      if negb (c =? 61) then (fail t, [], s2)
      else
        let (opname, s3) := read_word wseps s2 in
        match get_def opname let_defs with
        | None => (fail t, [], s3)
        | Some d =>
            let '(args, e, s4) := parse_arglist s3 in
            let t1 := err_if e t in
            if argc_ok d args && existsb (fun p => beq (p_target p) target) (q_pre (st_q t1)) then (fail t1, [], s4)
            else
              let t2 := err_if (negb (argc_ok d args)) t1 in
              let (k, s5) := read_word wseps s4 in
              let kl := lower k in
              let '(cd, e2, s6, kl2) := if beq kl (bs "if") then (let '(cd, e2, s6) := parse_cond s5 in (cd, e2, s6, [])) else (no_cond, false, s5, kl) in
              let t3 := err_if e2 t2 in
              let t4 := if st_err t3 then t3 else upd t3 (add_pre (st_q t3) (mkp target (mko d args) cd)) in
              match (if st_err t4 then [] else kl2) with
              | [] =>
                  let (c2, s7) := read_char s6 in
                  if negb (st_err t4) && s_good s7 && (c2 =? 44) then let_loop f t4 s7 else (t4, kl2, back c2 s7)
              | _ => (t4, kl2, s6)
              end
        end
  end.

(* get_clause_from_word, lines 88-108, and parse_clause, lines 590-618 *)
Inductive clausekw := KAggregate | KFormat | KGroup | KSelect | KSort | KWhere | KLet.
Definition keywords : list (bytes * clausekw) :=
  [(bs "aggregate", KAggregate); (bs "format", KFormat); (bs "group", KGroup); (bs "select", KSelect); (bs "order", KSort); (bs "where", KWhere); (bs "let", KLet)].
Definition get_clause (w : bytes) : option clausekw := option_map snd (find (fun x => beq (lower w) (fst x)) keywords).
Definition parse_clause (k : clausekw) (t : pst) (s : stream) : pst * bytes * stream :=
  let n := S (length (s_rest s)) in
  let plain (r : pst * stream) := (fst r, [], snd r) in
  match k with
  | KAggregate => plain (aggregate_loop n t s)
  | KFormat => plain (parse_format t s)
  | KGroup => plain (groupby_loop n t s)
  | KSelect => select_loop n t s
  | KSort => sort_loop n t s
  | KWhere => plain (where_loop n t s)
  | KLet => let_loop n t s
  end.
(* parse_clause_from_word, lines 620-642 *)
Definition clause_word (w : bytes) (t : pst) (s : stream) : pst * bytes * stream :=
  match get_clause w with
  | None => (fail t, [], s)
  | Some k =>
      match k with
      | KGroup | KSort =>
          let (w2, s1) := read_word wseps s in
          if beq (lower w2) (bs "by") then parse_clause k t s1 else (fail t, [], s1)
      | _ => parse_clause k t s
      end
  end.
(* with the call at the end of parse_select, parse_sort and parse_let *)
Fixpoint clause_chain (fuel : nat) (w : bytes) (t : pst) (s : stream) : pst * stream :=
  match fuel with
  | O => (fail t, s)
  | S f =>
      let '(t1, k, s1) := clause_word w t s in
      match (if st_err t1 then [] else k) with [] => (t1, s1) | _ => clause_chain f k t1 s1 end
  end.
(* parse, lines 644-674 *)
Fixpoint parse_loop (fuel : nat) (t : pst) (s : stream) : pst * stream :=
  match fuel with
  | O => (fail t, s)
  | S f =>
      if negb (st_err t) && s_good s then
        let (w, s1) := read_word wseps s in
        match w with
        | [] => (t, s1)
        | _ => let (t1, s2) := clause_chain (S (length (s_rest s1))) w t s1 in parse_loop f t1 s2
        end
      else (t, s)
  end.
Definition calql (text : bytes) : query * bool :=
  let (t, s) := parse_loop (S (length text)) (mkst query0 false) (s_open text) in
  let t1 :=
    if negb (st_err t) && s_good s then
      let (c, s1) := read_char s in
      if s_good s1 && negb (c =? 0) && negb (c =? 10) then fail t else t
    else t in
  let q := st_q t1 in
  let (sp, sl) := extract_path (q_sel q) in
  let (gp, gl) := extract_path (q_grp q) in
  (set_paths q gl gp sl sp, st_err t1).
