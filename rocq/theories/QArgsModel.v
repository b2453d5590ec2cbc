(* Model of QueryArgsParser::parse_args, src/tools/cali-query/query_common.cpp:36-97, 212-360 (the query of a
   cali-query or mpi-caliquery command line), and of RecordSelector::parse, src/reader/RecordSelector.cpp:24-82,
   272-289.
   Simplified: messages are not modelled; std::map members as in QueryModel; query texts have no NUL byte
   (CalQLParser takes a C string). *)
From Coq Require Import Strings.Ascii Strings.String.
From Verif Require Import Base TextModel ParseModel RConfigModel FilterModel FmtStrModel QueryModel.
Open Scope N_scope.

(* str.find_first_of("<>=", spos) as a split of the text *)
Definition is_cmp (c : N) : bool := (c =? 60) || (c =? 62) || (c =? 61).
Fixpoint cut_cmp (s : bytes) : bytes * option (N * bytes) :=
  match s with
  | [] => ([], None)
  | c :: r => if is_cmp c then ([], Some (c, r)) else let (a, b) := cut_cmp r in (c :: a, b)
  end.
(* parse_clause, RecordSelector.cpp:24-82 *)
Definition parse_clause (str : bytes) : cond :=
  match str with
  | [] => mkcond ONone [] []
  | c0 :: r0 =>
      let neg := c0 =? 45 in
      let (name, rest) := cut_cmp (if neg then r0 else str) in
      let '(op, value) :=
        match rest with
        | Some (c, ((_ :: _) as v)) =>                (* opos < str.size() - 1 *)
            (if c =? 61 then (if neg then ONotEqual else OEqual) else (if neg then ONotExist else OExist), v)
        | _ => (if neg then ONotExist else OExist, [])
        end in
      let bad := match name, rest with [], _ => true | _, Some (_, []) => true | _, _ => false end in
      mkcond (if bad then ONone else op) name value
  end.
Definition cop_none (o : cop) : bool := match o with ONone => true | _ => false end.
(* RecordSelector::parse, 272-289 *)
Definition parse_selectors (s : bytes) : list cond := filter (fun c => negb (cop_none (c_op c))) (map parse_clause (split 44 s)).

(* parse_arglist, query_common.cpp:36-63 *)
Definition qseps : bytes := [44; 40; 41].
Fixpoint qarg_loop (fuel : nat) (s : stream) (ret : list bytes) : list bytes * stream :=
  match fuel with
  | O => ([], s)
  | S f =>
      let (str, s1) := read_word qseps s in
      let (c, s2) := read_char s1 in
      let ret1 := match str with [] => ret | _ => if (c =? 44) || (c =? 41) then str :: ret else ret end in
      if s_good s2 && (c =? 44) then qarg_loop f s2 ret1
      else if c =? 41 then (rev ret1, s2) else ([], s_unget s2)
  end.
Definition qarglist (s : stream) : list bytes * stream :=
  let (c, s1) := read_char s in
  if negb (s_good s1) then ([], s1)
  else if c =? 40 then qarg_loop (S (length (s_rest s1))) s1 []
  else ([], s_unget s1).
(* parse_functioncall, 65-97 *)
Definition qcall (s : stream) : option fop * stream :=
  let (w, s1) := read_word qseps s in
  match w with
  | [] => (None, s1)
  | _ =>
      match find (fun d => beq w (f_name d)) agg_defs with
      | None => (None, s1)
      | Some d => let (args, s2) := qarglist s1 in (if argc_ok d args then Some (mko d args) else None, s2)
      end
  end.
(* the loop in lines 285-293 *)
Fixpoint qcalls (fuel : nat) (s : stream) (l : list fop) : list fop :=
  match fuel with
  | O => l
  | S f =>
      let (o, s1) := qcall s in
      let l1 := match o with Some x => l ++ [x] | None => l end in
      let (c, s2) := read_char s1 in
      if s_good s2 && (c =? 44) then qcalls f s2 l1 else l1
  end.

(* field updates *)
Definition set_filter (q : query) (l : list cond) : query :=
  mkqy (q_asel q) (q_agg q) (q_gsel q) (q_grp q) (q_gpath q) (q_ssel q) (q_sel q) (q_spath q) SelList l (q_osel q) (q_ord q) (q_fmt q) (q_alias q) (q_unit q) (q_pre q).
Definition set_aggr (q : query) (o : selopt) (l : list fop) (go : selopt) : query :=
  mkqy o l go (q_grp q) (q_gpath q) (q_ssel q) (q_sel q) (q_spath q) (q_fsel q) (q_flt q) (q_osel q) (q_ord q) (q_fmt q) (q_alias q) (q_unit q) (q_pre q).
Definition set_key (q : query) (go : selopt) (gl : list bytes) (gp : bool) : query :=
  mkqy (q_asel q) (q_agg q) go gl gp (q_ssel q) (q_sel q) (q_spath q) (q_fsel q) (q_flt q) (q_osel q) (q_ord q) (q_fmt q) (q_alias q) (q_unit q) (q_pre q).
Definition set_order (q : query) (l : list (bytes * bool)) : query :=
  mkqy (q_asel q) (q_agg q) (q_gsel q) (q_grp q) (q_gpath q) (q_ssel q) (q_sel q) (q_spath q) (q_fsel q) (q_flt q) SelList l (q_fmt q) (q_alias q) (q_unit q) (q_pre q).

Section QArgs.
(* args.is_set(name) and args.get(name): None = not set *)
Variable o : bytes -> option bytes.

(* lines 258-261 *)
Definition step_select (q : query) : query := match o (bs "select") with Some s => set_filter q (parse_selectors s) | None => q end.
(* 265-268 *)
Definition step_attributes (q : query) : query :=
  match o (bs "attributes") with Some s => set_select q SelList (q_sel q ++ split 44 s) | None => q end.
(* 272-321: extract_path as lines 311-320 *)
Definition step_aggregate (q : query) : query :=
  match o (bs "aggregate") with
  | None => q
  | Some s =>
      let q1 := match s with
                | [] => set_aggr q SelDefault (q_agg q) SelDefault
                | _ => set_aggr q SelList (qcalls (S (length s)) (s_open s) (q_agg q)) SelDefault
                end in
      match o (bs "aggregate-key") with
      | None => q1
      | Some k =>
          let '(sel, l) := if beq k (bs "none") then (SelNone, q_grp q1) else (SelList, q_grp q1 ++ split 44 k) in
          let (p, l') := extract_path l in set_key q1 sel l' p
      end
  end.
(* 325-333 *)
Definition step_sort (q : query) : query :=
  match o (bs "sort") with Some s => set_order q (q_ord q ++ map (fun w => (w, true)) (split 44 s)) | None => q end.
(* 337-357: the kwargs of the query stay; false: too few arguments *)
Definition set_kw (d : fsig) (kw : list (bytes * bytes)) : list (bytes * bytes) :=
  kw ++ flat_map (fun a => match o a with Some v => [(a, v)] | None => [] end) (firstn (f_max d) (f_args d)).
Definition kw_size (kw : list (bytes * bytes)) : nat := length (nodup (list_eq_dec N.eq_dec) (map fst kw)).
Definition step_format (q : query) : query * bool :=
  match find (fun d => match o (f_name d) with Some _ => true | None => false end) format_defs with
  | None => (q, true)
  | Some d =>
      let kw := set_kw d (match q_fmt q with Some (_, kw) => kw | None => [] end) in
      (set_format q d kw, (f_min d <=? kw_size kw)%nat)
  end.
(* 258-360; None: error *)
Definition apply_options (q : query) : option query :=
  let (q1, ok) := step_format (step_sort (step_aggregate (step_attributes (step_select q)))) in
  if ok then Some q1 else None.

(* 214-222: the selections are set, the lists are empty, both use_path members are not initialized (gp, sp) *)
Definition no_query (gp sp : bool) : query := mkqy SelNone [] SelNone [] gp SelDefault [] sp SelDefault [] SelDefault [] None [] [] [].
(* 212-360; file: the contents of a file, None if it cannot be opened *)
Definition parse_query_args (gp sp : bool) (file : bytes -> option bytes) : option query :=
  match o (bs "query") with
  | Some t => let (q, e) := calql t in if e then None else apply_options q
  | None =>
      match o (bs "query-file") with
      | Some f => match file f with None => None | Some t => let (q, e) := calql t in if e then None else apply_options q end
      | None => apply_options (no_query gp sp)
      end
  end.
End QArgs.
