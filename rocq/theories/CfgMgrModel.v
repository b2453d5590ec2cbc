(* Model of ConfigManager, src/caliper/ConfigManager.cpp: reading option and config specs (OptionSpec::parse_spec,
   443-495, ConfigManagerImpl::add_config_spec, 907-991), config strings (1015-1266) and the public functions.

   Simplifications: as in CfgModel.  A channel is represented by what its creation function gets: name, initial
   configuration and options.  check_args functions of built-in configs, the built-in specs, the available services
   and the files are parameters.  The list of available services does not change.  Texts contain no NUL bytes (some are passed as C strings). *)
From Coq Require Import Strings.Ascii Strings.String.
From Verif Require Import Base TextModel ParseModel RConfigModel JsonModel CfgModel.
Open Scope N_scope.

(* parse_select, 355-391 *)
Definition select_text (t : bytes) : bytes :=
  let (d, is_dict) := rec_dict t in
  if is_dict then
    (match lookup d (bs "expr") with Some x => x | None => [] end) ++
    (match lookup d (bs "as") with Some x => bs " as """ ++ x ++ bs """" | None => [] end) ++
    (match lookup d (bs "unit") with Some x => bs " unit """ ++ x ++ bs """" | None => [] end)
  else t.
Definition parse_select (l : list bytes) : bytes :=
  match fold_left (fun ret t => (match ret with [] => [] | _ => ret ++ [44] end) ++ select_text t) l [] with [] => [] | r => bs " select " ++ r end.
(* parse_query_args, 395-435: the levels' queries and whether "level" was missing *)
Definition query_text (d : list (bytes * bytes)) : bytes :=
  flat_map (fun k => match lookup d (bs k) with Some v => bs " " ++ bs k ++ bs " " ++ join_list (fst (rec_list v)) | None => [] end) ["group by"; "let"; "where"; "aggregate"; "order by"]%string ++
  (match lookup d (bs "select") with Some v => parse_select (fst (rec_list v)) | None => [] end).
Definition parse_query_args (l : list bytes) : list (bytes * bytes) * bool :=
  fold_left (fun r t => let d := fst (rec_dict t) in match lookup d (bs "level") with Some lv => ((lv, query_text d) :: fst r, snd r) | None => (fst r, true) end) l ([], false).
(* parse_spec, 443-495: None = error.  ok is threaded through the list and dictionary readers; the fields read
   after an error do not matter *)
Definition parse_spec (d : list (bytes * bytes)) : option (bytes * opt) :=
  let lst k := match lookup d (bs k) with Some v => rec_list v | None => ([], true) end in
  let str k := match lookup d (bs k) with Some v => v | None => [] end in
  let (services, ok1) := lst "services"%string in
  let (inherit, ok2) := lst "inherit"%string in
  let (config, ok3) := match lookup d (bs "config") with Some v => rec_dict v | None => ([], true) end in
  let (query, ok4) := match lookup d (bs "query") with
    | Some v => let (q, is_dict) := rec_dict v in
                if is_dict then (q, true) else let (l, ok) := rec_list v in let (qs, e) := parse_query_args l in (qs, ok && negb e)
    | None => ([], true) end in
  match lookup d (bs "name") with
  | None => None
  | Some name => if ok1 && ok2 && ok3 && ok4 then Some (name, mkopt (str "type"%string) (str "category"%string) services inherit query config) else None
  end.
(* OptionSpec::add(list), 541-555: the options and whether there was an error; later specs replace earlier ones *)
Fixpoint add_specs (l : list bytes) (s : ospec) : ospec * bool :=
  match l with
  | [] => (s, false)
  | t :: r => match parse_spec (fst (rec_dict t)) with Some p => add_specs r (p :: s) | None => (s, true) end
  end.

(* config_spec_t, 858-868; cs_check: check_args(opts) returns an error *)
Record cspec := mkcs { cs_name : bytes; cs_cats : list bytes; cs_cfg : cmap; cs_opts : ospec; cs_defaults : arglist; cs_check : options -> bool }.
Record chan := mkch { ch_spec : cspec; ch_opts : options }.
(* ConfigManagerImpl, 843-871 *)
Record mgr := mkm { m_spec : list (bytes * cspec); m_gopts : ospec; m_gerr : bool; m_sdefs : list (bytes * arglist); m_defs : arglist; m_extra : list (bytes * bytes); m_err : bool; m_chans : list chan }.
Definition set_err (m : mgr) : mgr := mkm (m_spec m) (m_gopts m) (m_gerr m) (m_sdefs m) (m_defs m) (m_extra m) true (m_chans m).
Definition set_spec (m : mgr) (s : list (bytes * cspec)) : mgr := mkm s (m_gopts m) (m_gerr m) (m_sdefs m) (m_defs m) (m_extra m) (m_err m) (m_chans m).
Definition set_gopts (m : mgr) (s : ospec) (e : bool) : mgr := mkm (m_spec m) s e (m_sdefs m) (m_defs m) (m_extra m) (m_err m) (m_chans m).
Definition add_default (m : mgr) (p : bytes * bytes) : mgr := mkm (m_spec m) (m_gopts m) (m_gerr m) (m_sdefs m) (m_defs m ++ [p]) (m_extra m) (m_err m) (m_chans m).
Definition add_extra (m : mgr) (p : bytes * bytes) : mgr := mkm (m_spec m) (m_gopts m) (m_gerr m) (m_sdefs m) (m_defs m) (p :: m_extra m) (m_err m) (m_chans m).
Definition add_chans (m : mgr) (l : list chan) : mgr := mkm (m_spec m) (m_gopts m) (m_gerr m) (m_sdefs m) (m_defs m) (m_extra m) (m_err m) (m_chans m ++ l).
Definition emplace (s : list (bytes * cspec)) (k : bytes) (v : cspec) : list (bytes * cspec) := match lookup s k with Some _ => s | None => s ++ [(k, v)] end.

Section MGR.
Variable files : bytes -> option bytes.
Variable avail : list bytes.
Variable builtins : list (bytes * (options -> bool)).
Variable depth : nat.

(* add_config_spec, 907-991 *)
Definition add_config_spec (json : bytes) (check : options -> bool) (ignore_existing : bool) (m : mgr) : mgr :=
  let (d, ok) := rec_dict json in
  if negb ok then set_err m
  else
    match lookup d (bs "name") with
    | None => set_err m
    | Some name =>
        match lookup (m_spec m) name with
        | Some _ => if ignore_existing then m else set_err m
        | None =>
            let rd k := if m_err m then None else lookup d (bs k) in
            let lst k := match rd k with Some v => rec_list v | None => ([], true) end in
            let dct k := match rd k with Some v => rec_dict v | None => ([], true) end in
            let (srv, ok1) := lst "services"%string in
            if negb (forallb (fun s => mem s avail) srv) then m
            else
              let (cats, ok2) := lst "categories"%string in
              let (optl, ok3) := lst "options"%string in
              let (cfg, ok4) := dct "config"%string in
              let (dfl, ok5) := dct "defaults"%string in
              let (als, ok6) := lst "alias"%string in
              let cfg1 := match srv with [] => cfg | _ => (services_key, (match lookup cfg services_key with Some v => v | None => [] end) ++ join_list srv) :: cfg end in
              let opts := fst (add_specs optl []) in
              let m1 := if ok1 && ok2 && ok3 && ok4 && ok5 && ok6 then m else set_err m in
              if m_err m1 then m1
              else let cs := mkcs name cats cfg1 opts dfl check in set_spec m1 (fold_left (fun s a => emplace s a cs) als (emplace (m_spec m1) name cs))
        end
    end.
(* add_global_option_specs, 993-1002 *)
Definition add_global_list (l : list bytes) (ok : bool) (m : mgr) : mgr :=
  let (s, e) := if m_gerr m then (m_gopts m, true) else add_specs l (m_gopts m) in
  let m1 := set_gopts m s e in
  if e || negb ok then set_err m1 else m1.
Definition add_global_options (json : bytes) (m : mgr) : mgr := let (l, ok) := rec_list json in add_global_list l ok m.
(* import_builtin_config_specs, 1004-1010 *)
Definition import_builtin (m : mgr) : mgr := fold_left (fun m b => add_config_spec (fst b) (snd b) true m) builtins m.

(* read_value, 1015-1034: the value, whether there was an error, the stream *)
Definition cseps : bytes := [44; 61; 40; 41; 10].
Definition read_value (s : stream) : bytes * bool * stream :=
  let (c, s1) := read_char s in
  if c =? 61 then let (v, s2) := read_word cseps s1 in (v, match v with [] => true | _ => false end, s2)
  else if c =? 40 then
    let (v, s2) := read_nested_text 40 41 s1 in
    let (c2, s3) := read_char s2 in (v, negb (c2 =? 41), s3)
  else ([], false, s_unget s1).
Definition or_true (v : bytes) : bytes := match v with [] => bs "true" | _ => v end.
(* parse_arglist, 1036-1082: the arguments, whether there was an error, the stream; err: m_error at the start *)
Fixpoint args_loop (fuel : nat) (err : bool) (opts : ospec) (s : stream) (args : arglist) : arglist * bool * stream :=
  match fuel with
  | O => ([], true, s)
  | S f =>
      let (key, s1) := read_word cseps s in
      let next args s :=
        let (c, s2) := read_char s in
        if s_good s2 && (c =? 44) then args_loop f err opts s2 args
        else if c =? 41 then (args, err, s2) else ([], true, s2) in
      match key with
      | [] => next args s1
      | _ =>
          if negb (match lookup opts key with Some _ => true | None => false end) && negb (keq key (bs "metadata")) then ([], true, s1)
          else
            let '(v, e, s2) := read_value s1 in
            if e || err then ([], true, s2) else next (args ++ [(key, or_true v)]) s2
      end
  end.
Definition parse_args (err : bool) (opts : ospec) (s : stream) : arglist * bool * stream :=
  let (c, s1) := read_char s in
  if negb (s_good s1) then ([], err, s1)
  else if negb (c =? 40) then ([], err, s_unget s1)
  else args_loop (S (length (s_rest s1))) err opts s1 [].
(* is_option, 1085-1095 *)
Definition known (s : ospec) (k : bytes) : bool := match lookup s k with Some _ => true | None => false end.
Definition is_option (m : mgr) (k : bytes) : bool := known (m_gopts m) k || existsb (fun p => known (cs_opts (snd p)) k) (m_spec m).

(* parse_json_content, 1097-1151, and load_file, 1154-1165 *)
Fixpoint add_configs (l : list bytes) (m : mgr) : mgr :=
  match l with [] => m | t :: r => let m1 := add_config_spec t (fun _ => false) false m in if m_err m1 then m1 else add_configs r m1 end.
Definition parse_json (json : bytes) (m : mgr) : mgr :=
  let (d, ok) := rec_dict json in
  if ok then
    match lookup d (bs "name") with
    | Some _ => add_config_spec json (fun _ => false) false m
    | None =>
        let m1 := match lookup d (bs "options") with Some v => let (l, ok) := rec_list v in add_global_list l ok m | None => m end in
        match lookup d (bs "configs") with
        | Some v => let (l, ok) := rec_list v in if ok then add_configs l m1 else set_err m1
        | None => m1
        end
    end
  else let (l, ok) := rec_list json in if ok then add_configs l m else set_err m.
Definition load_file (name : bytes) (m : mgr) : mgr := match files name with Some t => parse_json t m | None => set_err m end.
(* handle_load_command, 1167-1194; the stream is not used after an error *)
Fixpoint load_loop (fuel : nat) (m : mgr) (s : stream) : mgr * stream :=
  match fuel with
  | O => (set_err m, s)
  | S f =>
      let (name, s1) := read_word [44; 40; 41] s in
      let m1 := match name with [] => set_err m | _ => load_file name m end in
      if m_err m1 then (m1, s1)
      else
        let (c, s2) := read_char s1 in
        if s_good s2 && (c =? 44) then load_loop f m1 s2
        else ((if c =? 41 then m1 else set_err m1), s2)
  end.
Definition handle_load (m : mgr) (s : stream) : mgr * stream :=
  let (c, s1) := read_char s in
  if c =? 40 then load_loop (S (length (s_rest s1))) m s1 else (set_err m, s1).

(* parse_configstring, 1198-1266: the state, the configs found with their arguments.  One round of the loop gives
   the state, the configs and the stream; it ends the function if there is an error *)
Definition options_for (m : mgr) (cs : cspec) : ospec := add_opts (cs_opts cs) (m_gopts m) (cs_cats cs).
Definition item (m : mgr) (s : stream) (ret : list (cspec * arglist)) : mgr * list (cspec * arglist) * stream :=
  let (key, s1) := read_word cseps s in
  if keq key (bs "load") then let (m1, s2) := handle_load m s1 in (m1, ret, s2)
  else
    match lookup (m_spec m) key with
    | Some cs =>
        let '(args, e, s2) := parse_args (m_err m) (options_for m cs) s1 in
        if e then (set_err m, ret, s2) else (m, ret ++ [(cs, args)], s2)
    | None =>
        let '(v, e, s2) := read_value s1 in
        if e || m_err m then (set_err m, ret, s2)
        else if keq key (bs "metadata") then (add_default m (key, v), ret, s2)
        else if is_option m key then (add_default m (key, or_true v), ret, s2)
        else (add_extra m (key, v), ret, s2)
    end.
Fixpoint items_loop (fuel : nat) (m : mgr) (s : stream) (ret : list (cspec * arglist)) : mgr * list (cspec * arglist) :=
  match fuel with
  | O => (set_err m, ret)
  | S f =>
      let '(m1, ret1, s1) := item m s ret in
      if m_err m1 then (m1, ret1)
      else
        let (c, s2) := read_char s1 in
        if s_good s2 && (c =? 44) then items_loop f m1 s2 ret1
        else if s_good s2 then (set_err m1, ret1) else (m1, ret1)
  end.
Definition parse_configstring (text : bytes) (m0 : mgr) : mgr * list (cspec * arglist) :=
  let m := import_builtin m0 in
  let (c, s1) := read_char (s_open text) in
  if s_good s1 then items_loop (S (length text)) m (s_unget s1) [] else (m, []).

(* add_default_parameters, 1268-1279 *)
Definition with_defaults (m : mgr) (cs : cspec) (args : arglist) : arglist :=
  let a1 := match lookup (m_sdefs m) (cs_name cs) with Some l => merge_new args l | None => args end in
  merge_new (merge_new a1 (m_defs m)) (cs_defaults cs).
Definition config_options (m : mgr) (p : cspec * arglist) : option options := make_options depth (options_for m (fst p)) (with_defaults m (fst p) (snd p)).
(* parse, 1288-1313; None: stack overflow *)
Fixpoint make_chans (m : mgr) (l : list (cspec * arglist)) : option (mgr * list chan) :=
  match l with
  | [] => Some (m, [])
  | p :: r =>
      match config_options m p with
      | None => None
      | Some o =>
          if opts_check avail o || cs_check (fst p) o then Some (set_err m, [])
          else match make_chans m r with
               | None => None
               | Some (m1, l1) => Some (m1, if m_err m1 then [] else mkch (fst p) o :: l1)
               end
      end
  end.
Definition parse (text : bytes) (m : mgr) : option (mgr * list chan) :=
  let (m1, configs) := parse_configstring text m in
  if m_err m1 then Some (m1, []) else make_chans m1 configs.
(* ConfigManagerImpl::add, 1315-1320 *)
Definition impl_add (text : bytes) (m : mgr) : option mgr := match parse text m with Some (m1, l) => Some (add_chans m1 l) | None => None end.
(* ConfigManager::add(config_str), 1455-1463, and add(config_str, extra), 1465-1472: the new state and the result *)
Definition add (text : bytes) (m : mgr) : option (mgr * bool) :=
  match impl_add text m with
  | Some m1 => let m2 := match m_extra m1 with [] => m1 | _ => set_err m1 end in Some (m2, negb (m_err m2))
  | None => None
  end.
Definition add_extra_ok (text : bytes) (m : mgr) : option (mgr * bool) :=
  match impl_add text m with Some m1 => Some (m1, negb (m_err m1)) | None => None end.
(* check, 1526-1548: true = an error message *)
Fixpoint check_loop (m : mgr) (l : list (cspec * arglist)) : option mgr :=
  match l with
  | [] => Some m
  | p :: r =>
      match config_options m p with
      | None => None
      | Some o =>
          let m1 := if cs_check (fst p) o || opts_check avail o then set_err m else m in
          if m_err m1 then Some m1 else check_loop m1 r
      end
  end.
Definition check (text : bytes) (allow_extra : bool) (m : mgr) : option bool :=
  let (m1, configs) := parse_configstring text m in
  match check_loop m1 configs with
  | Some m2 => Some (m_err m2 || (negb allow_extra && match m_extra m2 with [] => false | _ => true end))
  | None => None
  end.
(* set_default_parameter and set_default_parameter_for_config, 1484-1492 *)
Definition set_default_parameter (k v : bytes) (m : mgr) : mgr := add_default m (k, v).
Definition set_default_for_config (c k v : bytes) (m : mgr) : mgr :=
  mkm (m_spec m) (m_gopts m) (m_gerr m) ((c, (match lookup (m_sdefs m) c with Some l => l | None => [] end) ++ [(k, v)]) :: m_sdefs m) (m_defs m) (m_extra m) (m_err m) (m_chans m).
(* get_all_channels, get_channel, 1494-1506 *)
Definition get_channel (name : bytes) (m : mgr) : option chan := find (fun c => keq (cs_name (ch_spec c)) name) (m_chans m).
(* ConfigManager::ConfigManager(), 1364-1414 *)
Definition new_mgr (option_specs : list bytes) : mgr := fold_left (fun m t => add_global_options t m) option_specs (mkm [] [] false [] [] [] false []).
End MGR.
