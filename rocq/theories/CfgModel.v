(* Model of ConfigManager's options, src/caliper/ConfigManager.cpp: OptionSpec (330-586), Options (592-837) and the
   helper functions at the top of the file.

   Simplifications: error messages are not modelled, only whether there is one; std::map members are association
   lists, a new assignment is put in front (lookup finds the first); the JSON readers are those of ParseModel.
   Option descriptions are left out.  The recursion over inherited options is bounded by a stack depth; None
   stands for the overflow of the stack. *)
From Coq Require Import Strings.Ascii Strings.String.
From Verif Require Import Base TextModel ParseModel RConfigModel JsonModel.
Open Scope N_scope.

Definition keq (a b : bytes) : bool := if list_eq_dec N.eq_dec a b then true else false.
Fixpoint lookup {A} (m : list (bytes * A)) (k : bytes) : option A :=
  match m with [] => None | (k', v) :: r => if keq k k' then Some v else lookup r k end.
Definition mem (x : bytes) (l : list bytes) : bool := existsb (keq x) l.
Definition arglist := list (bytes * bytes).

(* merge_new_elements, 101-117 *)
Definition merge1 (to : arglist) (p : bytes * bytes) : arglist :=
  match lookup to (fst p) with
  | Some _ => if keq (fst p) (bs "metadata") then to ++ [p] else to
  | None => to ++ [p]
  end.
Definition merge_new (to from : arglist) : arglist := fold_left merge1 from to.
(* join_stringlist, 130-142 and 144-156 *)
Fixpoint join_list (l : list bytes) : bytes := match l with [] => [] | [x] => x | x :: r => x ++ [44] ++ join_list r end.
(* expand_variables, 158-183: the characters of in, left to right *)
Fixpoint expand (s val : bytes) : bytes :=
  match s with
  | [] => []
  | c :: r =>
      if c =? 123 then
        match r with
        | [] => [123]
        | d :: r' => if d =? 125 then val ++ expand r' val else 123 :: d :: expand r' val
        end
      else c :: expand r val
  end.
(* parse_keyval_list, 185-208, without the final unget (the stream is not used afterwards) *)
Fixpoint keyval_loop (fuel : nat) (s : stream) (ret : arglist) : arglist :=
  match fuel with
  | O => ret
  | S f =>
      let (key, s1) := read_word [61] s in
      match key with
      | [] => ret
      | _ =>
          let (c, s2) := read_char s1 in
          if negb (c =? 61) then ret
          else
            let (val, s3) := read_word [44; 40; 41] s2 in
            let ret1 := match val with [] => ret | _ => ret ++ [(key, val)] end in
            let (c2, s4) := read_char s3 in
            if s_good s4 && (c2 =? 44) then keyval_loop f s4 ret1 else ret1
      end
  end.
Definition parse_keyval_list (t : bytes) : arglist := keyval_loop (S (length t)) (s_open t) [].

(* the std::map of a dictionary text, with its keys in order; ok flag *)
Definition rec_dict (t : bytes) : list (bytes * bytes) * bool := let (l, ok) := rec_dict_assign t in (kmap (rev l), ok).
(* add_metadata_entries, 239-256; fuel: the nesting depth of the text is less than its length *)
Fixpoint add_entries (fuel : nat) (key val : bytes) (info : list (bytes * bytes)) : list (bytes * bytes) :=
  match fuel with
  | O => info
  | S f =>
      let (d, is_dict) := rec_dict val in
      if is_dict then fold_left (fun i p => add_entries f (key ++ [46] ++ fst p) (snd p) i) d info
      else (key, val) :: info
  end.
(* find_key_in_json, 210-237 *)
Fixpoint find_path (path : list bytes) (d : list (bytes * bytes)) : option bytes :=
  match path with
  | [] => None
  | k :: r => match lookup d k with None => None | Some v => match r with [] => Some v | _ => find_path r (fst (rec_dict v)) end end
  end.

Section FILES.
Variable files : bytes -> option bytes.  (* the content of a file; None: cannot be opened or read *)
(* read_metadata_from_json_file, 258-298 *)
Definition read_json_metadata (file keys : bytes) (info : list (bytes * bytes)) : list (bytes * bytes) :=
  match files file with
  | None => info
  | Some str =>
      let (top, ok) := rec_dict str in
      if ok then
        let keylist := match to_stringlist [44] keys with [] => map fst top | l => l end in
        fold_left (fun i k => match find_path (to_stringlist [46] k) top with Some v => add_entries (S (length v)) k v i | None => i end) keylist info
      else info
  end.
(* add_metadata, 300-322 *)
Definition add_metadata (args : bytes) (info : list (bytes * bytes)) : list (bytes * bytes) :=
  let l := parse_keyval_list args in
  match lookup l (bs "file") with
  | Some file => read_json_metadata file (match lookup l (bs "keys") with Some k => k | None => [] end) info
  | None => fold_left (fun i p => p :: i) l info
  end.
End FILES.

(* option_spec_t, 332-342, and OptionSpec::data *)
Record opt := mkopt { op_type : bytes; op_cat : bytes; op_services : list bytes; op_inherit : list bytes; op_query : list (bytes * bytes); op_config : list (bytes * bytes) }.
Definition ospec := list (bytes * opt).
(* OptionSpec::add(other, categories), 528-533: options that exist are kept; an entry of the list other
   that is hidden by an earlier one is not in the map *)
Definition add_opts (s other : ospec) (cats : list bytes) : ospec :=
  s ++ filter (fun p => match lookup other (fst p) with Some o => mem (op_cat o) cats | None => false end) other.

(* get_inherited_specs, 716-731 *)
Fixpoint inherited (depth : nat) (s : ospec) (name : bytes) : option (list bytes) :=
  match depth with
  | O => None
  | S f =>
      match lookup s name with
      | None => Some []
      | Some o =>
          fold_left (fun ret inh => match ret, inherited f s inh with Some l, Some t => Some (l ++ t ++ [inh]) | _, _ => None end) (op_inherit o) (Some [])
      end
  end.
(* find_enabled_options, 733-766 *)
Definition arg_on (s : ospec) (p : bytes * bytes) : bool :=
  match lookup s (fst p) with
  | None => false
  | Some o => if keq (op_type o) (bs "bool") then match to_bool_str (snd p) with Some b => b | None => false end else true
  end.
Definition dedup (l : list bytes) : list bytes := fold_left (fun ret x => if mem x ret then ret else ret ++ [x]) l [].
Definition enabled_all (depth : nat) (s : ospec) (args : arglist) : option (list bytes) :=
  fold_left (fun ret p =>
    match ret with
    | None => None
    | Some l => if arg_on s p then match inherited depth s (fst p) with Some t => Some (l ++ fst p :: t) | None => None end else Some l
    end) args (Some []).
Definition find_enabled (depth : nat) (s : ospec) (args : arglist) : option (list bytes) := option_map dedup (enabled_all depth s args).

(* OptionsImpl, 589-766: the object after construction *)
Record options := mkopts { o_spec : ospec; o_args : arglist; o_on : list bytes }.
Definition make_options (depth : nat) (s : ospec) (args : arglist) : option options :=
  match find_enabled depth s args with Some l => Some (mkopts s args l) | None => None end.
(* is_set, is_enabled, get, enabled_options, 779-824 *)
Definition is_set (o : options) (k : bytes) : bool := match lookup (o_args o) k with Some _ => true | None => false end.
Definition is_enabled (o : options) (k : bytes) : bool := mem k (o_on o).
Definition get (o : options) (k dflt : bytes) : bytes := match lookup (o_args o) k with Some v => v | None => dflt end.
Definition enabled_bool (o : options) : list bytes :=
  filter (fun k => match lookup (o_spec o) k with Some x => keq (op_type x) (bs "bool") | None => false end) (o_on o).
(* check, 595-634; avail: services::get_available_services(); true: error *)
Definition bad_value (s : ospec) (p : bytes * bytes) : bool :=
  match lookup s (fst p) with
  | Some o => keq (op_type o) (bs "bool") && (match to_bool_str (snd p) with Some _ => false | None => true end)
  | None => false
  end.
Definition opts_check (avail : list bytes) (o : options) : bool :=
  existsb (bad_value (o_spec o)) (o_args o) ||
  existsb (fun k => match lookup (o_spec o) k with Some x => existsb (fun r => negb (mem r avail)) (op_services x) | None => false end) (o_on o).
(* services, 636-654: std::sort and std::unique *)
Fixpoint sins (x : bytes) (l : list bytes) : list bytes := match l with [] => [x] | y :: r => if bltb y x then y :: sins x r else x :: l end.
Definition ssorted (l : list bytes) : list bytes := fold_right sins [] l.
Fixpoint uniq (l : list bytes) : list bytes :=
  match l with [] => [] | x :: r => match r with [] => [x] | y :: _ => if keq x y then uniq r else x :: uniq r end end.
Definition opt_services (o : options) (k : bytes) : list bytes := match lookup (o_spec o) k with Some x => op_services x | None => [] end.
Definition services (o : options) (given : bytes) : bytes := join_list (uniq (ssorted (to_stringlist [44] given ++ flat_map (opt_services o) (o_on o)))).
(* append_config, 656-672 *)
Definition cmap := list (bytes * bytes).
Definition append_config (o : options) (c : cmap) : cmap :=
  fold_left (fun c k =>
    match lookup (o_spec o) k with
    | None => c
    | Some x => fold_left (fun c kv => (fst kv, match lookup (o_args o) k with Some v => expand (snd kv) v | None => snd kv end) :: c) (kmap (op_config x)) c
    end) (o_on o) c.
(* update_channel_config, 674-678 *)
Definition services_key : bytes := bs "CALI_SERVICES_ENABLE".
Definition update_config (o : options) (c : cmap) : cmap :=
  append_config o ((services_key, services o (match lookup c services_key with Some v => v | None => [] end)) :: c).
(* update_channel_metadata, 680-691 *)
Definition update_metadata (files : bytes -> option bytes) (o : options) (info : cmap) : cmap :=
  fold_left (fun i p => if keq (fst p) (bs "metadata") then add_metadata files (snd p) i else (bs "opts:" ++ fst p, snd p) :: i) (o_args o) info.
(* build_query, 693-714 *)
Definition build_query (o : options) (level text : bytes) : bytes :=
  fold_left (fun ret k =>
    match lookup (o_spec o) k with
    | None => ret
    | Some x =>
        match lookup (op_query x) level with
        | None => ret
        | Some q => ret ++ [32] ++ expand q (match lookup (o_args o) k with Some v => v | None => [] end)
        end
    end) (o_on o) text.
(* BasicController, 54-74: the configuration of the channel *)
Definition basic_config (o : options) (c : cmap) : cmap :=
  let c1 := if is_set o (bs "output")
            then (bs "CALI_MPIREPORT_FILENAME", get o (bs "output") []) :: (bs "CALI_REPORT_FILENAME", get o (bs "output") []) :: (bs "CALI_RECORDER_FILENAME", get o (bs "output") []) :: c
            else c in
  update_config o c1.
