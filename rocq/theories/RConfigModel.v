(* Model of src/common/RuntimeConfig.cpp: configuration variables, profiles and config files.
   std::map is an association list in which the first pair of a key counts: m[k] = v puts a pair in front,
   copying all pairs of p into m by assignment is p ++ m and by map::insert (which keeps existing pairs) is
   m ++ p.  getenv and the files are a "world" that every operation gets; reading a file that cannot be
   opened gives None.  StringConverter is the text of a value.  Messages on std::cerr are not modelled. *)
From Coq Require Import Strings.Ascii Strings.String.
From Verif Require Import Base TextModel ParseModel.
Open Scope N_scope.

Definition bs (s : string) : bytes := map N_of_ascii (list_ascii_of_string s).
Definition assoc (A : Type) := list (bytes * A).
Definition beq (a b : bytes) : bool := if list_eq_dec N.eq_dec a b then true else false.
Definition lookup {A} (m : assoc A) (k : bytes) : option A :=
  match find (fun x => beq (fst x) k) m with Some x => Some (snd x) | None => None end.

(* ::toupper in the C locale *)
Definition toupper (c : N) : N := if (97 <=? c) && (c <=? 122) then c - 32 else c.
(* config_var_name, lines 63-71 *)
Definition config_var_name (name key : bytes) : bytes := map toupper (bs "CALI_" ++ name ++ bs "_" ++ key).

Definition profile := assoc bytes.                  (* config_profile_t *)
Definition dict := assoc bytes.                     (* ConfigSetImpl::m_dict *)
Record world := mkW { w_env : bytes -> option bytes; w_file : bytes -> option bytes }.

(* ConfigSetImpl::init, lines 96-126: the value of one variable *)
Definition entry_value (name : bytes) (e : bytes * bytes) (read_env : bool) (env : bytes -> option bytes) (prof top : profile) : bytes :=
  let varname := config_var_name name (fst e) in
  match lookup top varname with
  | Some v => v
  | None =>
      let value := match lookup prof varname with Some v => v | None => snd e end in
      if read_env then match env varname with Some v => v | None => value end else value
  end.
(* ... and the loop; m_dict.emplace keeps the first pair of a key *)
Definition dict_init (name : bytes) (l : list (bytes * bytes)) (read_env : bool) (env : bytes -> option bytes) (prof top : profile) : dict :=
  map (fun e => (fst e, entry_value name e read_env env prof top)) l.

(* std::getline over the whole text *)
Fixpoint getlines (cur : bytes) (t : bytes) : list bytes :=
  match t with
  | [] => match cur with [] => [] | _ => [rev cur] end
  | c :: r => if c =? 10 then rev cur :: getlines [] r else getlines (c :: cur) r
  end.
(* find_first_of(c) *)
Fixpoint find_char (c : N) (s : bytes) : option nat :=
  match s with [] => None | x :: r => if x =? c then Some O else option_map S (find_char c r) end.
Definition nameOf_header (line : bytes) : option bytes :=      (* lines 173-182: the profile name of a # line *)
  match find_char 91 line, find_char 93 line with
  | Some b, Some e => if (b + 1 <? e)%nat then Some (firstn (e - b - 1) (skipn (b + 1) line)) else None
  | _, _ => None
  end.
Record pstate := mkP { p_all : assoc profile; p_cur : profile; p_name : bytes }.
(* lines 188-193: NAME=VALUE *)
Definition assignment (line : bytes) (s : pstate) : pstate :=
  match find_char 61 line with
  | Some (S n) => mkP (p_all s) ((firstn (S n) line, fst (read_word [] (s_open (skipn (S (S n)) line)))) :: p_cur s) (p_name s)
  | _ => s
  end.
(* m_config_profiles[name].insert(...), line 178 *)
Definition flush (s : pstate) : assoc profile :=
  match p_cur s with
  | [] => p_all s
  | _ => (p_name s, match lookup (p_all s) (p_name s) with Some p => p ++ p_cur s | None => p_cur s end) :: p_all s
  end.
(* the body of the loop of read_config_profiles, lines 167-194 *)
Definition read_line (s : pstate) (line : bytes) : pstate :=
  match line with
  | [] => s
  | c :: _ =>
      if c =? 35 then
        match nameOf_header line with
        | Some n => assignment line (mkP (flush s) [] n)
        | None => s
        end
      else assignment line s
  end.
Definition n_default : bytes := bs "default".
(* read_config_profiles, lines 151-198; the last profile replaces an older one of this name *)
Definition read_profiles (text : bytes) (all : assoc profile) : assoc profile :=
  let s := fold_left read_line (getlines [] text) (mkP all [] n_default) in
  match p_cur s with [] => p_all s | _ => (p_name s, p_cur s) :: p_all s end.

Record config := mkC { c_env : bool; c_comb : profile; c_top : profile; c_db : assoc dict; c_prof : assoc profile }.
Definition new_config : config := mkC true [] [] [] [].

(* builtin_profiles, lines 24-61 *)
Definition builtin_profiles : bytes := bs "# [serial-trace]
CALI_SERVICES_ENABLE=event,recorder,timestamp,trace
CALI_TIMER_INCLUSIVE_DURATION=true
# [event-trace]
CALI_SERVICES_ENABLE=event,recorder,timestamp,trace
# [flat-function-profile]
CALI_SERVICES_ENABLE=aggregate,event,report,timestamp
CALI_TIMER_INCLUSIVE_DURATION=true
CALI_AGGREGATE_KEY=event.end#function
CALI_REPORT_CONFIG=""select event.end#function,sum#time.inclusive.duration where event.end#function format table order by time.inclusive.duration desc""
# [runtime-report]
CALI_SERVICES_ENABLE=aggregate,event,report,timestamp
CALI_EVENT_ENABLE_SNAPSHOT_INFO=false
CALI_TIMER_SNAPSHOT_DURATION=true
CALI_TIMER_INCLUSIVE_DURATION=false
CALI_TIMER_UNIT=sec
CALI_REPORT_CONFIG=""select inclusive_sum(sum#time.duration) as \""Inclusive time\"",sum(sum#time.duration) as \""Exclusive time\"",percent_total(sum#time.duration) as \""Time %\"" group by prop:nested format tree""
CALI_REPORT_FILENAME=stderr
# [mpi-runtime-report]
CALI_SERVICES_ENABLE=aggregate,event,mpi,mpireport,timestamp
CALI_MPI_BLACKLIST=MPI_Comm_rank,MPI_Comm_size,MPI_Wtick,MPI_Wtime
CALI_EVENT_ENABLE_SNAPSHOT_INFO=false
CALI_TIMER_UNIT=sec
CALI_MPIREPORT_CONFIG=""select min(sum#time.duration) as \""Min time/rank\"",max(sum#time.duration) as \""Max time/rank\"", avg(sum#time.duration) as \""Avg time/rank\"", percent_total(sum#time.duration) as \""Time % (total)\"" group by prop:nested format tree""
CALI_MPIREPORT_FILENAME=stderr
# [thread-trace]
CALI_SERVICES_ENABLE=event:pthread:recorder:timestamp:trace
# [mpi-msg-trace]
CALI_SERVICES_ENABLE=event,mpi,recorder,timestamp,trace
CALI_MPI_BLACKLIST=MPI_Comm_rank,MPI_Comm_size,MPI_Wtick,MPI_Wtime
CALI_MPI_MSG_TRACING=true
CALI_RECORDER_FILENAME=%mpi.rank%.cali
".

Section BUILTIN.
Variable builtin : bytes.                            (* builtin_profiles, lines 25-60 *)
(* read_config_files, lines 200-214 *)
Definition read_files (w : world) (names : list bytes) (all : assoc profile) : assoc profile :=
  fold_left (fun all n => match w_file w n with Some t => read_profiles t all | None => all end) names (read_profiles builtin all).
Definition s_config : bytes := bs "config".  Definition s_profile : bytes := bs "profile".  Definition s_file : bytes := bs "file".
Definition configdata : list (bytes * bytes) := [(s_profile, n_default); (s_file, bs "caliper.config")].
Definition dget (d : dict) (k : bytes) : bytes := match lookup d k with Some v => v | None => [] end.     (* ConfigSetImpl::get, lines 88-92 *)
(* init_config_database, lines 216-256 *)
Definition init_db (w : world) (c : config) : config :=
  let pre := dict_init s_config configdata (c_env c) (w_env w) (c_comb c) (c_top c) in
  let all := read_files w (to_stringlist [c_comma] (dget pre s_file)) (c_prof c) in
  let def := match lookup all n_default with Some p => p | None => [] end in
  let all1 := match lookup all n_default with Some _ => all | None => (n_default, []) :: all end in
  let comb := def ++ c_comb c in
  let cfg := dict_init s_config configdata (c_env c) (w_env w) comb (c_top c) in
  let comb1 := fold_left (fun m n => match lookup all1 n with Some p => p ++ m | None => m end) (to_stringlist [c_comma] (dget cfg s_profile)) comb in
  mkC (c_env c) comb1 (c_top c) (c_db c ++ [(s_config, cfg)]) all1.
Definition ensure_db (w : world) (c : config) : config := match c_db c with [] => init_db w c | _ => c end.
(* the public interface, lines 258-300 and 322-385 *)
Definition preset (k v : bytes) (c : config) : config := mkC (c_env c) ((k, v) :: c_comb c) (c_top c) (c_db c) (c_prof c).
Definition set (k v : bytes) (c : config) : config := mkC (c_env c) (c_comb c) ((k, v) :: c_top c) (c_db c) (c_prof c).
Definition import (l : list (bytes * bytes)) (c : config) : config := fold_left (fun c p => set (fst p) (snd p) c) l c.
Definition allow_read_env (b : bool) (c : config) : config := mkC b (c_comb c) (c_top c) (c_db c) (c_prof c).
Definition init_configset (w : world) (name : bytes) (l : list (bytes * bytes)) (c : config) : config * dict :=
  let c1 := ensure_db w c in
  match lookup (c_db c1) name with
  | Some d => (c1, d)
  | None =>
      let d := dict_init name l (c_env c1) (w_env w) (c_comb c1) (c_top c1) in
      (mkC (c_env c1) (c_comb c1) (c_top c1) ((name, d) :: c_db c1) (c_prof c1), d)
  end.
Definition get (w : world) (sname key : bytes) (c : config) : config * bytes :=
  let c1 := ensure_db w c in
  (c1, match lookup (c_db c1) sname with Some d => dget d key | None => [] end).

(* operations of a RuntimeConfig object *)
Inductive cop := OPreset (k v : bytes) | OSet (k v : bytes) | OImport (l : list (bytes * bytes)) | OAllow (b : bool)
  | OGet (w : world) (s k : bytes) | OInit (w : world) (name : bytes) (l : list (bytes * bytes)).
Definition cstep (c : config) (o : cop) : config :=
  match o with
  | OPreset k v => preset k v c | OSet k v => set k v c | OImport l => import l c | OAllow b => allow_read_env b c
  | OGet w s k => fst (get w s k c) | OInit w n l => fst (init_configset w n l c)
  end.
Definition crun (h : list cop) : config := fold_left cstep h new_config.
End BUILTIN.
