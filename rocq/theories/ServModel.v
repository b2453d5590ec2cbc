(* Model of the service registry, src/services/Services.cpp, of the part of Channel construction that registers
   services (src/caliper/Caliper.cpp:182-185, 1365-1370), and of src/caliper/config_sanity_check.cpp.
   A register function is a number; calling it is recorded as (function, channel).  Log messages are recorded as far
   as they say which service or group they are about.
   m_services is the list of assignments, the latest first; kmap puts it in the order of the std::map. *)
From Coq Require Import Strings.Ascii Strings.String.
From Verif Require Import Base TextModel ParseModel RConfigModel JsonModel.
Open Scope N_scope.
Open Scope list_scope.

(* CaliperService, Services.h:22-26; None: a null pointer *)
Record cservice := mksv { sv_spec : option bytes; sv_reg : option N }.
Definition smap := list (bytes * (bytes * N)).
(* get_name_from_spec, Services.cpp:25-39 *)
Definition name_from_spec (s : bytes) : bytes :=
  let (l, ok) := rec_dict_assign s in
  if ok then match dict_lookup l (bs "name") with Some n => n | None => s end else s.
(* ServicesManager::add_services, 68-72: up to the first entry with a null pointer *)
Fixpoint add_services (m : smap) (l : list cservice) : smap :=
  match l with
  | mksv (Some s) (Some f) :: r => add_services ((name_from_spec s, (s, f)) :: m) r
  | _ => m
  end.
(* get_available_services, 47-56 *)
Definition available (m : smap) : list bytes := map fst (kmap m).
(* cstr (TextModel): a char* made from a std::string *)
Inductive act := Registered (f channel : N) | NotFound (name : bytes).
(* ServicesManager::register_service, 58-66: the function that is called *)
Definition find_service (m : smap) (name : bytes) : option N := option_map snd (lookup m name).
(* services::register_service, 154-157: the result and what happened *)
Definition register_service (m : smap) (ch : N) (name : bytes) : bool * list act :=
  match find_service m (cstr name) with Some f => (true, [Registered f ch]) | None => (false, []) end.
Section CFG.
Variable builtin : bytes.   (* the profiles in RuntimeConfig.cpp *)
Variable w : world.         (* environment and files *)
Definition services_config : list (bytes * bytes) := [(bs "enable", [])].
(* register_configured_services, 159-173 *)
Definition register_configured (m : smap) (ch : N) (c : config) : config * list act :=
  let (c1, d) := init_configset builtin w (bs "services") services_config c in
  (c1, flat_map (fun s => let (ok, a) := register_service m ch s in a ++ if ok then [] else [NotFound s]) (to_stringlist [44; 58] (dget d (bs "enable")))).
(* init_config_from_spec, 195-225; None: no name or an entry without a name (undefined behaviour, asserted) *)
Fixpoint spec_entries (l : list bytes) : option (list (bytes * bytes)) :=
  match l with
  | [] => Some []
  | e :: r =>
      let dct := fst (rec_dict_assign e) in
      match dict_lookup dct (bs "name"), spec_entries r with
      | Some key, Some t => Some ((key, match dict_lookup dct (bs "value") with Some v => v | None => [] end) :: t)
      | _, _ => None
      end
  end.
Definition spec_config (spec : bytes) : option (bytes * list (bytes * bytes)) :=
  let dct := fst (rec_dict_assign spec) in
  match spec_entries (match dict_lookup dct (bs "config") with Some t => fst (rec_list t) | None => [] end), dict_lookup dct (bs "name") with
  | Some l, Some n => Some (n, l)
  | _, _ => None
  end.
Definition init_config_from_spec (c : config) (spec : bytes) : option (config * dict) :=
  match spec_config spec with Some (n, l) => Some (init_configset builtin w n l c) | None => None end.
End CFG.
(* print_service_documentation, 84-134: the variables it prints with their default values *)
Definition documented (m : smap) (name : bytes) : list (bytes * bytes) :=
  match lookup m name with
  | None => []
  | Some (spec, _) =>
      match dict_lookup (fst (rec_dict_assign spec)) (bs "config") with
      | None => []
      | Some t => flat_map (fun s => let dct := fst (rec_dict_assign s) in
          match dict_lookup dct (bs "name") with
          | Some (k0 :: kr) => [(map toupper (bs "CALI_" ++ name ++ bs "_" ++ k0 :: kr), match dict_lookup dct (bs "value") with Some v => v | None => [] end)]
          | _ => []
          end) (fst (rec_list t))
      end
  end.

(* ---- config_sanity_check.cpp ---- *)
(* 19-33 *)
Inductive group := Trigger | Buffer | Process | Online | Offline.
Definition members (g : group) : list bytes :=
  match g with
  | Trigger => map bs ["alloc"; "cuptitrace"; "event"; "libpfm"; "loop_monitor"; "region_monitor"; "sampler"]%string
  | Buffer => map bs ["aggregate"; "trace"; "cuptitrace"]%string
  | Process => map bs ["aggregate"; "trace"; "textlog"]%string
  | Online => map bs ["textlog"]%string
  | Offline => map bs ["recorder"; "report"; "sos"; "mpireport"]%string
  end.
Inductive warning := NoServices | Requires (dept : bytes) (from to : group).
(* check_service_dependency, 59-84 *)
Definition check_dependency (from to : group) (services : list bytes) : list warning :=
  match find (fun s => existsb (beq s) services) (members from) with
  | None => []
  | Some s => match find (fun s => existsb (beq s) services) (members to) with Some _ => [] | None => [Requires s from to] end
  end.
(* check_services, 86-98 *)
Definition check_services (services : list bytes) : list warning :=
  flat_map (fun d => check_dependency (fst d) (snd d) services)
    [(Trigger, Process); (Process, Trigger); (Buffer, Offline); (Online, Trigger); (Offline, Buffer)].
(* config_sanity_check, 105-123 *)
Definition sanity (services : list bytes) : list warning :=
  match services with
  | [] => [NoServices]
  | _ => if existsb (beq (bs "debug")) services then [] else if existsb (beq (bs "validator")) services then [] else check_services services
  end.

Section CHANNEL.
Variable builtin : bytes.
Variable w : world.
(* ChannelBody::s_configdata, Caliper.cpp:191-205 *)
Definition channel_config : list (bytes * bytes) := [(bs "config_check", bs "true"); (bs "flush_on_exit", bs "true")].
Definition to_bool (v : bytes) : bool := match to_bool_str v with Some b => b | None => false end.
(* the channel's constructor, 182-185, and create_channel, 1365-1370 *)
Definition create_services (m : smap) (ch : N) (c : config) : config * list act * list warning :=
  let (c1, _) := init_configset builtin w (bs "channel") channel_config c in
  let (c2, acts) := register_configured builtin w m ch c1 in
  let (c3, chk) := get builtin w (bs "channel") (bs "config_check") c2 in
  if to_bool chk then let (c4, l) := get builtin w (bs "services") (bs "enable") c3 in (c4, acts, sanity (to_stringlist [44; 58] l)) else (c3, acts, []).
End CHANNEL.
