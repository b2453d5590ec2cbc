(* Services, independent of the implementation: which specs are on offer, how a list of services is written,
   what happens for its words; the dependencies of services. *)
From Coq Require Import Strings.Ascii Strings.String.
From Verif Require Import Base TextModel ParseModel ParseSpec RConfigModel RConfigSpec ServModel.
Open Scope N_scope.
Open Scope list_scope.

(* a list of specs ends before the first entry without a spec or function *)
Inductive offers : list cservice -> list (bytes * N) -> Prop :=
| of_nil : offers [] []
| of_end s f r : s = None \/ f = None -> offers (mksv s f :: r) []
| of_more s f r l : offers r l -> offers (mksv (Some s) (Some f) :: r) ((s, f) :: l).
(* the name of a spec: the "name" of a dictionary text, or the text itself *)
Inductive named : bytes -> bytes -> Prop :=
| nm_dict s l n : rec_dict_assign s = (l, true) -> dict_lookup l (bs "name") = Some n -> named s n
| nm_text s : (forall l n, rec_dict_assign s = (l, true) -> dict_lookup l (bs "name") <> Some n) -> named s s.
(* all specs of a history of add_service_specs calls, in order; the latest one with a name counts *)
Definition offered (hist : list (list cservice)) (all : list (bytes * N)) : Prop := exists ls, Forall2 offers hist ls /\ all = concat ls.
Definition provides (hist : list (list cservice)) (n spec : bytes) (f : N) : Prop :=
  exists a b, offered hist (a ++ (spec, f) :: b) /\ named spec n /\ forall x, In x b -> ~ named (fst x) n.
(* what happens for a word of the list of services *)
Inductive happens (hist : list (list cservice)) (ch : N) : bytes -> act -> Prop :=
| hp_reg n spec f : provides hist n spec f -> happens hist ch n (Registered f ch)
| hp_not n : (forall spec f, ~ provides hist n spec f) -> happens hist ch n (NotFound n).

(* a list of services as a text: words between commas or colons, with white space around; words may be missing *)
Inductive item : bytes -> bytes -> Prop :=
| it_none : item [] []
| it_word i w : i <> [] -> spells [44; 58] i w -> item i w.
Inductive list_text : bytes -> list bytes -> Prop :=
| lt_last a i b w : spaces a -> spaces b -> item i w -> list_text (a ++ i ++ b) [w]
| lt_more a i b w c t l : spaces a -> spaces b -> item i w -> c = 44 \/ c = 58 -> list_text t l -> list_text (a ++ i ++ b ++ c :: t) (w :: l).

(* the value of configuration variable (name, key) with default d in a new channel *)
Definition var_value (builtin : bytes) (w : world) (h : list cop) (name key d : bytes) : bytes :=
  precedence (last_value (sets h) (var name key)) (env_of (env_allowed h) w (var name key)) (profile_value builtin h (first_world h w) (var name key)) d.

(* groups of services, and which group needs which *)
Definition in_group (g : group) (s : bytes) : Prop :=
  In s (map bs match g with
  | Trigger => ["alloc"; "cuptitrace"; "event"; "libpfm"; "loop_monitor"; "region_monitor"; "sampler"]
  | Buffer => ["aggregate"; "cuptitrace"; "trace"]
  | Process => ["aggregate"; "textlog"; "trace"]
  | Online => ["textlog"]
  | Offline => ["mpireport"; "recorder"; "report"; "sos"]
  end%string).
Inductive needs : group -> group -> Prop :=
| nd1 : needs Trigger Process | nd2 : needs Process Trigger | nd3 : needs Buffer Offline | nd4 : needs Online Trigger | nd5 : needs Offline Buffer.
Definition active (g : group) (services : list bytes) : Prop := exists s, in_group g s /\ In s services.
(* debug and validator channels are not checked *)
Definition exempt (services : list bytes) : Prop := In (bs "debug") services \/ In (bs "validator") services.
