(* Model of the event trigger service, src/services/event/EventTrigger.cpp: which attributes are
   marked, and when and with what trigger information it pushes snapshots.  Values are the C
   variants of VariantModel over the memory at the time of the call: the branch filter stack keeps
   the variants (and so the string pointers) of the begin calls.  Not modelled: the parsing of the
   region_level option, the creation of the event.begin#, event.set# and event.end# attributes
   (C25) and the hidden attributes for markers. *)
From Verif Require Import Base VariantModel RFilterModel RuntimeModel.
Open Scope N_scope.

(* what the service sees of an attribute: id, name, type, properties, the subscription_event flag *)
Record eattr := mkea { ea_id : N; ea_name : bytes; ea_type : N; ea_prop : N; ea_sub : bool }.
Definition P_LEVEL_MASK : N := 458752.
(* Attribute::level, Attribute.h:63 *)
Definition ea_level (a : eattr) : N := N.shiftr (N.land (ea_prop a) P_LEVEL_MASK) 16.

(* the configuration, EventTrigger.cpp:47-58, 281-320 *)
Record ecfg := mkec { ec_names : list bytes; ec_info : bool; ec_level : N; ec_region : region_filter; ec_branch : region_filter }.
(* instance data that changes: attributes with a marker node below them, branch_filter_stack
   (last element first) *)
Record esvc := mkes { es_marks : list N; es_stack : list cvar }.

(* cali_variant_get_data / get_size (cali_variant.c:25-73): the bytes RegionFilter::match looks at *)
Fixpoint le_bytes (n : nat) (w : N) : bytes := match n with O => [] | S k => w mod 256 :: le_bytes k (w / 256) end.
Definition var_data (m : memory) (v : cvar) : bytes :=
  if (vtype v =? T_USR) || (vtype v =? T_STRING) then read_mem m (word v) (N.to_nat (get_size v))
  else le_bytes (N.to_nat (get_size v)) (word v).

Inductive ekind := KBegin | KSet | KEnd.
(* A snapshot the service asks for: the trigger information entry (event.<kind>#<attribute> =
   value, as value or as tree node) unless disabled, and whether region.count=1 is added. *)
Record epush := mkpush { p_info : option (ekind * N * cvar); p_ref : bool; p_count : bool }.

Section RX.
Variable rx_match : bytes -> bytes -> bool.
Notation passes rf m v := (pass rx_match rf (var_data m v)).

(* check_attribute, EventTrigger.cpp:115-129; make_tree_entry does not create the same marker twice *)
Definition check_attribute (c : ecfg) (s : esvc) (a : eattr) : esvc :=
  if (ea_id a <? 12) || has_flag (ea_prop a) P_SKIP_EVENTS then s
  else if (0 <? length (ec_names c))%nat && negb (existsb (eqb_bytes (ea_name a)) (ec_names c)) then s
  else if ea_level a <? ec_level c then s
  else mkes (if existsb (N.eqb (ea_id a)) (es_marks s) then es_marks s else ea_id a :: es_marks s) (es_stack s).
(* create_attr_evt (343-346) and check_existing_attributes (269-277) *)
Definition on_attribute (c : ecfg) (s : esvc) (a : eattr) : esvc := if ea_sub a then s else check_attribute c s a.
(* constructor, 281-337: attrs are the attributes that exist when the service is created *)
Definition es_init (c : ecfg) (attrs : list eattr) : esvc := fold_left (on_attribute c) attrs (mkes [] []).
(* find_marker, 131-140 *)
Definition find_marker (s : esvc) (a : eattr) : bool := existsb (N.eqb (ea_id a)) (es_marks s).

(* push of one snapshot with the trigger information, 166-191, 207-227, 245-265 *)
Definition mk_push (c : ecfg) (k : ekind) (a : eattr) (v : cvar) : epush :=
  let cnt := match k with KEnd => true | _ => false end in
  if ec_info c then mkpush (Some (k, ea_id a, v)) (negb (has_flag (ea_prop a) P_ASVALUE)) cnt else mkpush None false cnt.

(* pre_begin_cb, 152-192, and pre_set_cb, 194-228, which only differ in the kind *)
Definition pre_open (c : ecfg) (k : ekind) (s : esvc) (a : eattr) (v : cvar) (m : memory) : list epush * esvc :=
  if negb (find_marker s a) then ([], s)
  else if (ea_type a =? T_STRING) && negb (passes (ec_region c) m v) then ([], s)
  else if has_filters (ec_branch c) then
    let st := if passes (ec_branch c) m v then v :: es_stack s else es_stack s in
    let s1 := mkes (es_marks s) st in
    match st with [] => ([], s1) | _ => ([mk_push c k a v], s1) end
  else ([mk_push c k a v], s).
(* pre_end_cb, 230-266 *)
Definition pre_end (c : ecfg) (s : esvc) (a : eattr) (v : cvar) (m : memory) : list epush * esvc :=
  if negb (find_marker s a) then ([], s)
  else if (ea_type a =? T_STRING) && negb (passes (ec_region c) m v) then ([], s)
  else if has_filters (ec_branch c) then
    match es_stack s with
    | [] => ([], s)
    | b :: r => ([mk_push c KEnd a v], if var_eq m v b then mkes (es_marks s) r else s)
    end
  else ([mk_push c KEnd a v], s).

(* the events of the channel, in order; the callbacks do not look at the thread *)
Inductive eev :=
| EvCreate (a : eattr) | EvSubscribe (a : eattr)
| EvBegin (thr : N) (a : eattr) (v : cvar) (m : memory)
| EvSet (thr : N) (a : eattr) (v : cvar) (m : memory)
| EvEnd (thr : N) (a : eattr) (v : cvar) (m : memory).
(* event_trigger_register, 343-372 *)
Definition estep (c : ecfg) (s : esvc) (e : eev) : list epush * esvc :=
  match e with
  | EvCreate a => ([], on_attribute c s a)
  | EvSubscribe a => ([], check_attribute c s a)
  | EvBegin _ a v m => pre_open c KBegin s a v m
  | EvSet _ a v m => pre_open c KSet s a v m
  | EvEnd _ a v m => pre_end c s a v m
  end.
Fixpoint erun (c : ecfg) (s : esvc) (l : list eev) : list epush * esvc :=
  match l with
  | [] => ([], s)
  | e :: r => let (o, s1) := estep c s e in let (os, s2) := erun c s1 r in (o ++ os, s2)
  end.
End RX.

(* The snapshot record of a push (Caliper::push_snapshot, Caliper.cpp:856-871, and
   push_snapshot_replace, 873-890; SnapshotBuilder as in C45).  Reference entries are shown as
   the path of their tree node (C15, C16).  ctx is the thread and process blackboard snapshot,
   bb the entry get_blackboard_entry(attr) returns.  Measurement values that other services add
   come after. *)
Section Rec.
Context {V : Type} (veq : V -> V -> bool).
Inductive aname := AUser (id : N) | AEvent (k : ekind) (id : N) | ACount.
Inductive sentry := SRef (p : list (aname * V)) | SImm (a : aname) (v : V).
Variable sent_eqb : sentry -> sentry -> bool.
Definition SNAP_MAX : nat := 120.
Definition sappend (l es : list sentry) : list sentry := l ++ firstn (SNAP_MAX - length l) es.
Fixpoint sremove (l : list sentry) (e : sentry) : list sentry :=
  match l with [] => [] | x :: r => if sent_eqb e x then r else x :: sremove r e end.
(* kind, attribute, value; one is the variant for the count 1 *)
Definition push_record (info : bool) (k : ekind) (id : N) (asval : bool) (v one : V) (bb : option (list (aname * V))) (ctx : list sentry) : list sentry :=
  let cnt := match k with KEnd => [SImm ACount one] | _ => [] end in
  if info then
    if asval then sappend (sappend [] ctx) (SImm (AEvent k id) v :: cnt)
    else
      let p := match bb with Some p => p | None => [] end in
      let l := sappend [] ctx in
      let l1 := match bb with Some p => sremove l (SRef p) | None => l end in
      sappend l1 (SRef (p ++ [(AEvent k id, v)]) :: cnt)
  else sappend (sappend [] ctx) cnt.
End Rec.
