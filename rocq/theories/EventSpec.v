(* What the event service should do: which attributes it triggers for, and which begin, set and
   end events of a well-nested program give snapshots. *)
From Verif Require Import Base VariantModel RFilterModel RuntimeModel EventModel.
Open Scope N_scope.

(* attributes that can trigger: not built in, not marked skip_events, one of the configured names
   if there are any, and of at least the configured region level *)
Definition eligible (c : ecfg) (a : eattr) : Prop :=
  12 <= ea_id a /\ N.land (ea_prop a) P_SKIP_EVENTS = 0 /\ (ec_names c = [] \/ In (ea_name a) (ec_names c)) /\
  ec_level c <= (ea_prop a / 65536) mod 8.

(* A well-nested execution: set events and regions with everything inside of them.  vb/mb is the
   value given to begin and the memory then, ve/me the value the runtime passes at the end. *)
Inductive item :=
| ISet (thr : N) (a : eattr) (v : cvar) (m : memory)
| IRegion (thr : N) (a : eattr) (vb : cvar) (mb : memory) (kids : list item) (ve : cvar) (me : memory).
Fixpoint events (i : item) : list eev :=
  match i with
  | ISet t a v m => [EvSet t a v m]
  | IRegion t a vb mb kids ve me => EvBegin t a vb mb :: flat_map events kids ++ [EvEnd t a ve me]
  end.

Section RX.
Variable rx_match : bytes -> bytes -> bool.
Variable c : ecfg.
Variable mk : N -> bool.                  (* attribute ids that are marked *)
(* the event can trigger: its attribute is marked and a string value passes the region filter *)
Definition wanted (a : eattr) (v : cvar) (m : memory) : bool :=
  mk (ea_id a) && (negb (ea_type a =? T_STRING) || pass rx_match (ec_region c) (var_data m v)).
Definition opens_branch (a : eattr) (v : cvar) (m : memory) : bool :=
  wanted a v m && has_filters (ec_branch c) && pass rx_match (ec_branch c) (var_data m v).

(* expected snapshots; inside: some enclosing region opened a selected branch *)
Fixpoint expected (inside : bool) (i : item) : list epush :=
  match i with
  | ISet t a v m => if wanted a v m && (negb (has_filters (ec_branch c)) || inside) then [mk_push c KSet a v] else []
  | IRegion t a vb mb kids ve me =>
      let inside' := inside || opens_branch a vb mb in
      let here := wanted a vb mb && (negb (has_filters (ec_branch c)) || inside') in
      (if here then [mk_push c KBegin a vb] else []) ++ flat_map (expected inside') kids ++
      (if here then [mk_push c KEnd a ve] else [])
  end.

(* Requirements on the execution.  enc: begin values of the enclosing regions with the memory at
   that time.  The strings given to begin stay as they are while the region is open, and the value
   at the end equals the one at the beginning.  Set events do not open branches. *)
Fixpoint proper (enc : list (cvar * memory)) (i : item) : Prop :=
  match i with
  | ISet t a v m => opens_branch a v m = false
  | IRegion t a vb mb kids ve me =>
      (fix all (l : list item) : Prop := match l with [] => True | k :: r => proper ((vb, mb) :: enc) k /\ all r end) kids /\
      var_eq me ve vb = true /\
      Forall (fun x => var_data me (fst x) = var_data (snd x) (fst x)) ((vb, mb) :: enc)
  end.
Definition all_proper (enc : list (cvar * memory)) (l : list item) : Prop := Forall (proper enc) l.
End RX.

(* Histories with attribute definitions *)
Definition use_of (e : eev) : option eattr :=
  match e with EvBegin _ a _ _ | EvSet _ a _ _ | EvEnd _ a _ _ => Some a | _ => None end.
Definition def_of (e : eev) : option eattr := match e with EvCreate a | EvSubscribe a => Some a | _ => None end.
Definition region_events (h : list eev) : list eev := filter (fun e => match use_of e with Some _ => true | None => false end) h.
(* attributes are created or subscribed to before they are used *)
Definition defs_first (h : list eev) : Prop :=
  forall h1 e h2 a d b, h = h1 ++ e :: h2 -> use_of e = Some a -> In d h2 -> def_of d = Some b -> ea_id b <> ea_id a.
(* an id stands for one attribute *)
Definition mentioned (attrs : list eattr) (h : list eev) (a : eattr) : Prop :=
  In a attrs \/ exists e, In e h /\ (use_of e = Some a \/ def_of e = Some a).
Definition ids_ok (attrs : list eattr) (h : list eev) : Prop :=
  forall a b, mentioned attrs h a -> mentioned attrs h b -> ea_id a = ea_id b -> a = b.
(* the attribute triggers snapshots in this history: it is eligible, and not one that has to be
   subscribed to, or was subscribed to *)
Definition triggers (c : ecfg) (attrs : list eattr) (h : list eev) (a : eattr) : Prop :=
  eligible c a /\ (((In a attrs \/ In (EvCreate a) h) /\ ea_sub a = false) \/ In (EvSubscribe a) h).

(* what a snapshot record says: the attribute values in its entries *)
Definition says {V} (e : @sentry V) : list (aname * V) := match e with SRef p => p | SImm a v => [(a, v)] end.
