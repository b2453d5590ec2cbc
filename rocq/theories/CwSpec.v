(* What concurrent users of a CaliWriter rely on, stated on histories. *)
From Verif Require Import Base VariantModel VariantSpec NamesModel TextModel TreeModel CaliFileModel CaliFileProofs CaliFileProofs5 CaliFileProps CwModel.

(* The metadata database during a run: the nodes that exist never change (part_of), and a node
   exists only after its attribute and its parent.  src holds all nodes of the run. *)
Definition complete (db : N -> option tnode) : Prop :=
  forall i n, db i = Some n -> 11 <= i -> (n_attr n < 11 \/ db (n_attr n) <> None) /\ (forall p, n_par n = Some p -> p = INV_ID \/ p < 11 \/ db p <> None).
Definition db_step (src db db' : N -> option tnode) : Prop := part_of db db' /\ part_of db' src /\ complete db'.
(* callers pass entries that refer to nodes of the database; nothing else is required of them *)
Definition act_ok (src : N -> option tnode) (s : cw) (a : cact) : Prop :=
  match a with
  | ACall _ _ rec => known_entries (cw_db s) rec
  | AExec _ => True
  | AGrow db => db_step src (cw_db s) db
  end.
(* all interleavings of any number of threads: the actions done so far and the state reached *)
Inductive history (src : N -> option tnode) : list cact -> cw -> Prop :=
| hs_start db : part_of db src -> complete db -> history src [] (cw_start db)
| hs_act acts s a s' : history src acts s -> act_ok src s a -> cw_act s a = Some s' -> history src (acts ++ [a]) s'.

(* the records thread t asked for, in order; the records of thread t in the file, in order *)
Definition asked (t : N) (acts : list cact) : list (bool * list N * list (N * value)) :=
  flat_map (fun a => match a with ACall u g rec => if u =? t then [(g, refs_of rec, imms_of rec)] else [] | _ => [] end) acts.
Definition written_by (t : N) (s : cw) : list (bool * list N * list (N * value)) :=
  flat_map (fun x => match x with (u, WRec g r i) => if u =? t then [(g, r, i)] else [] | _ => [] end) (cw_out s).
Definition idle (s : cw) (t : N) : Prop := cw_todo s t = [].
(* who wrote which node *)
Definition node_writes (s : cw) : list (N * N) := flat_map (fun x => match x with (u, WNode n) => [(u, n_id n)] | _ => [] end) (cw_out s).
(* every line refers only to the bootstrap nodes and to nodes defined by earlier lines *)
Definition refs_resolved (ls : list wline) : Prop := forall pre l post id, ls = pre ++ l :: post -> refers l id -> defined_in pre id.
(* steps thread t takes *)
Definition steps_of (t : N) (acts : list cact) : nat := length (filter (fun a => match a with AExec u => u =? t | _ => false end) acts).
Definition no_call (t : N) (acts : list cact) : Prop := forall g rec, ~ In (ACall t g rec) acts.
(* any legal continuation from s *)
Fixpoint goes (src : N -> option tnode) (s : cw) (later : list cact) (s' : cw) : Prop :=
  match later with
  | [] => s' = s
  | a :: r => act_ok src s a /\ exists s1, cw_act s a = Some s1 /\ goes src s1 r s'
  end.
(* what reading back needs of the records: C28's conditions on calls *)
Definition call_fits dfmt dparse (src : N -> option tnode) (a : cact) : Prop :=
  match a with
  | ACall _ _ rec => rec <> [] /\ (forall a, imms_of rec <> [(a, VStr [])]) /\
      (forall i, In (ERef i) rec -> exists n, src i = Some n /\ n_attr n <> 8) /\
      (forall a v, In (EImm a v) rec -> CaliFileProofs3.typed dfmt dparse src a v /\ exists n, src a = Some n /\ n_attr n = 8)
  | _ => True
  end.
(* the context records of a file, in file order, as a reader sees them (references first) *)
Definition file_records (s : cw) : list (list entry) :=
  flat_map (fun x => match snd x with WRec false refs imms => [map ERef refs ++ map (fun y => EImm (fst y) (snd y)) imms] | _ => [] end) (cw_out s).
(* one thread, one call after the other *)
Definition solo (t : N) (acts : list cact) : Prop := forall a, In a acts -> match a with ACall u _ _ | AExec u => u = t | AGrow _ => True end.
