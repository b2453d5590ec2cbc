(* Model of the annotation interface in src/caliper/Caliper.cpp on top of the context tree
   model (TreeModel).

   Simplifications: a blackboard is a finite map from keys to (entry, visible) (C12/C13
   justify the map part; overflow beyond 910 keys is C14 and not repeated here); services are
   represented by the callbacks Caliper invokes on the active channels, which are recorded
   in a log together with the context a callback sees; callbacks do not call back into the
   annotation API; one API call is one atomic step, except that end() is also given as its
   two critical sections (end_load / end_commit). *)
From Verif Require Import Base VariantModel VariantSpec TreeModel.

(* property flags, include/caliper/common/cali_types.h:58-118 *)
Definition P_ASVALUE : N := 1.
Definition P_SCOPE_MASK : N := 60.
Definition P_SCOPE_PROCESS : N := 12.
Definition P_SCOPE_THREAD : N := 20.
Definition P_SKIP_EVENTS : N := 64.
Definition P_HIDDEN : N := 128.
Definition P_UNALIGNED : N := 1024.
Definition has_flag (prop f : N) : bool := negb (N.land prop f =? 0).

(* Attribute: id of its node and properties *)
Record attr := mkattr { at_id : N; at_prop : N }.
Definition asvalue (a : attr) : bool := has_flag (at_prop a) P_ASVALUE.
Definition unaligned (a : attr) : bool := has_flag (at_prop a) P_UNALIGNED.
Definition visible_flag (a : attr) : bool := negb (has_flag (at_prop a) P_HIDDEN).
Definition run_events (a : attr) : bool := negb (has_flag (at_prop a) P_SKIP_EVENTS).
Inductive scope := ScThread | ScProcess | ScOther.
Definition scope_of (a : attr) : scope :=
  let m := N.land (at_prop a) P_SCOPE_MASK in
  if m =? P_SCOPE_THREAD then ScThread else if m =? P_SCOPE_PROCESS then ScProcess else ScOther.

Definition NAME_ATTR_ID : N := 8.
(* Entry: null, or (node, value), Entry.h:30-112 *)
Definition ent := option (N * value).
(* Entry(Node ptr), Entry.h:44; None: null or dangling pointer *)
Definition mk_ref (tr : tree) (i : N) : option (N * value) :=
  match node_at tr i with Some n => Some (i, n_val n) | None => None end.
(* Entry::attribute, Entry.h:58-65 *)
Definition ent_attribute (tr : tree) (e : ent) : N :=
  match e with
  | None => INV_ID
  | Some (i, _) => match node_at tr i with
                   | Some n => if n_attr n =? NAME_ATTR_ID then n_id n else n_attr n
                   | None => INV_ID
                   end
  end.
(* Entry::get, Entry.cpp:42-57 *)
Definition ent_get (tr : tree) (e : ent) (aid : N) : ent :=
  match e with
  | None => None
  | Some (i, v) =>
      if i =? aid then e
      else match node_at tr i with
           | None => None
           | Some n =>
               if n_attr n =? NAME_ATTR_ID then None
               else match find (fun m => n_attr m =? aid) (chain (t_nodes tr) (Some i)) with
                    | Some m => Some (n_id m, n_val m)
                    | None => None
                    end
           end
  end.

(* Blackboard as a map, see C12 *)
Definition bb := list (N * (N * value * bool)).
Fixpoint bget (m : bb) (k : N) : ent :=
  match m with [] => None | (k', (i, v, _)) :: r => if k' =? k then Some (i, v) else bget r k end.
Fixpoint bset (m : bb) (k : N) (e : N * value) (vis : bool) : bb :=
  match m with
  | [] => [(k, (fst e, snd e, vis))]
  | (k', (i, v, b)) :: r => if k' =? k then (k', (fst e, snd e, b)) :: r else (k', (i, v, b)) :: bset r k e vis
  end.
Fixpoint bdel (m : bb) (k : N) : bb :=
  match m with [] => [] | x :: r => if fst x =? k then r else x :: bdel r k end.

(* REGION_KEY, UNALIGNED_KEY, get_blackboard_key*, Caliper.cpp:520-541 *)
Definition REGION_KEY : N := 1.
Definition UNALIGNED_KEY : N := 2.
Definition ref_key (a : attr) : N := if unaligned a then UNALIGNED_KEY else REGION_KEY.
Definition bb_key (a : attr) : N := if asvalue a then at_id a else ref_key a.

(* what a reader of an entry sees: the attribute/value pairs, outermost first *)
Definition ent_view (tr : tree) (e : ent) : list (N * value) :=
  match e with
  | None => []
  | Some (i, v) =>
      match node_at tr i with
      | Some n => if n_attr n =? NAME_ATTR_ID then [(i, v)]
                  else map (fun m => (n_attr m, n_val m)) (rev (filter (fun m => negb (n_id m =? ROOT)) (chain (t_nodes tr) (Some i))))
      | None => []
      end
  end.

(* load_current_entry, Caliper.cpp:583-600: (merged entry, entry) *)
Definition load_current (tr : tree) (a : attr) (key : N) (m : bb) : ent * ent :=
  let merged := bget m key in
  let e := ent_get tr merged (at_id a) in
  if ent_attribute tr merged =? at_id a then (merged, e)
  else match e with
       | None => (None, None)
       | Some _ => if key =? UNALIGNED_KEY then (merged, e) else (None, None)
       end.

(* Outcome of an update: new tree and blackboard, or a null pointer dereference
   (tree exhausted) in a state with the given tree *)
Inductive hres := HOk (tr : tree) (m : bb) | HCrash (tr : tree) | HUB.

(* handle_begin, Caliper.cpp:602-617 *)
Definition handle_begin (tr : tree) (t : N) (a : attr) (v : value) (m : bb) : hres :=
  if asvalue a then HOk tr (bset m (at_id a) (at_id a, v) (visible_flag a))
  else
    match get_child tr t (at_id a) v (option_map fst (bget m (ref_key a))) with
    | None => HUB
    | Some (None, tr') => HCrash tr'
    | Some (Some i, tr') =>
        match mk_ref tr' i with
        | Some e => HOk tr' (bset m (ref_key a) e (visible_flag a))
        | None => HUB
        end
    end.

(* handle_end, Caliper.cpp:619-641 *)
Definition handle_end (tr : tree) (t : N) (a : attr) (cur : ent * ent) (key : N) (m : bb) : hres :=
  if asvalue a then HOk tr (bdel m key)
  else
    match fst cur, snd cur with
    | Some (i, _), Some (j, _) =>
        match node_at tr i with
        | None => HUB
        | Some n =>
            match n_par n with
            | None => HUB
            | Some p =>
                if p =? ROOT then HOk tr (bdel m key)
                else
                  let r := if i =? j then Some (Some p, tr) else remove_first_in_path tr t (Some i) (at_id a) in
                  match r with
                  | None => HUB
                  | Some (None, tr') => HCrash tr'
                  | Some (Some q, tr') =>
                      match mk_ref tr' q with
                      | Some e => HOk tr' (bset m key e (visible_flag a))
                      | None => HUB
                      end
                  end
            end
        end
    | _, _ => HUB
    end.

(* handle_set, Caliper.cpp:643-658 *)
Definition handle_set (tr : tree) (t : N) (a : attr) (v : value) (m : bb) : hres :=
  if asvalue a then HOk tr (bset m (at_id a) (at_id a, v) (visible_flag a))
  else
    match replace_first_in_path tr t (option_map fst (bget m (ref_key a))) (at_id a) v with
    | None => HUB
    | Some (None, tr') => HCrash tr'
    | Some (Some i, tr') =>
        match mk_ref tr' i with
        | Some e => HOk tr' (bset m (ref_key a) e (visible_flag a))
        | None => HUB
        end
    end.

(* callbacks *)
Inductive evk := PreBegin | PostBegin | PreSet | PreEnd.
Record ev := mkev { ev_kind : evk; ev_chn : N; ev_thr : N; ev_attr : N; ev_val : value; ev_ctx : list (N * value) }.

(* GlobalData, ThreadData (Caliper.cpp:240-330): tree, thread blackboards, process
   blackboard, stack_error flags, active channels, callback log *)
Record rt := mkrt { r_tree : tree; r_tbb : N -> bb; r_pbb : bb; r_err : N -> bool; r_act : list N; r_log : list ev }.

Definition get_bb (s : rt) (t : N) (a : attr) : bb :=
  match scope_of a with ScThread => r_tbb s t | ScProcess => r_pbb s | ScOther => [] end.
Definition put_bb (s : rt) (t : N) (a : attr) (tr : tree) (m : bb) : rt :=
  match scope_of a with
  | ScThread => mkrt tr (upd (r_tbb s) t m) (r_pbb s) (r_err s) (r_act s) (r_log s)
  | ScProcess => mkrt tr (r_tbb s) m (r_err s) (r_act s) (r_log s)
  | ScOther => s
  end.
(* "for (auto& channel : sG->active_channels) chB->events.xxx_evt(...)" *)
Definition fire (s : rt) (k : evk) (t : N) (a : attr) (v : value) : rt :=
  if run_events a then
    mkrt (r_tree s) (r_tbb s) (r_pbb s) (r_err s) (r_act s)
         (r_log s ++ map (fun c => mkev k c t (at_id a) v (ent_view (r_tree s) (bget (get_bb s t a) (bb_key a)))) (r_act s))
  else s.
Definition set_err (s : rt) (t : N) : rt :=
  mkrt (r_tree s) (r_tbb s) (r_pbb s) (upd (r_err s) t true) (r_act s) (r_log s).

(* result of an API call *)
Inductive out := ODone | OError | OVal (v : option value).
Inductive sres := SOk (s : rt) (o : out) | SCrash (tr : tree) | SUB.

Definition commit (s : rt) (t : N) (a : attr) (h : hres) (k : rt -> sres) : sres :=
  match h with HOk tr m => k (put_bb s t a tr m) | HCrash tr => SCrash tr | HUB => SUB end.

(* Caliper::begin, Caliper.cpp:946-980 *)
Definition rt_begin (s : rt) (t : N) (a : attr) (v : value) : sres :=
  if r_err s t then SOk s ODone
  else
    let s1 := fire s PreBegin t a v in
    match scope_of a with
    | ScOther => SOk (fire s1 PostBegin t a v) ODone
    | _ => commit s1 t a (handle_begin (r_tree s1) t a v (get_bb s1 t a)) (fun s2 => SOk (fire s2 PostBegin t a v) ODone)
    end.

(* first critical section of Caliper::end, Caliper.cpp:996-1010 *)
Definition end_load (s : rt) (t : N) (a : attr) : ent * ent :=
  load_current (r_tree s) a (bb_key a) (get_bb s t a).
(* callbacks and second critical section, Caliper.cpp:1012-1024 *)
Definition end_commit (s : rt) (t : N) (a : attr) (cur : ent * ent) : sres :=
  match snd cur with
  | None => SUB
  | Some (_, v) =>
      let s1 := fire s PreEnd t a v in
      commit s1 t a (handle_end (r_tree s1) t a cur (bb_key a) (get_bb s1 t a)) (fun s2 => SOk s2 ODone)
  end.
(* Caliper::end, Caliper.cpp:982-1024 *)
Definition rt_end (s : rt) (t : N) (a : attr) : sres :=
  if r_err s t then SOk s ODone
  else match scope_of a with
       | ScOther => SOk s ODone
       | _ => let cur := end_load s t a in
              match snd cur with
              | None => SOk (set_err s t) OError
              | Some _ => end_commit s t a cur
              end
       end.
(* Caliper::end_with_value_check, Caliper.cpp:1026-1069 *)
Definition rt_end_check (s : rt) (t : N) (a : attr) (v : value) : sres :=
  if r_err s t then SOk s ODone
  else match scope_of a with
       | ScOther => SOk s ODone
       | _ => let cur := end_load s t a in
              match snd cur with
              | None => SOk (set_err s t) OError
              | Some (_, w) => if veqb v w then end_commit s t a cur else SOk (set_err s t) OError
              end
       end.
(* Caliper::set, Caliper.cpp:1071-1097 *)
Definition rt_set (s : rt) (t : N) (a : attr) (v : value) : sres :=
  if r_err s t then SOk s ODone
  else
    let s1 := fire s PreSet t a v in
    match scope_of a with
    | ScOther => SOk s1 ODone
    | _ => commit s1 t a (handle_set (r_tree s1) t a v (get_bb s1 t a)) (fun s2 => SOk s2 ODone)
    end.
(* Caliper::get, Caliper.cpp:1175-1192; the value of the returned entry, None if empty *)
Definition rt_get (s : rt) (t : N) (a : attr) : option value :=
  match scope_of a with
  | ScOther => None
  | _ => option_map snd (ent_get (r_tree s) (bget (get_bb s t a) (bb_key a)) (at_id a))
  end.
(* activate_channel / deactivate_channel, Caliper.cpp:1411-1430 *)
Definition rt_activate (s : rt) (c : N) : rt :=
  mkrt (r_tree s) (r_tbb s) (r_pbb s) (r_err s)
       (if existsb (N.eqb c) (r_act s) then r_act s else r_act s ++ [c]) (r_log s).
Fixpoint remove1 (c : N) (l : list N) : list N :=
  match l with [] => [] | x :: r => if x =? c then r else x :: remove1 c r end.
Definition rt_deactivate (s : rt) (c : N) : rt :=
  mkrt (r_tree s) (r_tbb s) (r_pbb s) (r_err s) (remove1 c (r_act s)) (r_log s).

(* blackboard part of pull_snapshot / push_snapshot, Caliper.cpp:844-871: the visible entries of
   the thread blackboard, then those of the process blackboard (the per-thread cache of the
   latter is C23) *)
Definition bb_visible (m : bb) : list (N * value) :=
  map (fun x => fst (snd x)) (filter (fun x => snd (snd x)) m).
Definition rt_snapshot (s : rt) (t : N) : list (list (N * value)) :=
  map (fun e => ent_view (r_tree s) (Some e)) (bb_visible (r_tbb s t) ++ bb_visible (r_pbb s)).

Inductive rop :=
| OBegin (a : attr) (v : value) | OEnd (a : attr) | OEndCheck (a : attr) (v : value)
| OSet (a : attr) (v : value) | OGet (a : attr) | OActivate (c : N) | ODeactivate (c : N)
| OTree (o : top).   (* any other use of the tree: attribute creation, make_record, ... *)

Definition rt_step (s : rt) (t : N) (o : rop) : sres :=
  match o with
  | OBegin a v => rt_begin s t a v
  | OEnd a => rt_end s t a
  | OEndCheck a v => rt_end_check s t a v
  | OSet a v => rt_set s t a v
  | OGet a => SOk s (OVal (rt_get s t a))
  | OActivate c => SOk (rt_activate s c) ODone
  | ODeactivate c => SOk (rt_deactivate s c) ODone
  | OTree o => match tstep (r_tree s) t o with
               | Some (_, tr) => SOk (mkrt tr (r_tbb s) (r_pbb s) (r_err s) (r_act s) (r_log s)) ODone
               | None => SUB
               end
  end.

Definition rt_init (tr : tree) : rt := mkrt tr (fun _ => []) [] (fun _ => false) [] [].
