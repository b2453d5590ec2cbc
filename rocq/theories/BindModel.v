(* Model of the base class for annotation bindings, src/caliper/AnnotationBinding.{h,cpp}, which the nvtx,
   roctx, vtune and similar services are built on: which attributes are bound, and which on_mark_attribute,
   on_begin and on_end calls the tool's binding gets while a program annotates its code.
   The binding sees the callbacks that RuntimeModel records for its channel.
   Simplified: the bytes of a value that the region filter looks at are given by the parameter dat;
   the marker nodes below the attribute nodes (has_marker, 53-62) are a list of attribute ids. *)
From Verif Require Import Base VariantModel VariantSpec TreeModel RFilterModel RuntimeModel EventModel.
Open Scope N_scope.

Definition P_NESTED : N := 256.   (* CALI_ATTR_NESTED, cali_types.h:101 *)
(* trigger_attributes, the filter, the channel *)
Record bcfg := mkbc { bc_chn : N; bc_triggers : list bytes; bc_filter : option region_filter }.
(* calls of the virtual functions: on_mark_attribute, on_begin, on_end; with the calling thread *)
Inductive bcall := CMark (a : N) | CBegin (t a : N) (v : value) | CEnd (t a : N) (v : value).
Record bst := mkbst { b_marks : list N; b_calls : list bcall }.
(* base_pre_initialize, AnnotationBinding.cpp:141-155 *)
Definition bind_filter (rx_ok : bytes -> bool) (incl excl : bytes) : option region_filter :=
  match from_config rx_ok incl excl with
  | (_, Some _) => None
  | (rf, None) => if has_filters rf then Some rf else None
  end.
Section Bind.
Variable rx : bytes -> bytes -> bool.   (* std::regex_match *)
Variable dat : value -> bytes.          (* the data of a value *)
Variable c : bcfg.

(* mark_attribute, 79-92 *)
Definition mark (s : bst) (a : eattr) : bst :=
  mkbst (if existsb (N.eqb (ea_id a)) (b_marks s) then b_marks s else ea_id a :: b_marks s) (b_calls s ++ [CMark (ea_id a)]).
(* check_attribute, 94-112 *)
Definition bcheck (s : bst) (a : eattr) : bst :=
  if has_flag (ea_prop a) P_SKIP_EVENTS then s
  else match bc_triggers c with
       | [] => if has_flag (ea_prop a) P_NESTED then mark s a else s
       | l => if existsb (eqb_bytes (ea_name a)) l then mark s a else s
       end.
(* base_post_initialize, 168-177 *)
Definition binit (attrs : list eattr) : bst :=
  fold_left (fun s a => if negb (has_flag (ea_prop a) P_SKIP_EVENTS) && negb (ea_sub a) then bcheck s a else s) attrs (mkbst [] []).
Definition passes (v : value) : bool := match bc_filter c with Some rf => pass rx rf (dat v) | None => true end.
(* begin_cb, end_cb, 114-132, connected in make_binding, AnnotationBinding.h:161-170 *)
Definition on_ev (s : bst) (e : ev) : bst :=
  if negb (ev_chn e =? bc_chn c) then s
  else if negb (existsb (N.eqb (ev_attr e)) (b_marks s)) then s
  else if negb (passes (ev_val e)) then s
  else match ev_kind e with
       | PreBegin => mkbst (b_marks s) (b_calls s ++ [CBegin (ev_thr e) (ev_attr e) (ev_val e)])
       | PreEnd => mkbst (b_marks s) (b_calls s ++ [CEnd (ev_thr e) (ev_attr e) (ev_val e)])
       | _ => s
       end.
(* what happens: an API call; an attribute has been created (create_attr_evt, AnnotationBinding.h:153-156);
   a service subscribes to an attribute (157-159) *)
Inductive bop := XApi (t : N) (o : rop) | XCreate (a : eattr) | XSubscribe (a : eattr).
Definition bstep (p : rt * bst) (x : bop) : option (rt * bst) :=
  match x with
  | XApi t o =>
      match rt_step (fst p) t o with
      | SOk s _ => Some (s, fold_left on_ev (skipn (length (r_log (fst p))) (r_log s)) (snd p))
      | _ => None
      end
  | XCreate a => Some (fst p, if ea_sub a then snd p else bcheck (snd p) a)
  | XSubscribe a => Some (fst p, bcheck (snd p) a)
  end.
Fixpoint brun (p : rt * bst) (l : list bop) : option (rt * bst) :=
  match l with [] => Some p | x :: r => match bstep p x with Some q => brun q r | None => None end end.
End Bind.
