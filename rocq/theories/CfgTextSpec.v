(* Specification of config strings, independent of ConfigManager's parser: their text and their meaning *)
From Coq Require Import Strings.Ascii Strings.String.
From Verif Require Import Base TextModel ParseModel ParseSpec RConfigModel CfgModel CfgMgrModel.
Open Scope N_scope.

(* ---------- the text ---------- *)
(* A token is a word, a character or text in parentheses.  Words end at white space or at one of their delimiters;
   quotes and backslashes make other characters part of them (ParseSpec.spells). *)
Inductive ctok :=
| CName (w : bytes)            (* a name or value, delimited by , = ( ) *)
| CFile (w : bytes)            (* a file name, delimited by , ( ) *)
| CChar (c : N)
| CNest (t : bytes).           (* (t), in which parentheses are balanced *)
Definition cdelims (k : ctok) : bytes := match k with CFile _ => bs ",()" | _ => bs ",=()" end.
Definition word_of (k : ctok) (w : bytes) : Prop := match k with CName v | CFile v => w = v | _ => False end.
(* the text t has the given tokens, then follows the text tail; white space may stand before every token and
   before the tail *)
Inductive ctext (tail : bytes) : list ctok -> bytes -> Prop :=
| ct_end sp : spaces sp -> ctext tail [] (sp ++ tail)
| ct_word k w r sp i t : spaces sp -> word_of k w -> i <> [] -> spells (cdelims k) i w -> stops (cdelims k) t -> ctext tail r t -> ctext tail (k :: r) (sp ++ i ++ t)
| ct_char c r sp t : spaces sp -> isspace c = false -> ctext tail r t -> ctext tail (CChar c :: r) (sp ++ c :: t)
| ct_nest u r sp t : spaces sp -> balanced 40 41 u -> ctext tail r t -> ctext tail (CNest u :: r) (sp ++ 40 :: u ++ 41 :: t).

(* ---------- items ---------- *)
Inductive cvalue := VNone | VEq (w : bytes) | VNest (t : bytes).                  (* nothing, =w, (t) *)
Definition vtext (v : cvalue) : bytes := match v with VNone => [] | VEq w => w | VNest t => t end.
(* a parameter without a value, or with an empty one, is true *)
Definition vvalue (v : cvalue) : bytes := match vtext v with [] => bs "true" | t => t end.
Inductive citem :=
| IConfig (n : bytes) (args : option (list (bytes * cvalue)))                     (* name  or  name(option, option=value, ...) *)
| IParam (n : bytes) (v : cvalue)                                                 (* parameter, parameter=value, parameter(value) *)
| ILoad (files : list bytes).                                                     (* load(file, ...) *)
Definition ccommas {A} (f : A -> list ctok) (l : list A) : list ctok := match l with [] => [] | x :: r => f x ++ flat_map (fun y => CChar 44 :: f y) r end.
Definition vtokens (v : cvalue) : list ctok := match v with VNone => [] | VEq w => [CChar 61; CName w] | VNest t => [CNest t] end.
Definition arg_tokens (p : bytes * cvalue) : list ctok := CName (fst p) :: vtokens (snd p).
Definition item_tokens (i : citem) : list ctok :=
  match i with
  | IConfig n None => [CName n]
  | IConfig n (Some l) => CName n :: CChar 40 :: ccommas arg_tokens l ++ [CChar 41]
  | IParam n v => CName n :: vtokens v
  | ILoad l => CName (bs "load") :: CChar 40 :: ccommas (fun f => [CFile f]) l ++ [CChar 41]
  end.

(* ---------- the items that are allowed ---------- *)
Definition value_ok (v : cvalue) : Prop := match v with VEq w => w <> [] | _ => True end.
(* an option of the config: its own, or one of the global options in one of the config's categories *)
Definition option_of (m : mgr) (cs : cspec) (k : bytes) : Prop :=
  (exists o, lookup (cs_opts cs) k = Some o) \/ (exists o, lookup (m_gopts m) k = Some o /\ In (op_cat o) (cs_cats cs)).
Definition args_fit (m : mgr) (cs : cspec) (l : list (bytes * cvalue)) : Prop :=
  forall k v, In (k, v) l -> k <> [] /\ value_ok v /\ (k = bs "metadata" \/ option_of m cs k).
Definition item_fits (m : mgr) (i : citem) : Prop :=
  match i with
  | IConfig n args => n <> bs "load" /\ exists cs, lookup (m_spec m) n = Some cs /\ match args with Some l => args_fit m cs l | None => True end
  | IParam n v => n <> bs "load" /\ lookup (m_spec m) n = None /\ value_ok v
  | ILoad _ => False
  end.

(* ---------- their meaning ---------- *)
(* an option of some config, or a global one *)
Definition option_name (m : mgr) (k : bytes) : Prop :=
  (exists o, lookup (m_gopts m) k = Some o) \/ (exists n cs o, In (n, cs) (m_spec m) /\ lookup (cs_opts cs) k = Some o).
Definition item_args (a : option (list (bytes * cvalue))) : arglist := match a with Some l => map (fun p => (fst p, vvalue (snd p))) l | None => [] end.
Definition configs_of (m : mgr) (items : list citem) : list (cspec * arglist) :=
  flat_map (fun i => match i with IConfig n a => match lookup (m_spec m) n with Some cs => [(cs, item_args a)] | None => [] end | _ => [] end) items.
(* what a parameter becomes: a default for the configs, or a variable that is not known to Caliper *)
Inductive param := PDefault (p : bytes * bytes) | PExtra (p : bytes * bytes).
Inductive params (m : mgr) : list citem -> list param -> Prop :=
| ps_nil : params m [] []
| ps_config n a r l : params m r l -> params m (IConfig n a :: r) l
| ps_meta v r l : params m r l -> params m (IParam (bs "metadata") v :: r) (PDefault (bs "metadata", vtext v) :: l)
| ps_option n v r l : n <> bs "metadata" -> option_name m n -> params m r l -> params m (IParam n v :: r) (PDefault (n, vvalue v) :: l)
| ps_extra n v r l : n <> bs "metadata" -> ~ option_name m n -> params m r l -> params m (IParam n v :: r) (PExtra (n, vtext v) :: l).
Definition defaults_of (l : list param) : arglist := flat_map (fun p => match p with PDefault x => [x] | PExtra _ => [] end) l.
Definition extras_of (l : list param) : list (bytes * bytes) := flat_map (fun p => match p with PExtra x => [x] | PDefault _ => [] end) l.

(* ---------- in general, with files to load: the items one after the other ---------- *)
Section RUN.
Variable load : bytes -> mgr -> mgr.       (* reading a file *)
Inductive irun : mgr -> list citem -> mgr -> list (cspec * arglist) -> Prop :=
| ir_nil m : irun m [] m []
| ir_config m n a cs r m' l : n <> bs "load" -> lookup (m_spec m) n = Some cs -> match a with Some x => args_fit m cs x | None => True end ->
    irun m r m' l -> irun m (IConfig n a :: r) m' ((cs, item_args a) :: l)
| ir_param m n v p r m' l : n <> bs "load" -> lookup (m_spec m) n = None -> value_ok v -> params m [IParam n v] [p] ->
    irun (match p with PDefault x => add_default m x | PExtra x => add_extra m x end) r m' l -> irun m (IParam n v :: r) m' l
| ir_load m fs r m' l : fs <> [] -> ~ In [] fs -> m_err (fold_left (fun m f => load f m) fs m) = false ->
    irun (fold_left (fun m f => load f m) fs m) r m' l -> irun m (ILoad fs :: r) m' l.
End RUN.
