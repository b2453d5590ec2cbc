(* Specification of the options of a query command line *)
From Coq Require Import Strings.Ascii Strings.String.
From Verif Require Import Base TextModel ParseModel ParseSpec RConfigModel FilterModel QueryModel QuerySpec.
Open Scope N_scope.

(* ---------- the texts of option values ---------- *)
(* names separated by commas *)
Definition names_text (l : list bytes) (t : bytes) : Prop := l <> [] /\ Forall (fun n => n <> [] /\ ~ In 44 n) l /\ t = joinc [44] l.
(* [-]attribute[=value], separated by commas *)
Definition sel_text (c : condition) : bytes :=
  (if cn_not c then bs "-" else []) ++ cn_attr c ++ match cn_test c with Equals v => bs "=" ++ v | _ => [] end.
Definition sel_ok (c : condition) : Prop :=
  cn_attr c <> [] /\ (forall x, In x (cn_attr c) -> x <> 44 /\ x <> 60 /\ x <> 61 /\ x <> 62) /\ (cn_not c = false -> hd 0 (cn_attr c) <> 45) /\
  match cn_test c with Exists => True | Equals v => v <> [] /\ ~ In 44 v | _ => False end.
Definition select_text (l : list condition) (t : bytes) : Prop := l <> [] /\ Forall sel_ok l /\ t = joinc [44] (map sel_text l).
(* function calls separated by commas: words delimited by , ( ) and white space *)
Inductive ctok := CW (w : bytes) | CC (c : N).
Inductive ctext : list ctok -> bytes -> Prop :=
| ct_end sp : spaces sp -> ctext [] sp
| ct_word w r sp i t : spaces sp -> i <> [] -> spells (bs ",()") i w -> stops (bs ",()") t -> ctext r t -> ctext (CW w :: r) (sp ++ i ++ t)
| ct_char c r sp t : spaces sp -> ctext r t -> ctext (CC c :: r) (sp ++ c :: t).
Definition ccommas {A} (f : A -> list ctok) (l : list A) : list ctok :=
  match l with [] => [] | x :: r => f x ++ flat_map (fun y => CC 44 :: f y) r end.
Definition ccall (c : fcall) : list ctok :=
  CW (fst c) :: match snd c with Some l => CC 40 :: ccommas (fun a => [CW a]) l ++ [CC 41] | None => [] end.
Definition calls_text (l : list fcall) (t : bytes) : Prop :=
  l <> [] /\ Forall (fun c => exists id col, agg_call c id col) l /\ ctext (ccommas ccall l) t.

(* ---------- options ---------- *)
Inductive opt_is {A} (text : A -> bytes -> Prop) : option bytes -> option A -> Prop :=
| oi_none : opt_is text None None
| oi_some x t : text x t -> opt_is text (Some t) (Some x).
Definition aggr_text (l : list fcall) (t : bytes) : Prop := (l = [] /\ t = []) \/ calls_text l t.
Inductive keyopt := KNone | KList (l : list bytes).
Definition key_text (k : keyopt) (t : bytes) : Prop := match k with KNone => t = bs "none" | KList l => names_text l t /\ t <> bs "none" end.
Record copts := mkco { co_where : option (list condition); co_attrs : option (list bytes); co_aggr : option (list fcall); co_key : option keyopt; co_sort : option (list bytes) }.
(* the option values o spell the options c *)
Definition options_are (o : bytes -> option bytes) (c : copts) : Prop :=
  opt_is select_text (o (bs "select")) (co_where c) /\ opt_is names_text (o (bs "attributes")) (co_attrs c) /\
  opt_is aggr_text (o (bs "aggregate")) (co_aggr c) /\ opt_is key_text (o (bs "aggregate-key")) (co_key c) /\
  opt_is names_text (o (bs "sort")) (co_sort c).

(* ---------- their meaning: q is q0 changed by the options ---------- *)
Definition kw_get (kw : list (bytes * bytes)) (k : bytes) : option bytes := option_map snd (find (fun x => beq (fst x) k) (rev kw)).
Definition kw_of (q : query) : list (bytes * bytes) := match q_fmt q with Some (_, kw) => kw | None => [] end.
Definition is_given (o : bytes -> option bytes) (n : bytes) : Prop := o n <> None.
(* the formatter: the first one in the list of formatters that is an option; its arguments are the options with
   their names, and the arguments of the query *)
Definition format_means (o : bytes -> option bytes) (q0 q : query) : Prop :=
  ((forall x, In x formatters -> ~ is_given o (bs (fst (fst (fst x))))) /\ q_fmt q = q_fmt q0) \/
  (exists pre post name id lo names d kw, formatters = pre ++ (name, id, lo, names) :: post /\
     (forall x, In x pre -> ~ is_given o (bs (fst (fst (fst x))))) /\ is_given o (bs name) /\
     q_fmt q = Some (d, kw) /\ f_id d = id /\ f_name d = bs name /\
     forall k, kw_get kw k = match (if in_dec (list_eq_dec N.eq_dec) k (map bs names) then o k else None) with Some v => Some v | None => kw_get (kw_of q0) k end).
Definition options_mean (o : bytes -> option bytes) (c : copts) (q0 q : query) : Prop :=
  (* --select replaces the conditions *)
  match co_where c with Some l => Forall2 cond_is l (q_flt q) /\ q_fsel q = SelList | None => q_flt q = q_flt q0 /\ q_fsel q = q_fsel q0 end /\
  (* --print-attributes adds columns *)
  match co_attrs c with Some l => q_sel q = q_sel q0 ++ l /\ q_ssel q = SelList | None => q_sel q = q_sel q0 /\ q_ssel q = q_ssel q0 end /\
  q_spath q = q_spath q0 /\
  (* --aggregate adds aggregations, the default one without a list; --aggregate-key adds key attributes *)
  match co_aggr c with
  | Some l =>
      (exists ops, q_agg q = q_agg q0 ++ ops /\ Forall2 (fun c o => exists id col, agg_call c id col /\ op_is o id c) l ops) /\
      q_asel q = match l with [] => SelDefault | _ => SelList end /\
      match co_key c with
      | None => q_gsel q = SelDefault /\ q_grp q = q_grp q0 /\ q_gpath q = q_gpath q0
      | Some KNone => q_gsel q = SelNone /\ path_taken (q_grp q0) (q_grp q) (q_gpath q)
      | Some (KList k) => q_gsel q = SelList /\ path_taken (q_grp q0 ++ k) (q_grp q) (q_gpath q)
      end
  | None => q_agg q = q_agg q0 /\ q_asel q = q_asel q0 /\ q_gsel q = q_gsel q0 /\ q_grp q = q_grp q0 /\ q_gpath q = q_gpath q0
  end /\
  (* --sort-by adds ascending sort attributes *)
  match co_sort c with Some l => q_ord q = q_ord q0 ++ map (fun a => (a, true)) l /\ q_osel q = SelList | None => q_ord q = q_ord q0 /\ q_osel q = q_osel q0 end /\
  format_means o q0 q /\
  q_alias q = q_alias q0 /\ q_unit q = q_unit q0 /\ q_pre q = q_pre q0.
