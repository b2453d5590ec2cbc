(* Specification vocabulary for the context tree: paths and histories. *)
From Verif Require Import Base VariantModel VariantSpec TreeModel.

(* the path (list of attribute/value pairs, outermost first) of a node *)
Inductive has_path (s : tree) : N -> list (N * value) -> Prop :=
| hp_root : has_path s ROOT []
| hp_node n p l : In n (t_nodes s) -> n_par n = Some p -> has_path s p l ->
    has_path s (n_id n) (l ++ [(n_attr n, n_val n)]).

(* remove the innermost (last) entry of attribute a *)
Fixpoint rm_first (a : N) (l : list (N * value)) : list (N * value) :=
  match l with [] => [] | x :: r => if fst x =? a then r else x :: rm_first a r end.
Definition rm_innermost (a : N) (l : list (N * value)) : list (N * value) := rev (rm_first a (rev l)).
Definition rm_all (a : N) (l : list (N * value)) : list (N * value) := filter (fun x => negb (fst x =? a)) l.

(* pointer arguments must be null or nodes of the tree; attribute ids are not CALI_INV_ID *)
Definition ptr_ok (s : tree) (p : option N) : Prop := forall i, p = Some i -> exists n, In n (t_nodes s) /\ n_id n = i.
Definition op_ok (s : tree) (o : top) : Prop :=
  match o with
  | TGetChild a v p => a <> INV_ID /\ ptr_ok s p
  | TGetPath a vs p => a <> INV_ID /\ ptr_ok s p
  | TGetPathNodes l p => Forall (ptr_ok s) l /\ Forall (fun x => x <> Some ROOT) l /\ ptr_ok s p
  | TRemoveFirst p a => a <> INV_ID /\ ptr_ok s p
  | TReplaceFirst p a v => a <> INV_ID /\ ptr_ok s p
  | TReplaceAll p a vs => a <> INV_ID /\ ptr_ok s p
  | TRawCreate a v p => a <> INV_ID /\ ptr_ok s (Some p)
  | TLostBlock => True
  end.
(* at most a block's worth of new values in one path request *)
Definition op_small (s : tree) (o : top) : Prop :=
  match o with
  | TGetPath _ vs _ | TReplaceAll _ _ vs => N.of_nat (length vs) <= t_npb s
  | _ => True
  end.
Definition race_free (o : top) : Prop := match o with TRawCreate _ _ _ => False | _ => True end.

(* histories: every state a set of threads can bring the tree into.
   races = false: no two threads search and create the same child concurrently *)
Inductive steps (races : bool) : tree -> tree -> Prop :=
| st_refl s : steps races s s
| st_step s t o r s1 s2 : op_ok s o -> op_small s o -> (races = false -> race_free o) ->
    tstep s t o = Some (r, s1) -> steps races s1 s2 -> steps races s s2.

Definition cfg_ok (cfg_npb cfg_nblk : N) : Prop := 12 <= cfg_npb /\ 1 <= cfg_nblk < 4294967296.
Definition reach (races : bool) (s : tree) : Prop :=
  exists npb nblk t0 s0, cfg_ok npb nblk /\ tree_init npb nblk t0 = Some s0 /\ steps races s0 s.

(* not all node blocks have been handed out *)
Definition not_full (s : tree) : Prop := t_next s < t_nblk s.
