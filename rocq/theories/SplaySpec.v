(* Specification of the allocation tracker's tree: a set of elements with distinct keys. *)
From Verif Require Import Base SplayModel.

Section Spec.
Context {V : Type}.
(* Cmp is a three-way comparison: a strict weak order *)
Record cmp_ok (cmp : V -> V -> Z) : Prop := mkcmp {
  cmp_anti : forall a b, (cmp a b < 0 <-> 0 < cmp b a)%Z;
  cmp_trans : forall a b c, (cmp a b < 0 -> cmp b c < 0 -> cmp a c < 0)%Z;
  cmp_refl : forall a, cmp a a = 0%Z;
  cmp_eq : forall a b c, (cmp a b = 0 -> cmp b c < 0 -> cmp a c < 0)%Z
}.
(* a three-way predicate that is consistent with the order: elements before a match (or before an element
   that is too small) answer "look right", elements after one answer "look left" *)
Definition pred_ok_on (D : V -> Prop) (cmp : V -> V -> Z) (p : V -> Z) : Prop :=
  forall a b, D a -> D b -> (cmp a b < 0)%Z -> (p b >= 0 -> p a > 0)%Z /\ (p a <= 0 -> p b < 0)%Z.
Definition pred_ok := pred_ok_on (fun _ => True).

(* operations as a client does them: insert; look up; look up and remove what was found *)
Inductive sop := SIns (v : V) | SFind (p : V -> Z) | SDel (p : V -> Z).
Definition sstep (cmp : V -> V -> Z) (s : stree V) (o : sop) : option (option V * stree V) :=
  match o with
  | SIns v => match insert cmp s v with Some s' => Some (None, s') | None => None end
  | SFind p => match find s p with
               | Some (Some i) => match deref s i with Some v => Some (Some v, s) | None => None end
               | Some None => Some (None, s)
               | None => None
               end
  | SDel p => match find s p with
              | Some (Some i) => match deref s i, remove s i with Some v, Some s' => Some (Some v, s') | _, _ => None end
              | Some None => Some (None, s)
              | None => None
              end
  end.
Fixpoint srun (cmp : V -> V -> Z) (s : stree V) (l : list sop) : option (list (option V) * stree V) :=
  match l with
  | [] => Some ([], s)
  | o :: r => match sstep cmp s o with
              | Some (v, s1) => match srun cmp s1 r with Some (vs, s2) => Some (v :: vs, s2) | None => None end
              | None => None
              end
  end.
(* what the client expects: S is the list of stored elements *)
Definition without (cmp : V -> V -> Z) (v : V) (S : list V) : list V := filter (fun w => negb (cmp v w =? 0)%Z) S.
Inductive seff (cmp : V -> V -> Z) : list V -> sop -> option V -> list V -> Prop :=
| eff_ins : forall S v, seff cmp S (SIns v) None (v :: without cmp v S)
| eff_find : forall S p v, In v S -> p v = 0%Z -> seff cmp S (SFind p) (Some v) S
| eff_find_none : forall S p, (forall v, In v S -> p v <> 0%Z) -> seff cmp S (SFind p) None S
| eff_del : forall S p v, In v S -> p v = 0%Z -> seff cmp S (SDel p) (Some v) (without cmp v S)
| eff_del_none : forall S p, (forall v, In v S -> p v <> 0%Z) -> seff cmp S (SDel p) None S.
Inductive effs (cmp : V -> V -> Z) : list V -> list sop -> list (option V) -> list V -> Prop :=
| effs_nil : forall S, effs cmp S [] [] S
| effs_cons : forall S S1 S2 o v l vs, seff cmp S o v S1 -> effs cmp S1 l vs S2 -> effs cmp S (o :: l) (v :: vs) S2.
Definition op_ok_on (D : V -> Prop) (cmp : V -> V -> Z) (o : sop) : Prop :=
  match o with SIns _ => True | SFind p => pred_ok_on D cmp p | SDel p => pred_ok_on D cmp p end.
Definition op_ok := op_ok_on (fun _ => True).
(* the elements in the memory of the tree *)
Definition held (s : stree V) (v : V) : Prop := exists i n, st_heap s i = Some n /\ sn_val n = v.
End Spec.
Arguments sop : clear implicits.
