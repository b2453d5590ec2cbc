(* What importing Adiak metadata should do *)
From Verif Require Import Base VariantModel VariantSpec TextModel AdiakModel.

(* the number an Adiak value stands for, and the number of a Caliper value *)
Definition number_of (v : aval) : option Z :=
  match v with
  | ALong z | AInt z | ALongLong z | ADate z => Some z
  | AULong n | AUInt n | AULongLong n => Some (Z.of_N n)
  | _ => None
  end.
Definition value_number (v : value) : option Z := match v with VInt z => Some z | VUint n => Some (Z.of_N n) | _ => None end.
(* values the types can have *)
Definition int_range (z : Z) : Prop := (-2147483648 <= z < 2147483648)%Z.
Inductive aty := TLong | TULong | TInt | TUInt | TLongLong | TULongLong | TDate | TRange (t : aty) | TSet (t : aty) | TList (t : aty) | TTuple (l : list aty).
(* v is a value of the type: integers at the leaves; the elements of sets and lists have one type *)
Fixpoint has_type (t : aty) (v : aval) {struct v} : Prop :=
  match v, t with
  | ALong z, TLong | ALongLong z, TLongLong | ADate z, TDate => s64_ok z
  | AULong n, TULong | AULongLong n, TULongLong => u64_ok n
  | AInt z, TInt => int_range z
  | AUInt n, TUInt => n < 4294967296
  | ARange a b, TRange t => has_type t a /\ has_type t b
  | ASet l, TSet t | AList l, TList t => fold_right (fun v P => has_type t v /\ P) True l
  | ATuple l, TTuple ts => (fix go l ts := match l, ts with [], [] => True | v :: l, t :: ts => has_type t v /\ go l ts | _, _ => False end) l ts
  | _, _ => False
  end.
(* the last metadata value listed for a name *)
Definition counts (nv : nameval) : bool := negb (nv_cat nv =? adiak_control)%Z && match nv_val nv with AUnset | AOther => false | _ => true end.
Definition last_for (n : bytes) (l : list nameval) : option nameval := List.find (fun nv => counts nv && beq n (nv_name nv)) (rev l).
Definition first_for (n : bytes) (l : list nameval) : option nameval := List.find (fun nv => counts nv && beq n (nv_name nv)) l.
Definition no_unset (l : list nameval) : Prop := Forall (fun nv => nv_val nv <> AUnset) l.
(* the values of the entries with a name *)
Definition vals_of (n : bytes) (l : list (bytes * value)) : list value := map snd (filter (fun p => beq n (fst p)) l).
Definition sub_or_none (sub : bytes) : bytes := match sub with [] => [110; 111; 110; 101] | _ => sub end.
(* the type of the attribute for an Adiak value *)
Definition attr_type (v : aval) : option N :=
  match v with
  | ALong _ | AInt _ | ALongLong _ => Some T_INT
  | AULong _ | AUInt _ | AULongLong _ | ADate _ => Some T_UINT
  | ADouble _ | ATimeval _ => Some T_DOUBLE
  | AStr _ | ARange _ _ | ASet _ | AList _ | ATuple _ => Some T_STRING
  | AUnset | AOther => None
  end.
