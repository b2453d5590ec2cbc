(* Model of the lock-free child list, include/caliper/common/lockfree-tree.hpp:54-95.
   Sequentially consistent interleaving of the atomic operations; the memory orders
   (release on success, relaxed otherwise) are not modelled.  A node may be appended
   once, as the class comment (lines 44-47) requires. *)
From Verif Require Import Base.

(* where the append() call for a node is: not called, in the loop of line 93, returned *)
Inductive astate := ANew | ALoop | ADone.
(* LockfreeIntrusiveTree::Node, lines 54-60, for every node address; a null pointer is None;
   lf_call: state of the append call that adds this node *)
Record lfstate := mklf { lf_parent : N -> option N; lf_next : N -> option N; lf_head : N -> option N; lf_call : N -> astate }.
Definition lf_init : lfstate := mklf (fun _ => None) (fun _ => None) (fun _ => None) (fun _ => ANew).
Definition lfupd {A} (f : N -> A) (k : N) (x : A) : N -> A := fun j => if j =? k then x else f j.
Definition oeqb (a b : option N) : bool :=
  match a, b with None, None => true | Some x, Some y => x =? y | _, _ => false end.

(* one atomic step of some thread *)
Inductive lfop :=
| LStart (m n : N)              (* append(n) on m entered: line 91 *)
| LCas (n : N) (spurious : bool). (* one iteration of line 93 of the append that adds n; the weak
                                     compare-exchange may fail spuriously *)
Definition lf_step (s : lfstate) (o : lfop) : option lfstate :=
  match o with
  | LStart m n => match lf_call s n with
      | ANew => Some (mklf (lfupd (lf_parent s) n (Some m)) (lf_next s) (lf_head s) (lfupd (lf_call s) n ALoop))
      | _ => None end
  | LCas n sp => match lf_call s n, lf_parent s n with
      | ALoop, Some m =>
          if negb sp && oeqb (lf_head s m) (lf_next s n)
          then Some (mklf (lf_parent s) (lf_next s) (lfupd (lf_head s) m (Some n)) (lfupd (lf_call s) n ADone))
          else Some (mklf (lf_parent s) (lfupd (lf_next s) n (lf_head s m)) (lf_head s) (lf_call s))
      | _, _ => None end
  end.

(* a traversal of the children of m (e.g. MetadataTree.cpp:255-258): first_child (line 83), then
   next_sibling (line 85) of the node reached *)
Definition rd_first (s : lfstate) (m : N) : option N := lf_head s m.
Definition rd_next (s : lfstate) (n : N) : option N := lf_next s n.
