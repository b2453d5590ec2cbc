(* Model of SplayTree<T, Cmp>, src/services/alloc/SplayTree.hpp, at the level of its pointers: nodes
   live in a heap, null is None, every access to a node that does not exist (null or deleted) makes the
   whole operation fail with None.  `new` takes the next unused address (allocation failure is not
   modelled).  Loops and recursions have fuel (one unit per live address ever used plus one); running
   out of it is also None.  The theorems show that None never happens. *)
From Verif Require Import Base.
Open Scope nat_scope.

Inductive hand := LEFT | NA | RIGHT.
Definition hand_eqb (a b : hand) : bool :=
  match a, b with LEFT, LEFT => true | NA, NA => true | RIGHT, RIGHT => true | _, _ => false end.
Section Splay.
Context {V : Type}.
(* STNode, SplayTree.hpp:14-23 *)
Record snode := mksn { sn_par : option nat; sn_left : option nat; sn_right : option nat; sn_val : V; sn_hand : hand }.
Definition heap := nat -> option snode.
(* the tree: heap, next address, m_root *)
Record stree := mkst { st_heap : heap; st_next : nat; st_root : option nat }.
Definition st_init : stree := mkst (fun _ => None) 0 None.

Definition hupd (h : heap) (i : nat) (n : option snode) : heap := fun j => if j =? i then n else h j.
(* writes to one field; the node must exist *)
Definition wr (h : heap) (i : nat) (f : snode -> snode) : option heap :=
  match h i with Some n => Some (hupd h i (Some (f n))) | None => None end.
Definition set_par (p : option nat) (n : snode) := mksn p (sn_left n) (sn_right n) (sn_val n) (sn_hand n).
Definition set_left (p : option nat) (n : snode) := mksn (sn_par n) p (sn_right n) (sn_val n) (sn_hand n).
Definition set_right (p : option nat) (n : snode) := mksn (sn_par n) (sn_left n) p (sn_val n) (sn_hand n).
Definition set_val (v : V) (n : snode) := mksn (sn_par n) (sn_left n) (sn_right n) v (sn_hand n).
Definition set_hand (d : hand) (n : snode) := mksn (sn_par n) (sn_left n) (sn_right n) (sn_val n) d.
Definition bind {A B} (x : option A) (f : A -> option B) : option B := match x with Some a => f a | None => None end.
Notation "x <- a ;; b" := (bind a (fun x => b)) (at level 61, a at next level, right associativity).
Definition opt_wr (h : heap) (i : option nat) (f : snode -> snode) : option heap :=
  match i with Some j => wr h j f | None => Some h end.

(* rotate_left, SplayTree.hpp:69-88 *)
Definition rotate_left (h : heap) (i : nat) : option heap :=
  n <- h i ;;
  p <- sn_par n ;;
  h1 <- opt_wr h (sn_left n) (fun x => set_hand RIGHT (set_par (Some p) x)) ;;
  np <- h1 p ;;
  let npp := sn_par np in let np_hand := sn_hand np in
  n1 <- h1 i ;;
  h2 <- wr h1 p (fun x => set_right (sn_left n1) (set_hand LEFT (set_par (Some i) x))) ;;
  h3 <- wr h2 i (set_left (Some p)) ;;
  wr h3 i (fun x => set_hand (match npp with Some _ => np_hand | None => NA end) (set_par npp x)).
(* rotate_right, SplayTree.hpp:90-109 *)
Definition rotate_right (h : heap) (i : nat) : option heap :=
  n <- h i ;;
  p <- sn_par n ;;
  h1 <- opt_wr h (sn_right n) (fun x => set_hand LEFT (set_par (Some p) x)) ;;
  np <- h1 p ;;
  let npp := sn_par np in let np_hand := sn_hand np in
  n1 <- h1 i ;;
  h2 <- wr h1 p (fun x => set_left (sn_right n1) (set_hand RIGHT (set_par (Some i) x))) ;;
  h3 <- wr h2 i (set_right (Some p)) ;;
  wr h3 i (fun x => set_hand (match npp with Some _ => np_hand | None => NA end) (set_par npp x)).

(* splay, SplayTree.hpp:111-146; returns the heap, the caller sets m_root := node *)
Fixpoint splay (fuel : nat) (h : heap) (i : nat) : option heap :=
  match fuel with
  | O => None
  | S k =>
      n <- h i ;;
      match sn_par n with
      | None => Some h
      | Some p =>
          np <- h p ;;
          match sn_par np with
          | None =>
              match sn_hand n with
              | RIGHT => h1 <- rotate_left h i ;; splay k h1 i
              | LEFT => h1 <- rotate_right h i ;; splay k h1 i
              | NA => splay k h i
              end
          | Some _ =>
              match sn_hand n, sn_hand np with
              | RIGHT, RIGHT => h1 <- rotate_left h i ;; h2 <- rotate_left h1 i ;; splay k h2 i
              | LEFT, LEFT => h1 <- rotate_right h i ;; h2 <- rotate_right h1 i ;; splay k h2 i
              | RIGHT, LEFT => h1 <- rotate_left h i ;; h2 <- rotate_right h1 i ;; splay k h2 i
              | LEFT, RIGHT => h1 <- rotate_right h i ;; h2 <- rotate_left h1 i ;; splay k h2 i
              | _, _ => splay k h i
              end
          end
      end
  end.

(* STNode::insert, SplayTree.hpp:25-46; nx: address of a new node.  Returns the heap, the node and
   whether a node was created *)
Fixpoint node_insert (fuel : nat) (cmp : V -> V -> Z) (h : heap) (nx : nat) (i : nat) (v : V) : option (heap * nat * bool) :=
  match fuel with
  | O => None
  | S k =>
      n <- h i ;;
      if (cmp v (sn_val n) <? 0)%Z then
        match sn_left n with
        | Some l => node_insert k cmp h nx l v
        | None => h1 <- wr (hupd h nx (Some (mksn (Some i) None None v LEFT))) i (set_left (Some nx)) ;; Some (h1, nx, true)
        end
      else if (cmp v (sn_val n) >? 0)%Z then
        match sn_right n with
        | Some r => node_insert k cmp h nx r v
        | None => h1 <- wr (hupd h nx (Some (mksn (Some i) None None v RIGHT))) i (set_right (Some nx)) ;; Some (h1, nx, true)
        end
      else h1 <- wr h i (set_val v) ;; Some (h1, i, false)
  end.
(* STNode::find, SplayTree.hpp:48-59: Some None = nullptr *)
Fixpoint node_find (fuel : nat) (h : heap) (p : V -> Z) (i : nat) : option (option nat) :=
  match fuel with
  | O => None
  | S k =>
      n <- h i ;;
      let res := p (sn_val n) in
      if (res <? 0)%Z then match sn_left n with Some l => node_find k h p l | None => Some None end
      else if (res >? 0)%Z then match sn_right n with Some r => node_find k h p r | None => Some None end
      else Some (Some i)
  end.
(* STNode::findMax, SplayTree.hpp:61-66 *)
Fixpoint find_max (fuel : nat) (h : heap) (i : nat) : option nat :=
  match fuel with
  | O => None
  | S k => n <- h i ;; match sn_right n with Some r => find_max k h r | None => Some i end
  end.

Definition st_fuel (s : stree) : nat := S (S (st_next s)).
(* insert, SplayTree.hpp:156-164 *)
Definition insert (cmp : V -> V -> Z) (s : stree) (v : V) : option stree :=
  match st_root s with
  | None => Some (mkst (hupd (st_heap s) (st_next s) (Some (mksn None None None v NA))) (S (st_next s)) (Some (st_next s)))
  | Some r =>
      x <- node_insert (st_fuel s) cmp (st_heap s) (st_next s) r v ;;
      let '(h1, i, fresh) := x in
      h2 <- splay (st_fuel s) h1 i ;;
      Some (mkst h2 (if fresh then S (st_next s) else st_next s) (Some i))
  end.
(* find, SplayTree.hpp:195-204: the node found, None for a null tree *)
Definition find (s : stree) (p : V -> Z) : option (option nat) :=
  match st_root s with None => Some None | Some r => node_find (st_fuel s) (st_heap s) p r end.
(* operator*, SplayTree.hpp:206, on a reference to node i *)
Definition deref (s : stree) (i : nat) : option V := n <- st_heap s i ;; Some (sn_val n).
(* remove, SplayTree.hpp:166-193, of a reference (as returned by find) to node i *)
Definition remove (s : stree) (i : nat) : option stree :=
  h1 <- splay (st_fuel s) (st_heap s) i ;;
  n <- h1 i ;;
  match sn_left n with
  | Some l =>
      h2 <- wr h1 l (fun x => set_hand NA (set_par None x)) ;;
      m <- find_max (st_fuel s) h2 l ;;
      h3 <- splay (st_fuel s) h2 m ;;
      n3 <- h3 i ;;
      h4 <- wr h3 m (set_right (sn_right n3)) ;;
      m4 <- h4 m ;;
      h5 <- opt_wr h4 (sn_right m4) (set_par (Some m)) ;;
      Some (mkst (hupd h5 i None) (st_next s) (Some m))
  | None =>
      match sn_right n with
      | Some r =>
          h2 <- wr h1 r (fun x => set_hand NA (set_par None x)) ;;
          Some (mkst (hupd h2 i None) (st_next s) (Some r))
      | None => Some (mkst (hupd h1 i None) (st_next s) None)
      end
  end.
End Splay.
Arguments snode : clear implicits.
Arguments heap : clear implicits.
Arguments stree : clear implicits.
