(** Programs that use any number of BinarySearchTree objects. *)
From Verif Require Import Base TreeModel TreeWorld.

(** Calls on objects; From is the constructor from a range, Find and Erase
    dereference the iterator they get when it is not end().  The copy constructor
    and assignment (BinarySearchTree.hpp 42-48) do not compile when used (copy,
    BinaryTree.hpp 182-199, names members a node does not have), so there are
    none here. *)
Inductive bop (A : Type) :=
| BNew (id : nat) | BFrom (id : nat) (xs : list A) | BDestroy (id : nat) | BPush (id : nat) (x : A) | BPop (id : nat) (x : A)
| BFind (id : nat) (x : A) | BErase (id : nat) (x : A)
| BSize (id : nat) | BCapacity (id : nat) | BEmpty (id : nat) | BIter (id : nat) (o : ttype) | BClear (id : nat)
| BTraverse (id : nat) (o : ttype) | BMoveNew (id src : nat) | BMoveAssign (id src : nat).
Arguments BNew {A} id.
Arguments BFrom {A} id xs.
Arguments BDestroy {A} id.
Arguments BPush {A} id x.
Arguments BPop {A} id x.
Arguments BFind {A} id x.
Arguments BErase {A} id x.
Arguments BSize {A} id.
Arguments BCapacity {A} id.
Arguments BEmpty {A} id.
Arguments BIter {A} id o.
Arguments BClear {A} id.
Arguments BTraverse {A} id o.
Arguments BMoveNew {A} id src.
Arguments BMoveAssign {A} id src.

Section World.
Context {A : Type} (cmp : A -> A -> bool).
Notation T := (M (tst A)).
Notation W := (M (tworld A)).

(** The loop of the range constructor: BinarySearchTree.hpp 37-39. *)
Fixpoint bst_push_all (xs : list A) : T unit :=
  match xs with [] => ret tt | x :: xs => bst_push cmp x ;;; bst_push_all xs end.
(** Writing the members of another object: ds.mRootPtr_d, ds.mSize_d. *)
Definition tw_put (id : nat) (o : option nat * Z) : W unit := fun w =>
  match tw_objs w !! id with
  | None => UB
  | Some _ => Ok (tt, TW (tw_heap w) (tw_al w) (<[id := o]> (tw_objs w)))
  end.
Definition tw_get (id : nat) : W (option nat * Z) := fun w =>
  match tw_objs w !! id with None => UB | Some o => Ok (o, w) end.
(** Move assignment: common.hpp 44-47, BinarySearchTree.hpp 50-63. *)
Definition bst_move (id src : nat) : W unit :=
  tw_get src ;;;
  if Nat.eqb id src then ret tt
  else on id bt_clear ;;; o <- tw_get src ;; tw_put id o ;;; tw_put src (None, 0%Z).
(** The constructors: BinarySearchTree.hpp 33, 35-40; the move constructor,
    common.hpp 43, constructs an empty tree and move assigns. *)
Definition b_step (o : bop A) : W (tout A) :=
  match o with
  | BNew id => tw_new id ;;; ret OUnit
  | BFrom id xs => tw_new id ;;; on id (bst_push_all xs) ;;; ret OUnit
  | BDestroy id => tw_destroy id ;;; ret OUnit
  | BPush id x => on id (bst_push cmp x) ;;; ret OUnit
  | BPop id x => on id (bst_pop cmp x) ;;; ret OUnit
  | BFind id x => o <- on id (p <- bt_find cmp x ;; deref p) ;; ret (OOpt o)
  | BErase id x => o <- on id (p <- bt_find cmp x ;; q <- bst_erase cmp InOrder p ;; deref q) ;; ret (OOpt o)
  | BSize id => n <- on id bt_size ;; ret (OZ n)
  | BCapacity id => n <- on id bt_capacity ;; ret (OZ n)
  | BEmpty id => b <- on id bt_empty ;; ret (OBool b)
  | BIter id t => l <- on id (bt_iterate t) ;; ret (OList l)
  | BClear id => on id bt_clear ;;; ret OUnit
  | BTraverse id t => l <- on id (bt_traversal t) ;; ret (OList l)
  | BMoveNew id src => tw_new id ;;; bst_move id src ;;; ret OUnit
  | BMoveAssign id src => bst_move id src ;;; ret OUnit
  end.
End World.
