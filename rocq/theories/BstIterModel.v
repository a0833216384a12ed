(** Model of the BinarySearchTree iterators: ds/tree/BinarySearchTree.hpp 86-141
    over ds/tree/BinaryTree.hpp 18-92 and their base class
    spec/DStructSpec.hpp 62-95.

    An iterator object holds mTreeNodeLinkPtr_d, mNextFunc_d and mPointer_d.
    mNextFunc_d is one of three functions, chosen by _create_iterator
    (BinaryTree.hpp 233-251); here it is the [ttype] that chose it.  _sync
    (BinaryTree.hpp 88-90) computes mPointer_d from the link, so the link stands
    for both.  The null link is end().  Moving from an iterator: IterMoveModel.v. *)
From Verif Require Import Base TreeModel TreeWorld BstWorld TreeIterModel.

(** The trees of BstWorld.v and named iterator variables. *)
Definition jworld (A : Type) : Type := (tworld A * gmap nat (ttype * option nat))%type.

(** What a client can do: any call on a tree, and iterator operations.
    [JBegin k id o] is [k = id.begin(o)], [JFind k id x] is [k = id.find(x)],
    [JErase k id j] is [k = id.erase(j)], [JPostNext k j] is [k = j++]. *)
Inductive jop (A : Type) :=
| JTree (o : bop A)
| JBegin (k id : nat) (o : ttype) | JEnd (k id : nat) (o : ttype) | JFind (k id : nat) (x : A) | JErase (k id j : nat)
| JCopy (k j : nat) | JNext (k : nat) | JPostNext (k j : nat) | JRead (k : nat) | JEq (k j : nat) | JNe (k j : nat).
Arguments JTree {A} o.
Arguments JBegin {A} k id o.
Arguments JEnd {A} k id o.
Arguments JFind {A} k id x.
Arguments JErase {A} k id j.
Arguments JCopy {A} k j.
Arguments JNext {A} k.
Arguments JPostNext {A} k j.
Arguments JRead {A} k.
Arguments JEq {A} k j.
Arguments JNe {A} k j.

Section Model.
Context {A : Type} (cmp : A -> A -> bool).
Notation J := (M (jworld A)).

(** A computation on the trees alone. *)
Definition on_bst {X} (m : M (tworld A) X) : J X := fun w =>
  match m (fst w) with
  | Ok (x, s) => Ok (x, (s, snd w))
  | Abort => Abort | UB => UB | Diverge => Diverge
  end.
(** Reading and setting an iterator variable; assignment copies the link and the
    next function: BinaryTree.hpp 33-39. *)
Definition get_jt (k : nat) : J (ttype * option nat) := fun w =>
  match snd w !! k with Some p => Ok (p, w) | None => UB end.
Definition set_jt (k : nat) (p : ttype * option nat) : J unit := fun w => Ok (tt, (fst w, <[k := p]> (snd w))).

(** begin: BinarySearchTree.hpp 124-133. *)
Definition jt_begin (id : nat) (o : ttype) : J (ttype * option nat) := p <- on_bst (on id (bt_begin o)) ;; ret (o, p).
(** end: 135-141, the null link whatever the tree holds. *)
Definition jt_end (id : nat) (o : ttype) : J (ttype * option nat) := p <- on_bst (on id (ret None)) ;; ret (o, p).
(** find: 86-93, an in-order iterator. *)
Definition jt_find (id : nat) (x : A) : J (ttype * option nat) := p <- on_bst (on id (bt_find cmp x)) ;; ret (InOrder, p).
(** erase: 95-120; the iterator returned is a copy of the one given, moved on by
    its own next function when the node was deleted directly. *)
Definition jt_erase (id : nat) (p : ttype * option nat) : J (ttype * option nat) :=
  q <- on_bst (on id (bst_erase cmp (fst p) (snd p))) ;; ret (fst p, q).
(** operator++: BinaryTree.hpp 69-80. *)
Definition jt_next (p : ttype * option nat) : J (ttype * option nat) :=
  q <- on_bst (on_nodes (next_of (fst p) (snd p))) ;; ret (fst p, q).

(** One step.  operator* is spec/DStructSpec.hpp 91, operator!= and operator==
    are 93-94: they compare the data pointers only. *)
Definition jt_step (o : jop A) : J (tout A) :=
  match o with
  | JTree o => on_bst (b_step cmp o)
  | JBegin k id o => p <- jt_begin id o ;; set_jt k p ;;; ret OUnit
  | JEnd k id o => p <- jt_end id o ;; set_jt k p ;;; ret OUnit
  | JFind k id x => p <- jt_find id x ;; set_jt k p ;;; ret OUnit
  | JErase k id j => p <- get_jt j ;; q <- jt_erase id p ;; set_jt k q ;;; ret OUnit
  | JCopy k j => p <- get_jt j ;; set_jt k p ;;; ret OUnit
  | JNext k => p <- get_jt k ;; q <- jt_next p ;; set_jt k q ;;; ret OUnit
  | JPostNext k j => p <- get_jt j ;; q <- jt_next p ;; set_jt j q ;;; set_jt k p ;;; ret OUnit
  | JRead k => p <- get_jt k ;; x <- on_bst (on_nodes (ld_val (snd p))) ;; ret (OOpt (Some x))
  | JEq k j => p <- get_jt k ;; q <- get_jt j ;; ret (OBool (bool_decide (snd p = snd q)))
  | JNe k j => p <- get_jt k ;; q <- get_jt j ;; ret (OBool (negb (bool_decide (snd p = snd q))))
  end.
End Model.
