(** Model of the AVLTree iterators: AVLTree.hpp 42-83 over
    tree/BinaryTree.hpp 19-95 and their base class spec/DStructSpec.hpp 63-113.

    An iterator object holds mTreeNodeLinkPtr_d, mNextFunc_d and mPointer_d.
    AVLTree only makes in-order iterators (AVLTree.hpp 137, 163-171), so
    mNextFunc_d is next_inorder; _sync (BinaryTree.hpp 88-90, AVLTree.hpp 74-79)
    computes mPointer_d from the link, so the link alone stands for all three.
    The null link is end().  Moving from an iterator: IterMoveModel.v. *)
From Verif Require Import Base TreeModel TreeWorld.

(** The trees of TreeWorld.v and named iterator variables. *)
Definition kworld (A : Type) : Type := (tworld A * gmap nat (option nat))%type.

(** What a client can do: any call on a tree, and iterator operations.
    [KFind k id x] is [k = id.find(x)], [KErase k id j] is [k = id.erase(j)],
    [KPostNext k j] is [k = j++]. *)
Inductive kop (A : Type) :=
| KTree (o : top A)
| KBegin (k id : nat) | KEnd (k id : nat) | KFind (k id : nat) (x : A) | KErase (k id j : nat)
| KCopy (k j : nat) | KNext (k : nat) | KPostNext (k j : nat) | KRead (k : nat) | KEq (k j : nat) | KNe (k j : nat).
Arguments KTree {A} o.
Arguments KBegin {A} k id.
Arguments KEnd {A} k id.
Arguments KFind {A} k id x.
Arguments KErase {A} k id j.
Arguments KCopy {A} k j.
Arguments KNext {A} k.
Arguments KPostNext {A} k j.
Arguments KRead {A} k.
Arguments KEq {A} k j.
Arguments KNe {A} k j.

Section Model.
Context {A : Type} (cmp : A -> A -> bool).
Notation K := (M (kworld A)).

(** A computation on the trees alone. *)
Definition on_trees {X} (m : M (tworld A) X) : K X := fun w =>
  match m (fst w) with
  | Ok (x, s) => Ok (x, (s, snd w))
  | Abort => Abort | UB => UB | Diverge => Diverge
  end.
(** A computation on the nodes that involves no tree object. *)
Definition on_nodes {X} (m : M (tst A) X) : M (tworld A) X := fun w =>
  match m (TSt (tw_heap w) (tw_al w) None 0%Z) with
  | Ok (x, s) => Ok (x, TW (t_heap s) (t_al s) (tw_objs w))
  | Abort => Abort | UB => UB | Diverge => Diverge
  end.
(** Reading and setting an iterator variable. *)
Definition get_kt (k : nat) : K (option nat) := fun w =>
  match snd w !! k with Some p => Ok (p, w) | None => UB end.
Definition set_kt (k : nat) (p : option nat) : K unit := fun w => Ok (tt, (fst w, <[k := p]> (snd w))).

(** begin(): AVLTree.hpp 163-166; end(): 168-171, an iterator with the null link
    whatever the tree holds (BinaryTree.hpp 177-179); find: AVLTree.hpp 129-138;
    erase: 140-155. *)
Definition kt_begin (id : nat) : K (option nat) := on_trees (on id (avl_begin InOrder)).
Definition kt_end (id : nat) : K (option nat) := on_trees (on id (ret None)).
Definition kt_find (id : nat) (x : A) : K (option nat) := on_trees (on id (bt_find cmp x)).
Definition kt_erase (id : nat) (p : option nat) : K (option nat) := on_trees (on id (avl_erase cmp p)).
(** operator++: AVLTree.hpp 55-66, BinaryTree.hpp 69-80. *)
Definition kt_next (p : option nat) : K (option nat) := on_trees (on_nodes (next_inorder p)).

(** One step.  operator* is spec/DStructSpec.hpp 91, operator!= and operator==
    are 93-94. *)
Definition kt_step (o : kop A) : K (tout A) :=
  match o with
  | KTree o => on_trees (t_step cmp o)
  | KBegin k id => p <- kt_begin id ;; set_kt k p ;;; ret OUnit
  | KEnd k id => p <- kt_end id ;; set_kt k p ;;; ret OUnit
  | KFind k id x => p <- kt_find id x ;; set_kt k p ;;; ret OUnit
  | KErase k id j => p <- get_kt j ;; q <- kt_erase id p ;; set_kt k q ;;; ret OUnit
  | KCopy k j => p <- get_kt j ;; set_kt k p ;;; ret OUnit
  | KNext k => p <- get_kt k ;; q <- kt_next p ;; set_kt k q ;;; ret OUnit
  | KPostNext k j => p <- get_kt j ;; q <- kt_next p ;; set_kt j q ;;; set_kt k p ;;; ret OUnit
  | KRead k => p <- get_kt k ;; x <- on_trees (on_nodes (ld_val p)) ;; ret (OOpt (Some x))
  | KEq k j => p <- get_kt k ;; q <- get_kt j ;; ret (OBool (bool_decide (p = q)))
  | KNe k j => p <- get_kt k ;; q <- get_kt j ;; ret (OBool (negb (bool_decide (p = q))))
  end.
End Model.
