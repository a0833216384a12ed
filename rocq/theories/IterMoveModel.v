(** Model of tree iterators that are moved from: ds/tree/BinaryTree.hpp 18-95
    (BinarySearchTree) and AVLTree.hpp 42-83 over it (AVLTree), with the base
    class spec/DStructSpec.hpp 62-113.

    BstIterModel.v and TreeIterModel.v let the link stand for the whole iterator.
    A moved-from iterator loses its link and its next function but keeps
    mPointer_d, so here the three members are kept apart.  The mPointer_d inside
    an AVLTreeIterator_'s mIterator_d is only read by _sync, right after
    mIterator_d has computed it from its link, so it is left out. *)
From Verif Require Import Base TreeModel TreeWorld BstWorld TreeIterModel BstIterModel.

(** mNextFunc_d (the order that chose it, or nullptr), mTreeNodeLinkPtr_d and the
    node mPointer_d points into: BinaryTree.hpp 93-94, spec/DStructSpec.hpp 112. *)
Record mvar := MV { v_fn : option ttype; v_link : option nat; v_dat : option nat }.
(** Trees and iterator variables. *)
Definition mworld (A : Type) : Type := (tworld A * gmap nat mvar)%type.

(** What a client can do: as before ([jop] and [kop]), and [k = move(j)]. *)
Inductive mop (O : Type) := MOp (o : O) | MMove (k j : nat).
Arguments MOp {O} o.
Arguments MMove {O} k j.

Section Model.
Context {A : Type} (cmp : A -> A -> bool).
Notation W := (M (mworld A)).

(** A computation on the trees alone. *)
Definition on_tw {X} (m : M (tworld A) X) : W X := fun w =>
  match m (fst w) with
  | Ok (x, s) => Ok (x, (s, snd w))
  | Abort => Abort | UB => UB | Diverge => Diverge
  end.
(** Reading and setting the members of an iterator variable. *)
Definition get_mv (k : nat) : W mvar := fun w =>
  match snd w !! k with Some v => Ok (v, w) | None => UB end.
Definition set_mv (k : nat) (v : mvar) : W unit := fun w => Ok (tt, (fst w, <[k := v]> (snd w))).

(** The constructor from a link and a function, and _sync: BinaryTree.hpp 30-31,
    88-90. *)
Definition mv_at (fn : option ttype) (l : option nat) : mvar := MV fn l l.
(** operator++: BinaryTree.hpp 69-80; calling a null function is undefined. *)
Definition mv_next (v : mvar) : W mvar :=
  match v_fn v with
  | Some o => q <- on_tw (on_nodes (next_of o (v_link v))) ;; ret (mv_at (Some o) q)
  | None => ub
  end.

(** * BinarySearchTree *)
(** Copying: BinaryTree.hpp 33-39. *)
Definition bv_copy (v : mvar) : mvar := mv_at (v_fn v) (v_link v).
(** operator=(&&): 42-53.  The members of the source are reset before _sync, so an
    iterator moved to itself is reset; mPointer_d of another source is not. *)
Definition bv_move (k j : nat) : W unit :=
  v <- get_mv j ;; set_mv k (MV (v_fn v) (v_link v) None) ;;;
  s <- get_mv j ;; set_mv j (MV None None (v_dat s)) ;;;
  d <- get_mv k ;; set_mv k (MV (v_fn d) (v_link d) (v_link d)).
(** erase(it): BinarySearchTree.hpp 95-120; it is passed by copy, and the node is
    found from mPointer_d of the copy. *)
Definition bv_erase (id : nat) (v : mvar) : W mvar :=
  match v_fn v with
  | Some o => q <- on_tw (on id (bst_erase cmp o (v_link v))) ;; ret (mv_at (Some o) q)
  | None => ub
  end.

(** One step; operator*, operator== and operator!= use mPointer_d
    (spec/DStructSpec.hpp 91-94), as in BstIterModel.v. *)
Definition bm_step (o : mop (jop A)) : W (tout A) :=
  match o with
  | MOp (JTree o) => on_tw (b_step cmp o)
  | MOp (JBegin k id o) => p <- on_tw (on id (bt_begin o)) ;; set_mv k (mv_at (Some o) p) ;;; ret OUnit
  | MOp (JEnd k id o) => p <- on_tw (on id (ret None)) ;; set_mv k (mv_at (Some o) p) ;;; ret OUnit
  | MOp (JFind k id x) => p <- on_tw (on id (bt_find cmp x)) ;; set_mv k (mv_at (Some InOrder) p) ;;; ret OUnit
  | MOp (JErase k id j) => v <- get_mv j ;; q <- bv_erase id v ;; set_mv k q ;;; ret OUnit
  | MOp (JCopy k j) => v <- get_mv j ;; set_mv k (bv_copy v) ;;; ret OUnit
  | MOp (JNext k) => v <- get_mv k ;; q <- mv_next v ;; set_mv k q ;;; ret OUnit
  | MOp (JPostNext k j) => v <- get_mv j ;; q <- mv_next v ;; set_mv j q ;;; set_mv k (bv_copy v) ;;; ret OUnit
  | MOp (JRead k) => v <- get_mv k ;; x <- on_tw (on_nodes (ld_val (v_dat v))) ;; ret (OOpt (Some x))
  | MOp (JEq k j) => v <- get_mv k ;; u <- get_mv j ;; ret (OBool (bool_decide (v_dat v = v_dat u)))
  | MOp (JNe k j) => v <- get_mv k ;; u <- get_mv j ;; ret (OBool (negb (bool_decide (v_dat v = v_dat u))))
  | MMove k j => bv_move k j ;;; ret OUnit
  end.

(** * AVLTree *)
(** AVLTreeIterator_ declares no copy or move of its own, so the implicit ones
    copy mPointer_d and copy or move mIterator_d: AVLTree.hpp 42-83 with
    BinaryTree.hpp 33-53. *)
Definition av_move (k j : nat) : W unit :=
  v <- get_mv j ;; set_mv k v ;;;
  s <- get_mv j ;; set_mv j (MV None None (v_dat s)).
(** erase(it): AVLTree.hpp 140-155; the copy is moved on first. *)
Definition av_erase (id : nat) (v : mvar) : W mvar :=
  match v_fn v with
  | Some o => q <- on_tw (on id (avl_erase cmp (v_link v))) ;; ret (mv_at (Some InOrder) q)
  | None => ub
  end.

(** One step, as in TreeIterModel.v. *)
Definition am_step (o : mop (kop A)) : W (tout A) :=
  match o with
  | MOp (KTree o) => on_tw (t_step cmp o)
  | MOp (KBegin k id) => p <- on_tw (on id (avl_begin InOrder)) ;; set_mv k (mv_at (Some InOrder) p) ;;; ret OUnit
  | MOp (KEnd k id) => p <- on_tw (on id (ret None)) ;; set_mv k (mv_at (Some InOrder) p) ;;; ret OUnit
  | MOp (KFind k id x) => p <- on_tw (on id (bt_find cmp x)) ;; set_mv k (mv_at (Some InOrder) p) ;;; ret OUnit
  | MOp (KErase k id j) => v <- get_mv j ;; q <- av_erase id v ;; set_mv k q ;;; ret OUnit
  | MOp (KCopy k j) => v <- get_mv j ;; set_mv k v ;;; ret OUnit
  | MOp (KNext k) => v <- get_mv k ;; q <- mv_next v ;; set_mv k q ;;; ret OUnit
  | MOp (KPostNext k j) => v <- get_mv j ;; q <- mv_next v ;; set_mv j q ;;; set_mv k v ;;; ret OUnit
  | MOp (KRead k) => v <- get_mv k ;; x <- on_tw (on_nodes (ld_val (v_dat v))) ;; ret (OOpt (Some x))
  | MOp (KEq k j) => v <- get_mv k ;; u <- get_mv j ;; ret (OBool (bool_decide (v_dat v = v_dat u)))
  | MOp (KNe k j) => v <- get_mv k ;; u <- get_mv j ;; ret (OBool (negb (bool_decide (v_dat v = v_dat u))))
  | MMove k j => av_move k j ;;; ret OUnit
  end.
End Model.
