(** push_front, push_back, push and the constructor (n, obj) of the lists called with
    a reference to an element, of the same list or another: l.push_back( *it),
    List(3, *it).  They take obj as a const T& and read it between getting the memory
    of the new node and filling it (LinkedList.hpp 89-98, DoublyLinkedList.hpp 74,
    104-114, SinglyLinkedList.hpp 63-67, 106-123). *)
From Verif Require Import Base VectorModel Alloc ListModel ListIterModel.

(** The calls and iterator operations of ListIterModel.v, and these calls with *k for obj. *)
Inductive zop (A : Type) :=
| ZI (o : iop A)
| ZPushFront (id k : nat) | ZPushBack (id k : nat) | ZPush (id k : nat) | ZFill (id n k : nat).
Arguments ZI {A} o.
Arguments ZPushFront {A} id k.
Arguments ZPushBack {A} id k.
Arguments ZPush {A} id k.
Arguments ZFill {A} id n k.

Section Model.
Context {A : Type} (junk : A) (d : bool).
Notation L := (M (lst A)).

(** AllocNode_::allocate(), e.g. LinkedList.hpp 91: memory nothing has been written to yet, or null. *)
Definition get_node : L (option ptr) := fun s =>
  match al_pick (l_al s) with
  | Some a => Ok (Some (Node a), LSt (<[Node a := Cell None None junk]> (l_cells s)) (al_got a (l_al s)) (l_size s) (l_tail s))
  | None => Ok (None, s)
  end.
(** construct(nPtr, mHeadNode_d), e.g. LinkedList.hpp 93 with core/common.hpp 54-58:
    crashes on a null pointer. *)
Definition copy_head (id : nat) (n : option ptr) : L ptr :=
  match n with Some p => c <- ld (Head id) ;; stc p c ;;; ret p | None => abort end.
(** The new node; [e] is where obj is: LinkedList.hpp 91-93, DoublyLinkedList.hpp
    106-109, SinglyLinkedList.hpp 108-110. *)
Definition node_for (id : nat) (e : ptr) : L ptr :=
  n <- get_node ;; a <- ld_dat e ;; st_dat (Head id) a ;;; copy_head id n.

(** push_front: LinkedList.hpp 89-98; SinglyLinkedList.hpp 119-123. *)
Definition ll_push_front_ref (id : nat) (e : ptr) : L unit :=
  n <- node_for id e ;; link_add d (Head id) n ;;; k <- ld_size id ;; st_size id (S k).
Definition sl_push_front_ref (id : nat) (e : ptr) : L unit :=
  ll_push_front_ref id e ;;; k <- ld_size id ;;
  if Nat.eqb k 1 then p <- ld_next (Head id) ;; p <- nonnull p ;; st_tail id p else ret tt.
(** push_back: DoublyLinkedList.hpp 104-114; SinglyLinkedList.hpp 106-117. *)
Definition dl_push_back_ref (id : nat) (e : ptr) : L unit :=
  n <- node_for id e ;; p <- ld_prev (Head id) ;; p <- nonnull p ;; link_add d p n ;;;
  k <- ld_size id ;; st_size id (S k).
Definition sl_push_back_ref (id : nat) (e : ptr) : L unit :=
  n <- node_for id e ;; t <- ld_tail id ;; link_add d t n ;;;
  k <- ld_size id ;; st_size id (S k) ;;; st_tail id n.
(** The constructors' loop: DoublyLinkedList.hpp 74, SinglyLinkedList.hpp 63-67. *)
Fixpoint fill_ref_loop (push : nat -> ptr -> L unit) (n id : nat) (e : ptr) : L unit :=
  match n with O => ret tt | S n => push id e ;;; fill_ref_loop push n id e end.
End Model.

Section Step.
Context {A : Type} (junk : A).
(** One step.  *k must be an object; push is LinkedList_'s: LinkedList.hpp 85-87. *)
Definition z_step (dbl : bool) (o : zop A) : M (iworld A) (out A) :=
  let call k (f : ptr -> M (lst A) unit) := e <- get_it k ;; on_lists (ld_dat e) ;;; on_lists (f e) ;;; ret RUnit in
  match o with
  | ZI o => it_step junk dbl o
  | ZPushFront id k => call k ((if dbl then ll_push_front_ref junk dbl else sl_push_front_ref junk dbl) id)
  | ZPush id k => call k (ll_push_front_ref junk dbl id)
  | ZPushBack id k => call k ((if dbl then dl_push_back_ref junk dbl else sl_push_back_ref junk dbl) id)
  | ZFill id n k => call k (fun e => ll_init junk dbl id ;;;
      fill_ref_loop (if dbl then dl_push_back_ref junk dbl else sl_push_back_ref junk dbl) n id e)
  end.
End Step.
