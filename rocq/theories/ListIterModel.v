(** Model of the list iterators: DoublyLinkedList.hpp 19-59,
    SinglyLinkedList.hpp 19-47, LinkedList.hpp 120-138 and their base class
    spec/DStructSpec.hpp 62-95.

    An iterator object holds mLinkPtr_d and mPointer_d; _sync
    (DoublyLinkedList.hpp 53-56, SinglyLinkedList.hpp 41-44) sets the second to
    the data of the node of the first, so one node pointer stands for both. *)
From Verif Require Import Base VectorModel ListModel.

(** The lists of ListModel.v and named iterator variables. *)
Definition iworld (A : Type) : Type := (lst A * gmap nat ptr)%type.

(** What a client can do: any call on a list, and iterator operations.
    [IPostNext k j] is [k = j++], [IPostPrev k j] is [k = j--]. *)
Inductive iop (A : Type) :=
| IList (o : lop A)
| IBegin (k id : nat) | IEnd (k id : nat) | ICopy (k j : nat)
| INext (k : nat) | IPrev (k : nat) | IPostNext (k j : nat) | IPostPrev (k j : nat)
| IRead (k : nat) | IWrite (k : nat) (a : A) | IEq (k j : nat) | INe (k j : nat).
Arguments IList {A} o.
Arguments IBegin {A} k id.
Arguments IEnd {A} k id.
Arguments ICopy {A} k j.
Arguments INext {A} k.
Arguments IPrev {A} k.
Arguments IPostNext {A} k j.
Arguments IPostPrev {A} k j.
Arguments IRead {A} k.
Arguments IWrite {A} k a.
Arguments IEq {A} k j.
Arguments INe {A} k j.

Section Model.
Context {A : Type} (junk : A).
Notation I := (M (iworld A)).

(** A computation on the lists alone. *)
Definition on_lists {X} (m : M (lst A) X) : I X := fun w =>
  match m (fst w) with
  | Ok (x, s) => Ok (x, (s, snd w))
  | Abort => Abort | UB => UB | Diverge => Diverge
  end.
(** Reading and setting an iterator variable. *)
Definition get_it (k : nat) : I ptr := fun w =>
  match snd w !! k with Some p => Ok (p, w) | None => UB end.
Definition set_it (k : nat) (p : ptr) : I unit := fun w => Ok (tt, (fst w, <[k := p]> (snd w))).

(** begin(): LinkedList.hpp 122-125; end(): 132-135. *)
Definition it_begin (id : nat) : I ptr := p <- on_lists (ld_next (Head id)) ;; on_lists (nonnull p).
Definition it_end (id : nat) : I ptr := on_lists (ld (Head id)) ;;; ret (Head id).
(** _sync(mLinkPtr_d->next): DoublyLinkedList.hpp 32-40, SinglyLinkedList.hpp 30-38. *)
Definition it_next (p : ptr) : I ptr := q <- on_lists (ld_next p) ;; on_lists (nonnull q).
(** _sync(mLinkPtr_d->prev): DoublyLinkedList.hpp 42-50. *)
Definition it_prev (p : ptr) : I ptr := q <- on_lists (ld_prev p) ;; on_lists (nonnull q).

(** One step; [dbl] chooses the kind of list.  operator* is
    spec/DStructSpec.hpp 91, operator!= and operator== are 93-94. *)
Definition it_step (dbl : bool) (o : iop A) : I (out A) :=
  match o with
  | IList o => on_lists (if dbl then dl_step junk o else sl_step junk o)
  | IBegin k id => p <- it_begin id ;; set_it k p ;;; ret RUnit
  | IEnd k id => p <- it_end id ;; set_it k p ;;; ret RUnit
  | ICopy k j => p <- get_it j ;; set_it k p ;;; ret RUnit
  | INext k => p <- get_it k ;; q <- it_next p ;; set_it k q ;;; ret RUnit
  | IPrev k => if dbl then p <- get_it k ;; q <- it_prev p ;; set_it k q ;;; ret RUnit else ub
  | IPostNext k j => p <- get_it j ;; q <- it_next p ;; set_it j q ;;; set_it k p ;;; ret RUnit
  | IPostPrev k j => if dbl then p <- get_it j ;; q <- it_prev p ;; set_it j q ;;; set_it k p ;;; ret RUnit else ub
  | IRead k => p <- get_it k ;; a <- on_lists (ld_dat p) ;; ret (RVal a)
  | IWrite k a => p <- get_it k ;; on_lists (st_dat p a) ;;; ret RUnit
  | IEq k j => p <- get_it k ;; q <- get_it j ;; ret (RBool (bool_decide (p = q)))
  | INe k j => p <- get_it k ;; q <- get_it j ;; ret (RBool (negb (bool_decide (p = q))))
  end.
End Model.
