(** Model of Queue (core/ds/queue/Queue.hpp): every call is passed on to the
    container mDS_d (77); the container is DoubleEndedQueue by default
    (dstruct.hpp 76-77) and DLinkedList in examples/queue/queue.cpp. *)
From Verif Require Import Base VectorModel ListModel DequeModel.

(** The calls (Queue.hpp 26-74): the constructors and assignments are defaulted
    (26-31). *)
Inductive qop (A : Type) :=
| QNew (id : nat) | QCopyNew (id src : nat) | QMoveNew (id src : nat) | QAssign (id src : nat) | QMoveAssign (id src : nat) | QDestroy (id : nat)
| QPush (id : nat) (a : A) | QPop (id : nat) | QFront (id : nat) | QBack (id : nat) | QAt (id : nat) (z : Z)
| QSize (id : nat) | QEmpty (id : nat) | QIter (id : nat).
Arguments QNew {A} id.
Arguments QCopyNew {A} id src.
Arguments QMoveNew {A} id src.
Arguments QAssign {A} id src.
Arguments QMoveAssign {A} id src.
Arguments QDestroy {A} id.
Arguments QPush {A} id a.
Arguments QPop {A} id.
Arguments QFront {A} id.
Arguments QBack {A} id.
Arguments QAt {A} id z.
Arguments QSize {A} id.
Arguments QEmpty {A} id.
Arguments QIter {A} id.

(** Queue<T, DoubleEndedQueue<T, ARR_SIZE>> (36-74). *)
Definition q_to_deque {A} (o : qop A) : dop A :=
  match o with
  | QNew id => DNew id | QCopyNew id src => DCopyNew id src | QMoveNew id src => DMoveNew id src
  | QAssign id src => DAssign id src | QMoveAssign id src => DMoveAssign id src | QDestroy id => DDestroy id
  | QPush id a => DPushBack id a | QPop id => DPopFront id | QFront id => DFront id | QBack id => DBack id | QAt id z => DAt id z
  | QSize id => DSize id | QEmpty id => DEmpty id | QIter id => DIter id
  end.
Definition qd_step {A} (N : nat) (o : qop A) : M (dst A) (out A) := dq_step N (q_to_deque o).

(** Queue<T, DLinkedList<T>> (36-74); operator[] (53-55) does not compile for it
    and is modelled as UB. *)
Definition ql_step {A} (junk : A) (o : qop A) : M (lst A) (out A) :=
  match o with
  | QNew id => dl_step junk (LNew id) | QCopyNew id src => dl_step junk (LCopyNew id src) | QMoveNew id src => dl_step junk (LMoveNew id src)
  | QAssign id src => dl_step junk (LAssign id src) | QMoveAssign id src => dl_step junk (LMoveAssign id src) | QDestroy id => dl_step junk (LDestroy id)
  | QPush id a => dl_step junk (LPushBack id a) | QPop id => dl_step junk (LPopFront id)
  | QFront id => dl_step junk (LFront id) | QBack id => dl_step junk (LBack id) | QAt _ _ => ub
  | QSize id => dl_step junk (LSize id) | QEmpty id => dl_step junk (LEmpty id) | QIter id => dl_step junk (LIter id)
  end.
