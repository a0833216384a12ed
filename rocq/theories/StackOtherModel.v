(** Model of Stack (core/ds/stack/Stack.hpp) over the other containers that have
    push_back, pop_back and back (Stack.hpp 20): Deque (examples/stack/stack.cpp
    20), DLinkedList and SLinkedList.  The calls are those of StackModel.v; a
    Stack object is the container mDS_d (59) with the same id. *)
From Verif Require Import Base VectorModel ListModel DequeModel StackModel.

(** Stack<T, DoubleEndedQueue<T, ARR_SIZE>>.  The special members are defaulted
    (27-32); size/empty: 36-38; top: 41; push: 44; pop: 45-48 (a copy of the last
    element is made first); clear: 50-52; iteration: 55-56. *)
Definition kd_step {A} (N : nat) (o : kop A) : M (dst A) (out A) :=
  match o with
  | KNew id => dq_step N (DNew id) | KCopyNew id src => dq_step N (DCopyNew id src) | KMoveNew id src => dq_step N (DMoveNew id src)
  | KAssign id src => dq_step N (DAssign id src) | KMoveAssign id src => dq_step N (DMoveAssign id src) | KDestroy id => dq_step N (DDestroy id)
  | KPush id a => dq_step N (DPushBack id a)
  | KPop id => data <- dq_step N (DBack id) ;; dq_step N (DPopBack id)
  | KTop id => dq_step N (DBack id)
  | KSize id => dq_step N (DSize id) | KEmpty id => dq_step N (DEmpty id)
  | KClear id => dq_step N (DClear id) | KIter id => dq_step N (DIter id)
  end.

(** The same over a linked list, whose calls are [step] ([dl_step] or [sl_step]). *)
Definition kl_step {A} (step : lop A -> M (lst A) (out A)) (o : kop A) : M (lst A) (out A) :=
  match o with
  | KNew id => step (LNew id) | KCopyNew id src => step (LCopyNew id src) | KMoveNew id src => step (LMoveNew id src)
  | KAssign id src => step (LAssign id src) | KMoveAssign id src => step (LMoveAssign id src) | KDestroy id => step (LDestroy id)
  | KPush id a => step (LPushBack id a)
  | KPop id => data <- step (LBack id) ;; step (LPopBack id)
  | KTop id => step (LBack id)
  | KSize id => step (LSize id) | KEmpty id => step (LEmpty id)
  | KClear id => step (LClear id) | KIter id => step (LIter id)
  end.
