(** push_back, push_front and Queue's push called with a reference to an element, of
    the same deque or another: d.push_back( *it), d.push_front(d[0]).  They take their
    argument as a const T& and construct the new element from it after they have made
    room (DoubleEndedQueue.hpp 239-265). *)
From Verif Require Import Base VectorModel ListModel DequeModel DequeIterModel.

(** The calls and iterator operations of DequeIterModel.v, and these calls. *)
Inductive yop (A : Type) :=
| YJ (o : jop A)
| YPushBack (id k : nat) | YPushFront (id k : nat) | YPush (id k : nat).
Arguments YJ {A} o.
Arguments YPushBack {A} id k.
Arguments YPushFront {A} id k.
Arguments YPush {A} id k.

Section Model.
Context {A : Type} (N : nat) (eqb : A -> A -> bool).
Notation D := (M (dst A)).

(** push_back: 243-253; [e] is where obj is. *)
Definition push_back_at (id : nat) (e : curp) : D unit :=
  room_back N id ;;;
  q <- q_get id ;; x <- cell_ld e ;; cell_construct (i_cur (q_end q)) x ;;;
  e <- it_next N (q_end q) ;; q_put id (DQ (S (q_size q)) (q_cap q) (q_tab q) (q_beg q) e).
(** push_front: 255-265. *)
Definition push_front_at (id : nat) (e : curp) : D unit :=
  room_front N id ;;;
  q <- q_get id ;; b <- it_prev N (q_beg q) ;; x <- cell_ld e ;; cell_construct (i_cur b) x ;;;
  q_put id (DQ (S (q_size q)) (q_cap q) (q_tab q) b (q_end q)).

(** One step.  Taking *k of an iterator at no element is not defined; push is 239-241. *)
Definition y_step (o : yop A) : M (jworld A) (out A) :=
  match o with
  | YJ o => j_step N eqb o
  | YPushBack id k | YPush id k => i <- get_var k ;; on_deqs (cell_ld (i_cur i)) ;;; on_deqs (push_back_at id (i_cur i)) ;;; ret RUnit
  | YPushFront id k => i <- get_var k ;; on_deqs (cell_ld (i_cur i)) ;;; on_deqs (push_front_at id (i_cur i)) ;;; ret RUnit
  end.
End Model.
