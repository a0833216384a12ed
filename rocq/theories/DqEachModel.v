(** Model of for_each (core/algorithm.hpp 18-23) over a deque whose callback uses
    deques, iterators and references itself: it may call anything DequeIterModel.v
    has, decide by the answers what to do next, and keep a state of its own. *)
From Verif Require Import Base VectorModel ListModel DequeModel DequeIterModel.

(** A piece of client code: it makes calls, one after the other, and finishes. *)
Inductive dclient (A C : Type) := CDone (c : C) | CDo (o : jop A) (k : out A -> dclient A C).
Arguments CDone {A C} c.
Arguments CDo {A C} o k.

Section Model.
Context {A C : Type} (N : nat) (eqb : A -> A -> bool).
Notation J := (M (jworld A)).

(** Running client code. *)
Fixpoint dclient_run (p : dclient A C) : J C :=
  match p with
  | CDone c => ret c
  | CDo o k => r <- j_step N eqb o ;; dclient_run (k r)
  end.
(** The loop of algorithm.hpp 20-22.  [it] is the local variable; [e] is the variable
    the reference parameter [end] is bound to, read anew in every round; [x] is the
    reference the callback gets, operator* (spec/DStructSpec.hpp 91) needing an object
    to refer to.  operator!= is spec/DStructSpec.hpp 93, it++ is DoubleEndedQueue.hpp
    103-107.  The loop is stopped, with Diverge, when it wants to run more than [fuel]
    rounds. *)
Fixpoint deach_loop (fuel : nat) (e it x : nat) (cb : C -> dclient A C) (c : C) : J C :=
  i <- get_var it ;; j <- get_var e ;; p <- on_deqs (rd (i_cur i)) ;; q <- on_deqs (rd (i_cur j)) ;;
  if eqp p q then ret c else
  match fuel with
  | O => diverge
  | S f =>
      i <- get_var it ;; on_deqs (cell_ld (i_cur i)) ;;; set_var x (It 0 (i_cur i) None) ;;;
      c <- dclient_run (cb c) ;;
      i <- get_var it ;; i <- on_deqs (it_next N i) ;; set_var it i ;;;
      deach_loop f e it x cb c
  end.
(** for_each(b, e, cb), for iterators [b] and [e] kept in variables; for temporaries,
    as in for_each(d.begin(), d.end(), cb), these are names the callback does not use. *)
Definition deach (fuel : nat) (b e it x : nat) (cb : C -> dclient A C) (c : C) : J C :=
  i <- get_var b ;; i <- on_deqs (it_copy i) ;; set_var it i ;;; deach_loop fuel e it x cb c.
End Model.
