(** Model of for_each (core/algorithm.hpp 18-23) and of range-for over a list
    whose callback uses the lists itself: it may call anything ListIterModel.v
    has, decide by the answers what to do next, and keep a state of its own. *)
From Verif Require Import Base VectorModel ListModel ListIterModel AlgoIterModel.

(** A piece of client code: it makes calls, one after the other, and finishes. *)
Inductive client (A C : Type) := Done (c : C) | Do (o : iop A) (k : out A -> client A C).
Arguments Done {A C} c.
Arguments Do {A C} o k.

Section Model.
Context {A C : Type} (junk : A) (dbl : bool).
Notation I := (M (iworld A)).

(** Running client code. *)
Fixpoint client_run (p : client A C) : I C :=
  match p with
  | Done c => ret c
  | Do o k => r <- it_step junk dbl o ;; client_run (k r)
  end.
(** The loop of algorithm.hpp 20-22; [it] is the local iterator, operator!= is
    spec/DStructSpec.hpp 93.  The callback gets a copy of the element.  The loop
    is stopped, with Diverge, when it wants to run more than [fuel] rounds. *)
Fixpoint each_loop (fuel : nat) (cb : C -> A -> client A C) (c : C) (it stop : ptr) : I C :=
  more <- ptr_ne it stop ;;
  if more : bool then
    match fuel with
    | O => diverge
    | S f => a <- it_star it ;; c <- client_run (cb c a) ;; it <- it_next it ;; each_loop f cb c it stop
    end
  else ret c.
(** for_each(l.begin(), l.end(), cb): the two iterators are temporaries. *)
Definition each (fuel : nat) (id : nat) (c : C) (cb : C -> A -> client A C) : I C :=
  p <- it_begin id ;; q <- it_end id ;; each_loop fuel cb c p q.
End Model.
