(** Model of for_each (core/algorithm.hpp 18-23) over a vector whose callback uses
    vectors, iterators and references itself: it may call anything VecIterModel.v
    has, decide by the answers what to do next, and keep a state of its own. *)
From Verif Require Import Base VectorModel VecIterModel.

(** A piece of client code: it makes calls, one after the other, and finishes. *)
Inductive vclient (A C : Type) := VDone (c : C) | VDo (o : yop A) (k : yout A -> vclient A C).
Arguments VDone {A C} c.
Arguments VDo {A C} o k.

Section Model.
Context {A C : Type} (triv : bool) (eqb : A -> A -> bool).
Notation Y := (M (vworld A)).

(** Running client code. *)
Fixpoint vclient_run (p : vclient A C) : Y C :=
  match p with
  | VDone c => ret c
  | VDo o k => r <- y_step triv eqb o ;; vclient_run (k r)
  end.
(** The loop of algorithm.hpp 20-22.  [it] is the local variable; [e] is the variable
    the reference parameter [end] is bound to, read anew in every round; [x] is the
    reference the callback gets, operator* (spec/DStructSpec.hpp 91) needing an object
    to refer to.  operator!= is spec/DStructSpec.hpp 93, it++ core/Iterator.hpp 53.
    The loop is stopped, with Diverge, when it wants to run more than [fuel] rounds. *)
Fixpoint veach_loop (fuel : nat) (e it x : nat) (cb : C -> vclient A C) (c : C) : Y C :=
  p <- var it ;; q <- var e ;; same <- on_mem (p_eq p q) ;;
  if same : bool then ret c else
  match fuel with
  | O => diverge
  | S f =>
      p <- var it ;; on_mem (load (fst p) (snd p)) ;;; set_var x p ;;;
      c <- vclient_run (cb c) ;;
      p <- var it ;; q <- on_mem (p_add p 1) ;; set_var it q ;;;
      veach_loop f e it x cb c
  end.
(** for_each(b, e, cb), for iterators [b] and [e] kept in variables; for temporaries,
    as in for_each(v.begin(), v.end(), cb), these are names the callback does not use. *)
Definition veach (fuel : nat) (b e it x : nat) (cb : C -> vclient A C) (c : C) : Y C :=
  p <- var b ;; set_var it p ;;; veach_loop fuel e it x cb c.
End Model.
