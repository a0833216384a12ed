(** Model of for_each (core/algorithm.hpp 18-23) and of range-for over an AVL tree
    whose callback uses the trees itself: it may call anything TreeIterModel.v has,
    decide by the answers what to do next, and keep a state of its own. *)
From Verif Require Import Base TreeModel TreeWorld TreeIterModel AlgoIterModel.
Local Open Scope nat_scope.

(** A piece of client code: it makes calls, one after the other, and finishes. *)
Inductive tclient (A C : Type) := TDone (c : C) | TDo (o : kop A) (k : tout A -> tclient A C).
Arguments TDone {A C} c.
Arguments TDo {A C} o k.

Section Model.
Context {A C : Type} (cmp : A -> A -> bool).
Notation K := (M (kworld A)).

(** Running client code. *)
Fixpoint tclient_run (p : tclient A C) : K C :=
  match p with
  | TDone c => ret c
  | TDo o k => r <- kt_step cmp o ;; tclient_run (k r)
  end.
(** operator*: spec/DStructSpec.hpp 91. *)
Definition kt_star (p : option nat) : K A := on_trees (on_nodes (ld_val p)).
(** The loop of algorithm.hpp 20-22; [it] is the local iterator, operator!= is
    spec/DStructSpec.hpp 93, operator++(int) AVLTree.hpp 61-66.  The callback gets a
    copy of the element.  The loop is stopped, with Diverge, when it wants to run
    more than [fuel] rounds. *)
Fixpoint teach_loop (fuel : nat) (cb : C -> A -> tclient A C) (c : C) (it stop : option nat) : K C :=
  more <- ptr_ne it stop ;;
  if more : bool then
    match fuel with
    | O => diverge
    | S f => a <- kt_star it ;; c <- tclient_run (cb c a) ;; it <- kt_next it ;; teach_loop f cb c it stop
    end
  else ret c.
(** for_each(t.begin(), t.end(), cb): the two iterators are temporaries. *)
Definition teach (fuel : nat) (id : nat) (c : C) (cb : C -> A -> tclient A C) : K C :=
  p <- kt_begin id ;; q <- kt_end id ;; teach_loop fuel cb c p q.
End Model.
