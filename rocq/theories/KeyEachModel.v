(** Model of client programs over maps and binary search trees, and of for_each
    (core/algorithm.hpp 18-23) as one of them: its loop uses only what clients can
    call, so its callback may be any client program, with loops of its own.  Map
    iterators are those of MapIterModel.v, tree iterators those of BstIterModel.v. *)
From Verif Require Import Base TreeModel TreeWorld BstWorld TreeIterModel MapIterModel BstIterModel.
Local Open Scope nat_scope.

(** A client program: it makes calls, one after the other, deciding by the answers
    how to go on, and finishes.  [More] is where a loop is cut off after the rounds it
    was given. *)
Inductive prog (O P C : Type) := Done (c : C) | More | Do (o : O) (k : P -> prog O P C).
Arguments Done {O P C} c.
Arguments More {O P C}.
Arguments Do {O P C} o k.
(** One program after the other. *)
Fixpoint pthen {O P C D} (p : prog O P C) (k : C -> prog O P D) : prog O P D :=
  match p with Done c => k c | More => More | Do o f => Do o (fun r => pthen (f r) k) end.
(** Running a program. *)
Fixpoint prun {W O P C} (step : O -> M W P) (p : prog O P C) : M W C :=
  match p with
  | Done c => ret c
  | More => diverge
  | Do o k => r <- step o ;; prun step (k r)
  end.

Section Maps.
Context {K V C : Type}.
Notation mprog := (prog (nop K V) (mout (K := K) (V := V)) C).
(** The loop of algorithm.hpp 20-22.  [it] is the local variable; [e] is the variable
    the reference parameter [end] is bound to; [x] is the reference the callback gets.
    operator!= is spec/DStructSpec.hpp 93, operator* 91, which needs an element to
    refer to; of it++ (AVLTree.hpp 61-66) only the effect on [it] is kept, the copy it
    returns being dropped. *)
Fixpoint meach_loop (fuel : nat) (e it x : nat) (cb : C -> mprog) (c : C) : mprog :=
  Do (NNe it e) (fun r => match r with
    | MBool true =>
        match fuel with
        | O => More
        | S f => Do (NRead it) (fun _ => Do (NCopy x it) (fun _ => pthen (cb c) (fun c => Do (NNext it) (fun _ => meach_loop f e it x cb c))))
        end
    | _ => Done c
    end).
(** for_each(b, e, cb), line 20 making the copy [it]. *)
Definition meach (fuel : nat) (b e it x : nat) (cb : C -> mprog) (c : C) : mprog := Do (NCopy it b) (fun _ => meach_loop fuel e it x cb c).
End Maps.

Section Trees.
Context {A C : Type}.
Notation bprog := (prog (jop A) (tout A) C).
(** The same over binary search trees; it++ is BinaryTree.hpp 75-80. *)
Fixpoint beach_loop (fuel : nat) (e it x : nat) (cb : C -> bprog) (c : C) : bprog :=
  Do (JNe it e) (fun r => match r with
    | OBool true =>
        match fuel with
        | O => More
        | S f => Do (JRead it) (fun _ => Do (JCopy x it) (fun _ => pthen (cb c) (fun c => Do (JNext it) (fun _ => beach_loop f e it x cb c))))
        end
    | _ => Done c
    end).
Definition beach (fuel : nat) (b e it x : nat) (cb : C -> bprog) (c : C) : bprog := Do (JCopy it b) (fun _ => beach_loop fuel e it x cb c).
End Trees.
