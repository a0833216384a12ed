(** How many elements XValueStack::push puts on the stack underneath, which holds [l],
    when it is given [a] and the extreme value so far is [xv]: a new extreme value comes
    with the old one saved below it. *)
From Verif Require Import Base.

Definition needs {A} (cmp : A -> A -> bool) (l : list A) (a xv : A) : nat :=
  match l with [] => 2 | _ => if cmp a xv then 2 else 1 end.
