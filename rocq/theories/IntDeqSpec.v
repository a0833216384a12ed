(** The int a call passes to a deque or an iterator. *)
From Verif Require Import Base VectorModel ListModel DequeModel DequeIterModel ArithModel.

Definition int_of {A} (o : jop A) : option Z :=
  match o with
  | JDeq (DAt _ n) | JRef _ _ n | JPlus _ _ n | JMinus _ _ n => Some n
  | _ => None
  end.
(** It is an int that has a negation. *)
Definition proper {A} (o : jop A) : Prop := forall n, int_of o = Some n -> (INT_MIN < n <= INT_MAX)%Z.
