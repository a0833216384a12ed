(** When the int arithmetic of heaps is exact. *)
From Verif Require Import Base VectorModel HeapModel.
Local Open Scope Z_scope.

(** [sizes id]: the number of slots (elements and the sentinel) of a vector.  A call
    fits if no vector has more than 2^30 slots before it and if it makes no heap of
    more than 2^30 slots. *)
Definition fits {A} (sizes : nat -> option nat) (o : @hop A) : Prop :=
  (forall id n, sizes id = Some n -> Z.of_nat n <= 2 ^ 30) /\
  match o with
  | HPush id _ => forall n, sizes id = Some n -> Z.of_nat n < 2 ^ 30
  | HRange _ _ _ _ n | HBuild _ _ _ _ n | HSort _ _ _ _ n => Z.of_nat n < 2 ^ 30
  | _ => True
  end.
(** The sizes of the vectors of a state. *)
Definition wsizes {A} (w : world A) (id : nat) : option nat := v_size <$> w_objs w !! id.
