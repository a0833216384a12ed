(** How many elements a history of deque calls puts into deques. *)
From Verif Require Import Base VectorModel VectorSpec ListModel DequeModel DequeSpec.

(** A push puts in one element, a copy as many as it copies. *)
Definition puts_in {A} (o : dop A) (s : gmap nat (list A * bool)) : nat :=
  match o with
  | DPushBack _ _ | DPushFront _ _ | DPush _ _ => 1
  | DCopyNew k src | DAssign k src => if Nat.eqb k src then 0 else match s !! src with Some (l, _) => length l | None => 0 end
  | _ => 0
  end.
Fixpoint puts_all {A} (ops : list (dop A)) (s : gmap nat (list A * bool)) : nat :=
  match ops with
  | [] => 0
  | o :: ops => puts_in o s + match ds_step o s with SVal (_, s') => puts_all ops s' | _ => 0 end
  end.
