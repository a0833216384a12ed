(** How tall a search tree is. *)
From Verif Require Import Base BstSpec.

(** The number of levels. *)
Fixpoint levels {A} (t : bt A) : nat := match t with BE => 0 | BN l _ r => S (Nat.max (levels l) (levels r)) end.
