(** Order laws, stated without reference to the model. *)
From Verif Require Import Base.

Definition strict_total {P} (lt : P -> P -> bool) : Prop :=
  (forall a, lt a a = false) /\ (forall a b c, lt a b = true -> lt b c = true -> lt a c = true) /\
  (forall a b, a = b \/ lt a b = true \/ lt b a = true).
(** The built-in < on addresses: a strict total order on the pointers other than
    the null pointer; unspecified when the null pointer is involved. *)
Definition address_order {P} (null : P) (raw : P -> P -> bool) : Prop :=
  (forall a, a <> null -> raw a a = false) /\
  (forall a b c, a <> null -> b <> null -> c <> null -> raw a b = true -> raw b c = true -> raw a c = true) /\
  (forall a b, a <> null -> b <> null -> a = b \/ raw a b = true \/ raw b a = true).
