(** What the calls should do: an argument that refers to an element is worth what the
    element is worth when the call is made. *)
From Verif Require Import Base VectorModel VectorSpec ListModel DequeModel DequeSpec DequeIterModel DequeIterSpec DequeRefModel.

Section Spec.
Context {A : Type} (eqb : A -> A -> bool).
(** The value of the element an iterator is at. *)
Definition read_at (s : jspec A) (k : nat) : option A :=
  match j_its s !! k with
  | Some p => match j_dqs s !! dp_id p with Some (l, _) => l !! dp_ix p | None => None end
  | None => None
  end.
(** The call with a copy of the element. *)
Definition with_copy (o : yop A) (s : jspec A) : option (jop A) :=
  match o with
  | YJ o => Some o
  | YPushBack id k => (fun x => JDeq (DPushBack id x)) <$> read_at s k
  | YPushFront id k => (fun x => JDeq (DPushFront id x)) <$> read_at s k
  | YPush id k => (fun x => JDeq (DPush id x)) <$> read_at s k
  end.
Definition ys_step (o : yop A) (s : jspec A) : sres (out A * jspec A) :=
  match with_copy o s with Some o => js_step eqb o s | None => SUnspec end.
End Spec.
