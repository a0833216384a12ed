(** What the calls should do: an argument that refers to an element is worth what the
    element is worth when the call is made, even if the call removes the element. *)
From Verif Require Import Base VectorSpec TreeModel TreeSpec TreeWorld TreeWSpec ListIterSpec TreeIterModel TreeIterSpec TreeRefModel.

Section Spec.
Context {A : Type} (cmp : A -> A -> bool).
(** The value of the live element an iterator is at. *)
Definition value_at (s : kspec (A := A)) (k : nat) : option A :=
  match k_its s !! k with
  | Some (Some n) => match where_is n (k_sets s) with Some (_, (_, x, _)) => Some x | None => None end
  | _ => None
  end.
(** The call with a copy of the element. *)
Definition by_copy (o : xop A) (s : kspec (A := A)) : option (kop A) :=
  match o with
  | XK o => Some o
  | XPushAt id k => (fun x => KTree (TPush id x)) <$> value_at s k
  | XPopAt id k => (fun x => KTree (TPop id x)) <$> value_at s k
  end.
Definition xs_step (o : xop A) (s : kspec (A := A)) : sres (tout A * kspec) :=
  match by_copy o s with Some o => ks_step cmp o s | None => SUnspec end.
End Spec.
