(** What the calls should do: an argument that refers to an element is worth what the
    element is worth when the call is made. *)
From Verif Require Import Base VectorModel VectorSpec ListModel ListSpec ListIterModel ListIterSpec ListRefModel.

Section Spec.
Context {A : Type} (dbl : bool).
(** The value of the element an iterator is at. *)
Definition read_at (s : @ispec A) (k : nat) : option A :=
  match s_its s !! k with
  | Some (At n) => match where_is n (s_lists s) with Some (_, (_, x, _)) => Some x | None => None end
  | _ => None
  end.
(** The call with a copy of the element. *)
Definition with_copy (o : zop A) (s : ispec) : option (iop A) :=
  match o with
  | ZI o => Some o
  | ZPushFront id k => (fun x => IList (LPushFront id x)) <$> read_at s k
  | ZPushBack id k => (fun x => IList (LPushBack id x)) <$> read_at s k
  | ZPush id k => (fun x => IList (LPush id x)) <$> read_at s k
  | ZFill id n k => (fun x => IList (LFill id n x)) <$> read_at s k
  end.
Definition zs_step (o : zop A) (s : ispec) : sres (out A * ispec) :=
  match with_copy o s with Some o => is_step dbl o s | None => SUnspec end.
End Spec.
