(** When the ints of Vector are large enough for strings. *)
From Verif Require Import Base StringModel StringSpec ArithModel.
Local Open Scope Z_scope.

(** The C strings of a call have fewer than INT_MAX characters, and its index is an int. *)
Definition small_text (o : top) : Prop :=
  match o with
  | TLit _ buf | TAssignC _ buf | TAppendC _ buf | TPlusCR _ _ buf | TPlusCL _ buf _
  | TEqCR _ buf | TEqCL buf _ | TNeCR _ buf | TNeCL buf _ =>
      forall l, cstr buf = Some l -> Z.of_nat (length l) < INT_MAX
  | TSet _ i _ | TGet _ i => i <= INT_MAX
  | _ => True
  end.
(** All strings have fewer than INT_MAX characters. *)
Definition small_strs (s : gmap nat tstr) : Prop :=
  forall id l, s !! id = Some (TLive l) -> Z.of_nat (length l) < INT_MAX.
