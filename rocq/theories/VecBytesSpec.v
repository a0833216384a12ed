(** Which calls ask for storage, and for how many elements: by the documented growth
    policy (full: twice the size, or 2; sparse: half the capacity). *)
From Verif Require Import Base VectorModel.

Definition asks {A} (w : world A) (o : vop A) : nat :=
  match o with
  | OFill _ n _ | OResize _ n | OResizeFill _ n _ => n
  | OCopyNew _ src | OAssign _ src => match w_objs w !! src with Some u => v_cap u | None => 0 end
  | OPush id _ =>
      match w_objs w !! id with
      | Some v => if Nat.leb (v_cap v) (v_size v) then Nat.max 2 (2 * v_size v) else 0
      | None => 0
      end
  | OPop id =>
      match w_objs w !! id with
      | Some v => if Nat.ltb (v_size v - 1) (v_cap v / 3) then v_cap v / 2 else 0
      | None => 0
      end
  | _ => 0
  end.

(** The capacity of a vector into which [n] elements have been pushed one by one: a
    power of two, at least 2, or none. *)
Definition grown (n : nat) : nat := if Nat.eqb n 0 then 0 else Nat.max 2 (2 ^ Nat.log2_up n).
