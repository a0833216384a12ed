(** What disjoint sets should do with any number.  By representatives
    (specification (2) of DSUSpec.v: entry i of the list represents i). *)
From Verif Require Import Base VectorModel VectorSpec DSUModel DSUSpec DSUSignModel.
Local Open Scope Z_scope.

(** The element a number means: as in Vector, -1 is the last one. *)
Definition element (d : list nat) (x : Z) : option nat :=
  if (0 <=? x) && (x <? Z.of_nat (length d)) then Some (Z.to_nat x)
  else if (x <? 0) && (- Z.of_nat (length d) <=? x) then Some (Z.to_nat (Z.of_nat (length d) + x))
  else None.
(** A negative number that means an element representing its set: nothing is
    specified here for these. *)
Definition odd_number (d : list nat) (x : Z) : bool :=
  (x <? 0) && match element d x with Some k => Nat.eqb (rep d k) k | None => true end.

Definition dz_step (o : zop) (s : gmap nat (list nat)) : sres (out Z * gmap nat (list nat)) :=
  match o with
  | ZDo o => dr_step o s
  | ZFind id x => match s !! id with
      | Some d => if odd_number d x then SUnspec else
          match element d x with Some k => SVal (RVal (Z.of_nat (rep d k)), s) | None => SAbort end
      | None => SUnspec end
  | ZConnected id x y => match s !! id with
      | Some d => if odd_number d x || odd_number d y then SUnspec else
          match element d x, element d y with Some j, Some k => SVal (RBool (Nat.eqb (rep d j) (rep d k)), s) | _, _ => SAbort end
      | None => SUnspec end
  | ZConnect id x y => match s !! id with
      | Some d => if odd_number d x || (y <? - Z.of_nat (length d)) then SUnspec else
          match element d x, element d y with
          | Some j, Some k => if Nat.eqb (rep d j) (rep d k) then SUnspec
              else SVal (RUnit, <[id := map (fun z => if Nat.eqb z (rep d k) then rep d j else z) d]> s)
          | _, _ => SAbort end
      | None => SUnspec end
  end.
