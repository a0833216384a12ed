(** What union_set should do when a client calls it.  By representatives
    (specification (2) of DSUSpec.v: entry i of the list represents i). *)
From Verif Require Import Base VectorModel VectorSpec DSUModel DSUSpec DSUUnionModel.

(** Two calls are right: the second argument represents a set that the first is
    not in (the two sets become one), and the first argument represents the
    second (nothing happens).  An element that does not exist asserts. *)
Definition du_step (o : uop) (s : gmap nat (list nat)) : sres (out Z * gmap nat (list nat)) :=
  match o with
  | UDo o => dr_step o s
  | UUnion id x y => match s !! id with
      | Some d =>
          if Nat.ltb x (length d) && Nat.ltb y (length d) then
            if Nat.eqb (rep d y) y then
              if Nat.eqb (rep d x) y then SUnspec
              else SVal (RUnit, <[id := map (fun z => if Nat.eqb z y then rep d x else z) d]> s)
            else if Nat.eqb (rep d y) x then SVal (RUnit, s) else SUnspec
          else SAbort
      | None => SUnspec
      end
  end.
