(** What fixed-size arrays should do: sequences of N elements, with indices
    counted from either end. *)
From Verif Require Import Base VectorModel VectorSpec ArrayModel.

Section Spec.
Context {A : Type} (N : nat) (junk : A) (mvd : A -> A).
Notation sw := (gmap nat (list A)).
Definition with_arr {X} (s : sw) (id : nat) (k : list A -> sres X) : sres X :=
  match s !! id with Some l => k l | None => SUnspec end.
Definition no_arr {X} (s : sw) (id : nat) (r : sres X) : sres X :=
  match s !! id with None => r | Some _ => SUnspec end.

Definition a_step (o : aop A) (s : sw) : sres (out A * sw) :=
  match o with
  | ANew id => no_arr s id (SVal (RUnit, <[id := repeat junk N]> s))
  | AFill id a => no_arr s id (SVal (RUnit, <[id := repeat a N]> s))
  | ACopyNew id src => no_arr s id (with_arr s src (fun l => SVal (RUnit, <[id := l]> s)))
  | AMoveNew id src => no_arr s id (with_arr s src (fun l => SVal (RUnit, <[src := map mvd l]> (<[id := l]> s))))
  | AAssign id src => with_arr s id (fun _ => with_arr s src (fun l => SVal (RUnit, <[id := l]> s)))
  | AMoveAssign id src => with_arr s id (fun _ => with_arr s src (fun l =>
      if Nat.eqb id src then SUnspec else SVal (RUnit, <[src := map mvd l]> (<[id := l]> s))))
  | ASet id i a => with_arr s id (fun l =>
      match py_index N i with Some k => SVal (RUnit, <[id := <[k := a]> l]> s) | None => SUnspec end)
  | AGet id i => with_arr s id (fun l =>
      match py_index N i with
      | Some k => match nth_error l k with Some a => SVal (RVal a, s) | None => SUnspec end
      | None => SUnspec end)
  | ABack id => with_arr s id (fun l => match last l with Some a => SVal (RVal a, s) | None => SUnspec end)
  | AFront id => with_arr s id (fun l => match l with a :: _ => SVal (RVal a, s) | [] => SUnspec end)
  | AIter id => with_arr s id (fun l => SVal (RList l, s))
  | ASize id => with_arr s id (fun l => SVal (RNat (length l), s))
  | AEmpty id => with_arr s id (fun l => SVal (RBool (match l with [] => true | _ => false end), s))
  end.
End Spec.
