(** What a queue should do: first in, first out. *)
From Verif Require Import Base VectorModel VectorSpec ListModel DequeModel QueueModel.

Section Spec.
Context {A : Type}.
(** Elements oldest first; the boolean tells whether anything was pushed since
    the queue was constructed or copied empty.  [deq]: over DoubleEndedQueue,
    where the claim leaves out iterating over and copying a queue nothing was
    pushed to (C34), moves (C33) and popping or looking into an empty queue.
    Over DLinkedList it leaves out moving an empty queue (C28), front() of an
    empty queue and operator[]; pop and back() of an empty queue assert. *)
Notation sw := (gmap nat (list A * bool)).
Context (deq : bool).
Definition some_push (l : list A) : bool := match l with [] => false | _ => true end.
Definition undefined_or_assert {X} : sres X := if deq then SUnspec else SAbort.

Definition qs_step (o : qop A) (s : sw) : sres (out A * sw) :=
  let live id k := match s !! id with Some (l, b) => k l b | None => SUnspec end in
  let fresh id r := match s !! id with None => r | Some _ => SUnspec end in
  match o with
  | QNew id => fresh id (SVal (RUnit, <[id := ([], false)]> s))
  | QCopyNew id src => fresh id (live src (fun l b => if deq && negb b then SUnspec else SVal (RUnit, <[id := (l, some_push l)]> s)))
  | QAssign id src => live id (fun _ _ => live src (fun l b =>
      if Nat.eqb id src then SVal (RUnit, s)
      else if deq && negb b then SUnspec else SVal (RUnit, <[id := (l, some_push l)]> s)))
  | QMoveNew id src => fresh id (live src (fun l b =>
      if deq then SUnspec else match l with [] => SUnspec | _ => SVal (RUnit, <[src := ([], false)]> (<[id := (l, true)]> s)) end))
  | QMoveAssign id src => live id (fun _ _ => live src (fun l b =>
      if Nat.eqb id src then SVal (RUnit, s)
      else if deq then SUnspec else match l with [] => SUnspec | _ => SVal (RUnit, <[src := ([], false)]> (<[id := (l, true)]> s)) end))
  | QDestroy id => live id (fun _ _ => SVal (RUnit, delete id s))
  | QPush id a => live id (fun l _ => SVal (RUnit, <[id := (l ++ [a], true)]> s))
  | QPop id => live id (fun l b => match l with [] => undefined_or_assert | _ :: rest => SVal (RUnit, <[id := (rest, b)]> s) end)
  | QFront id => live id (fun l _ => match l with [] => SUnspec | oldest :: _ => SVal (RVal oldest, s) end)
  | QBack id => live id (fun l _ => match last l with None => undefined_or_assert | Some newest => SVal (RVal newest, s) end)
  | QAt id z => live id (fun l _ =>
      if deq then
        let i := (if z <? 0 then Z.of_nat (length l) + z else z)%Z in
        if (i <? 0)%Z then SUnspec else match l !! Z.to_nat i with Some a => SVal (RVal a, s) | None => SUnspec end
      else SUnspec)
  | QSize id => live id (fun l _ => SVal (RNat (length l), s))
  | QEmpty id => live id (fun l _ => SVal (RBool (match l with [] => true | _ => false end), s))
  | QIter id => live id (fun l b => if deq && negb b then SUnspec else SVal (RList l, s))
  end.
End Spec.
