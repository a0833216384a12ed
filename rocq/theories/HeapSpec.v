(** What priority queues should do: a bag of elements per heap, of which the
    first listed is the one top() shows; plain lists for the caller's vectors. *)
From Coq Require Import Sorting.Sorted.
From Verif Require Import Base VectorModel VectorSpec HeapModel.

Inductive hobj (A : Type) := HeapObj (l : list A) | VecObj (l : list A).
Arguments HeapObj {A} l.
Arguments VecObj {A} l.

Section Spec.
Context {A : Type} (triv : bool) (le : A -> A -> Prop).
Notation hworld := (gmap nat (hobj A)).

(** The first element is extremal. *)
Definition first_extremal (l : list A) : Prop :=
  match l with [] => True | x :: t => forall y, In y t -> le x y end.

(** Heap order: every element is after its parent. *)
Definition heap_ord (l : list A) : Prop :=
  forall i j x y, j = 2 * i + 1 \/ j = 2 * i + 2 -> nth_error l i = Some x -> nth_error l j = Some y -> le x y.

(** [h_step o s r]: result [r] is a right one for call [o] in state [s]. *)
Definition h_step (o : @hop A) (s : hworld) (r : sres (out A * hworld)) : Prop :=
  match o with
  | HVec id l => match s !! id with None => r = SVal (RUnit, <[id := VecObj l]> s) | _ => r = SUnspec end
  | HVIter id => match s !! id with Some (VecObj l) => r = SVal (RList l, s) | _ => r = SUnspec end
  | HNew id obj => match s !! id with None => r = SVal (RUnit, <[id := HeapObj []]> s) | _ => r = SUnspec end
  | HRange id obj src b n =>
      match s !! id, s !! src with
      | None, Some (VecObj u) =>
          if Nat.leb (b + n) (length u) then
            exists l, Permutation l (firstn n (skipn b u)) /\ first_extremal l /\
              r = SVal (RUnit, <[id := HeapObj l]> s)
          else r = SUnspec
      | _, _ => r = SUnspec
      end
  | HCopyNew id src =>
      match s !! id, s !! src with
      | None, Some (HeapObj l) =>
          if triv then r = SVal (RUnit, <[id := HeapObj l]> s) else r = SUnspec
      | _, _ => r = SUnspec
      end
  | HMoveNew id src =>
      match s !! id, s !! src with
      | None, Some (HeapObj l) => r = SVal (RUnit, <[src := HeapObj []]> (<[id := HeapObj l]> s))
      | _, _ => r = SUnspec
      end
  | HAssign id src =>
      match s !! id, s !! src with
      | Some (HeapObj _), Some (HeapObj l) =>
          if Nat.eqb id src then r = SVal (RUnit, s)
          else if triv then r = SVal (RUnit, <[id := HeapObj l]> s) else r = SUnspec
      | _, _ => r = SUnspec
      end
  | HMoveAssign id src =>
      match s !! id, s !! src with
      | Some (HeapObj _), Some (HeapObj l) =>
          if Nat.eqb id src then r = SUnspec
          else r = SVal (RUnit, <[src := HeapObj []]> (<[id := HeapObj l]> s))
      | _, _ => r = SUnspec
      end
  | HDestroy id => match s !! id with Some _ => r = SVal (RUnit, delete id s) | _ => r = SUnspec end
  | HPush id a =>
      match s !! id with
      | Some (HeapObj l) => exists l', Permutation l' (a :: l) /\ first_extremal l' /\
          r = SVal (RUnit, <[id := HeapObj l']> s)
      | _ => r = SUnspec
      end
  | HPop id =>
      match s !! id with
      | Some (HeapObj []) => r = SAbort
      | Some (HeapObj (_ :: l)) => exists l', Permutation l' l /\ first_extremal l' /\
          r = SVal (RUnit, <[id := HeapObj l']> s)
      | _ => r = SUnspec
      end
  | HTop id =>
      match s !! id with
      | Some (HeapObj []) => r = SAbort
      | Some (HeapObj (x :: _)) => r = SVal (RVal x, s)
      | _ => r = SUnspec
      end
  | HSize id => match s !! id with Some (HeapObj l) => r = SVal (RNat (length l), s) | _ => r = SUnspec end
  | HEmpty id => match s !! id with
      | Some (HeapObj l) => r = SVal (RBool (match l with [] => true | _ => false end), s)
      | _ => r = SUnspec end
  | HIter id => match s !! id with
      | Some (HeapObj l) => exists l', Permutation l' l /\ r = SVal (RList l', s)
      | _ => r = SUnspec end
  | HBuild id obj src b n =>
      match s !! id, s !! src with
      | None, Some (VecObj u) =>
          if Nat.leb (b + n) (length u) then
            exists l, Permutation l (firstn n (skipn b u)) /\ first_extremal l /\
              heap_ord l /\
              r = SVal (RUnit, <[src := VecObj (firstn b u ++ l ++ skipn (b + n) u)]> (<[id := HeapObj l]> s))
          else r = SUnspec
      | _, _ => r = SUnspec
      end
  | HSort id obj src b n =>
      match s !! id, s !! src with
      | None, Some (VecObj u) =>
          if Nat.leb (b + n) (length u) then
            exists l, Permutation l (firstn n (skipn b u)) /\ StronglySorted le l /\
              r = SVal (RUnit, <[src := VecObj (firstn b u ++ l ++ skipn (b + n) u)]> s)
          else r = SUnspec
      | _, _ => r = SUnspec
      end
  end.

(** [h_run ops s r]: [r] is a right outcome of history [ops]. *)
Fixpoint h_run (ops : list (@hop A)) (s : hworld) (r : sres (list (out A) * hworld)) : Prop :=
  match ops with
  | [] => r = SVal ([], s)
  | o :: ops => exists r1, h_step o s r1 /\
      match r1 with
      | SVal (x, s') => exists r2, h_run ops s' r2 /\
          r = match r2 with SVal (xs, s'') => SVal (x :: xs, s'') | SAbort => SAbort | SUnspec => SUnspec end
      | SAbort => r = SAbort
      | SUnspec => r = SUnspec
      end
  end.
End Spec.
