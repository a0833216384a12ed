(** What heaps should do with references to elements: a heap is a bag, listed
    with an extremal element first as in HeapSpec.v, together with its sentinel
    and its capacity. *)
From Verif Require Import Base VectorModel VectorSpec HeapModel HeapSpec HeapRefModel.

Inductive robj (A : Type) := RHeap (g : A) (l : list A) (cap : nat) | RVec (l : list A).
Arguments RHeap {A} g l cap.
Arguments RVec {A} l.

Section Spec.
Context {A : Type} (triv : bool) (le : A -> A -> Prop).
Notation rworld := (gmap nat (robj A)).

(** The bag alone. *)
Definition bare (o : robj A) : hobj A :=
  match o with RHeap _ l _ => HeapObj l | RVec l => VecObj l end.

(** What the client can index: the sentinel and then the elements. *)
Definition shown (o : robj A) : list A := match o with RHeap g l _ => g :: l | RVec l => l end.

(** The objects a call may change. *)
Definition touched (o : @hop A) : list nat :=
  match o with
  | HVec id _ | HNew id _ | HRange id _ _ _ _ | HCopyNew id _ | HAssign id _
  | HDestroy id | HPush id _ | HPop id => [id]
  | HMoveNew id src | HMoveAssign id src | HBuild id _ src _ _ | HSort id _ src _ _ => [id; src]
  | HVIter _ | HTop _ | HSize _ | HEmpty _ | HIter _ => []
  end.

Definition sentinel (s : rworld) (id : nat) : option A :=
  match s !! id with Some (RHeap g _ _) => Some g | _ => None end.

(** The sentinel heap [id] has after call [o]: the one it was built with, or
    that of the heap it was copied or moved from. *)
Definition sentinel_after (o : @hop A) (s : rworld) (id : nat) : option A :=
  match o with
  | HNew j g | HRange j g _ _ _ | HBuild j g _ _ _ => if Nat.eqb id j then Some g else sentinel s id
  | HCopyNew j src | HAssign j src => if Nat.eqb id j then sentinel s src else sentinel s id
  | HMoveNew j src | HMoveAssign j src => if Nat.eqb id j then sentinel s src else sentinel s id
  | _ => sentinel s id
  end.

(** What a call leaves alone: other objects, the sentinel, and the capacity of
    a heap pushed to while it is not full.  The capacity covers the size. *)
Definition kept (o : @hop A) (s s' : rworld) : Prop :=
  (forall id, ~ In id (touched o) -> s' !! id = s !! id) /\
  (forall id g l cap, s' !! id = Some (RHeap g l cap) ->
     sentinel_after o s id = Some g /\ length l <= cap) /\
  (forall id a g l cap, o = HPush id a -> s !! id = Some (RHeap g l cap) -> length l < cap ->
     exists l', s' !! id = Some (RHeap g l' cap)).

(** [hr_step o s r]: result [r] is a right one for call [o] in state [s]. *)
Definition hr_step (o : @hrop A) (s : rworld) (r : sres (out A * rworld)) : Prop :=
  match o with
  | HDo o => exists r0, h_step triv le o (bare <$> s) r0 /\
      match r0 with
      | SVal (x, t) => exists s', r = SVal (x, s') /\ bare <$> s' = t /\ kept o s s'
      | SAbort => r = SAbort
      | SUnspec => r = SUnspec
      end
  | HAt id i =>
      match s !! id with
      | Some (RHeap g l cap) =>
          match py_index (S (length l)) i with
          | Some k => exists a, nth_error (g :: l) k = Some a /\ r = SVal (RVal a, s)
          | None => r = if (Z.of_nat (length l) <? i)%Z then SAbort else SUnspec
          end
      | _ => r = SUnspec
      end
  | HCap id => match s !! id with Some (RHeap g l cap) => r = SVal (RNat cap, s) | _ => r = SUnspec end
  | HPushRef id src i =>
      match s !! id, s !! src with
      | Some (RHeap g l cap), Some o =>
          match py_index (length (shown o)) i with
          | Some k =>
              if Nat.eqb id src && Nat.eqb (length l) cap then r = SUnspec
              else exists a l' cap', nth_error (shown o) k = Some a /\
                Permutation l' (a :: l) /\ first_extremal le l' /\ length l' <= cap' /\
                (length l < cap -> cap' = cap) /\
                r = SVal (RUnit, <[id := RHeap g l' cap']> s)
          | None => r = if (Z.of_nat (length (shown o)) <=? i)%Z then SAbort else SUnspec
          end
      | _, _ => r = SUnspec
      end
  end.

(** [hr_run ops s r]: [r] is a right outcome of history [ops]. *)
Fixpoint hr_run (ops : list (@hrop A)) (s : rworld) (r : sres (list (out A) * rworld)) : Prop :=
  match ops with
  | [] => r = SVal ([], s)
  | o :: ops => exists r1, hr_step o s r1 /\
      match r1 with
      | SVal (x, s') => exists r2, hr_run ops s' r2 /\
          r = match r2 with SVal (xs, s'') => SVal (x :: xs, s'') | SAbort => SAbort | SUnspec => SUnspec end
      | SAbort => r = SAbort
      | SUnspec => r = SUnspec
      end
  end.
End Spec.
