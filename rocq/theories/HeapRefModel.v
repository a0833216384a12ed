(** Heaps with their indexing operator, their capacity, and references to
    elements as arguments of push: core/ds/Heap.hpp 67-69, 81-83 and 87-90. *)
From Verif Require Import Base VectorModel VectorSpec VecProg HeapModel.
Local Open Scope wprog_scope.

Section HeapRef.
Context {A : Type} (cmp : A -> A -> bool).

(** operator[]: Heap.hpp 81-83.  The reference is read at once; index 0 and its
    negative counterpart designate the sentinel. *)
Definition hp_at (id : nat) (i : Z) : wprog A A := wget id i.

(** capacity: Heap.hpp 67-69 (size_t: the subtraction would wrap on a vector
    without storage). *)
Definition hp_cap (id : nat) : wprog A nat :=
  n <- wcap id ;; match n with O => WUB | S n => WRet n end.

(** push (Heap.hpp 87-90) called with the reference src[i]: [src] is a heap
    (operator[], 81-83; also the element i-1 steps past begin(), 105-107) or a
    vector of the caller.  push hands the reference on to push_back (88), which
    reads it after making room: Vector.hpp 98-107. *)
Definition hp_push_ref (id src : nat) (i : Z) : wprog A unit :=
  wpush_elem id src i ;;; hp_up cmp id.

(** The operations of HeapModel.v and these three. *)
Inductive hrop :=
| HDo (o : @hop A)
| HAt (id : nat) (i : Z)
| HCap (id : nat)
| HPushRef (id src : nat) (i : Z).

Definition hr_prog (o : hrop) : wprog A (out A) :=
  match o with
  | HDo o => hp_step cmp o
  | HAt id i => a <- hp_at id i ;; WRet (RVal a)
  | HCap id => n <- hp_cap id ;; WRet (RNat n)
  | HPushRef id src i => hp_push_ref id src i ;;; WRet RUnit
  end.
End HeapRef.
Arguments HDo {A}. Arguments HAt {A}. Arguments HCap {A}. Arguments HPushRef {A}.
