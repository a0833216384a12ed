(** Model of core/ds/Heap.hpp as programs over vectors.  A Heap object is the
    vector mHeap_d with the same id; slot 0 is the sentinel.  mCmp_d is a
    function [cmp] common to all heaps (a stateless comparator type).
    int arithmetic on indices is exact up to 2^30 slots (IntModel.v). *)
From Verif Require Import Base VectorModel VectorSpec VecProg.
Local Open Scope wprog_scope.

Section Heap.
Context {A : Type} (cmp : A -> A -> bool).
Notation zn := Z.of_nat.

(** dstruct::swap(mHeap_d[i], mHeap_d[j]): core/utils.hpp 99-104. *)
Definition hp_swap (id i j : nat) : wprog A unit :=
  a <- wget id (zn i) ;; b <- wget id (zn j) ;; wset id (zn i) b ;;; wset id (zn j) a.

(** The loop of _adjust_up: Heap.hpp 137-145. *)
Fixpoint hp_up_loop (fuel id node : nat) : wprog A unit :=
  match fuel with
  | O => WDiverge
  | S f =>
      if Nat.ltb 1 node then
        let parent := node / 2 in
        a <- wget id (zn parent) ;; b <- wget id (zn node) ;;
        if negb (cmp a b) then hp_swap id parent node ;;; hp_up_loop f id parent else WRet tt
      else WRet tt
  end.
(** _adjust_up: Heap.hpp 135-146. *)
Definition hp_up (id : nat) : wprog A unit :=
  n <- wsize id ;; hp_up_loop n id (n - 1).

(** [if (child < heapSize && !mCmp_d(mHeap_d[target], mHeap_d[child])) target = child]:
    Heap.hpp 158-164. *)
Definition hp_pick (id size target child : nat) : wprog A nat :=
  if Nat.ltb child size then
    a <- wget id (zn target) ;; b <- wget id (zn child) ;;
    WRet (if negb (cmp a b) then child else target)
  else WRet target.

(** The loop of _adjust_down: Heap.hpp 153-170. *)
Fixpoint hp_down_loop (fuel id size parent : nat) : wprog A unit :=
  match fuel with
  | O => WDiverge
  | S f =>
      let left := 2 * parent in
      let right := left + 1 in
      t1 <- hp_pick id size parent left ;;
      t2 <- hp_pick id size t1 right ;;
      if Nat.eqb t2 parent then WRet tt
      else hp_swap id parent t2 ;;; hp_down_loop f id size t2
  end.
(** _adjust_down: Heap.hpp 148-171. *)
Definition hp_down (id node : nat) : wprog A unit :=
  n <- wsize id ;; hp_down_loop (S n) id n node.

(** push: Heap.hpp 87-90. *)
Definition hp_push (id : nat) (a : A) : wprog A unit := wunit (OPush id a) ;;; hp_up id.

(** pop: Heap.hpp 92-101. *)
Definition hp_pop (id : nat) : wprog A unit :=
  b <- wval (OBack id) ;; wset id 1 b ;;; wunit (OPop id) ;;; hp_down id 1.

(** top: Heap.hpp 77-79. *)
Definition hp_top (id : nat) : wprog A A := wget id 1.

(** size: Heap.hpp 63-65 (size_t: the subtraction wraps on an empty vector);
    empty: 71-73. *)
Definition hp_size (id : nat) : wprog A nat :=
  n <- wsize id ;; match n with O => WUB | S n => WRet n end.
Definition hp_empty (id : nat) : wprog A bool := n <- wsize id ;; WRet (Nat.eqb n 1).

(** Iteration begin()+1 .. end(): Heap.hpp 105-111. *)
Definition hp_iter (id : nat) : wprog A (list A) := l <- witer id ;; WRet (tail l).

(** Heap(cmp, obj): Heap.hpp 28-29. *)
Definition hp_new (id : nat) (obj : A) : wprog A unit := wunit (OFill id 1 obj).

(** [for (auto it = begin; it != end; it++) mHeap_d.push_back( *it)] over the
    elements src[i], ..., src[i+n-1]: Heap.hpp 35-37. *)
Fixpoint hp_fill (id src i n : nat) : wprog A unit :=
  match n with
  | O => WRet tt
  | S n => wpush_elem id src (zn i) ;;; hp_fill id src (S i) n
  end.
(** [for (int i = k; i >= 1; i--) _adjust_down(i)]: Heap.hpp 39-41. *)
Fixpoint hp_heapify (id k : nat) : wprog A unit :=
  match k with
  | O => WRet tt
  | S k' => hp_down id k ;;; hp_heapify id k'
  end.

(** Heap(begin, end) over the range [b, b+n) of vector [src]; [obj] is the
    sentinel T(): Heap.hpp 31-42. *)
Definition hp_range (id : nat) (obj : A) (src b n : nat) : wprog A unit :=
  hp_new id obj ;;;
  wunit (OResize id (n + 1)) ;;;
  hp_fill id src b n ;;;
  m <- wsize id ;; hp_heapify id ((m - 1) / 2).

(** Copy: Heap.hpp 44-49.  Move: 51-57; the reference this->mHeap_d[0] is read
    first, which is the same since it lies in another vector (and is not read at
    all on self-move, the vector not growing). *)
Definition hp_copy_assign (id src : nat) : wprog A unit := wunit (OAssign id src).
Definition hp_copy_new (id src : nat) : wprog A unit := wunit (ONew id) ;;; hp_copy_assign id src.
Definition hp_move_assign (id src : nat) : wprog A unit :=
  wunit (OMoveAssign id src) ;;; s <- wget id 0 ;; wunit (OResizeFill src 1 s).
Definition hp_move_new (id src : nat) : wprog A unit := wunit (ONew id) ;;; hp_move_assign id src.

(** build: Heap.hpp 115-122; the returned heap is the local one (elided copy). *)
Fixpoint hp_copy_back (id h dst i n : nat) : wprog A unit :=
  match n with
  | O => WRet tt
  | S n => v <- wget id (zn h) ;; wset dst (zn i) v ;;; hp_copy_back id (S h) dst (S i) n
  end.
Definition hp_build (id : nat) (obj : A) (src b n : nat) : wprog A unit :=
  hp_range id obj src b n ;;; hp_copy_back id 1 src b n.

(** sort: Heap.hpp 124-129; the local heap is object [id]. *)
Fixpoint hp_sort_loop (id src i n : nat) : wprog A unit :=
  match n with
  | O => WRet tt
  | S n => v <- hp_top id ;; wset src (zn i) v ;;; hp_pop id ;;; hp_sort_loop id src (S i) n
  end.
Definition hp_sort (id : nat) (obj : A) (src b n : nat) : wprog A unit :=
  hp_range id obj src b n ;;; hp_sort_loop id src b n ;;; wunit (ODestroy id).

(** The public operations.  [HVec id l] makes a caller-owned vector holding [l]
    (something to take ranges from); [HVIter] reads it. *)
Inductive hop :=
| HVec (id : nat) (l : list A) | HVIter (id : nat)
| HNew (id : nat) (obj : A) | HRange (id : nat) (obj : A) (src b n : nat)
| HCopyNew (id src : nat) | HMoveNew (id src : nat) | HAssign (id src : nat) | HMoveAssign (id src : nat)
| HDestroy (id : nat)
| HPush (id : nat) (a : A) | HPop (id : nat) | HTop (id : nat)
| HSize (id : nat) | HEmpty (id : nat) | HIter (id : nat)
| HBuild (id : nat) (obj : A) (src b n : nat) | HSort (id : nat) (obj : A) (src b n : nat).

Fixpoint push_all (id : nat) (l : list A) : wprog A unit :=
  match l with [] => WRet tt | a :: l => wunit (OPush id a) ;;; push_all id l end.

Definition hp_step (o : hop) : wprog A (out A) :=
  match o with
  | HVec id l => wunit (ONew id) ;;; push_all id l ;;; WRet RUnit
  | HVIter id => l <- witer id ;; WRet (RList l)
  | HNew id obj => hp_new id obj ;;; WRet RUnit
  | HRange id obj src b n => hp_range id obj src b n ;;; WRet RUnit
  | HCopyNew id src => hp_copy_new id src ;;; WRet RUnit
  | HMoveNew id src => hp_move_new id src ;;; WRet RUnit
  | HAssign id src => hp_copy_assign id src ;;; WRet RUnit
  | HMoveAssign id src => hp_move_assign id src ;;; WRet RUnit
  | HDestroy id => wunit (ODestroy id) ;;; WRet RUnit
  | HPush id a => hp_push id a ;;; WRet RUnit
  | HPop id => hp_pop id ;;; WRet RUnit
  | HTop id => a <- hp_top id ;; WRet (RVal a)
  | HSize id => n <- hp_size id ;; WRet (RNat n)
  | HEmpty id => b <- hp_empty id ;; WRet (RBool b)
  | HIter id => l <- hp_iter id ;; WRet (RList l)
  | HBuild id obj src b n => hp_build id obj src b n ;;; WRet RUnit
  | HSort id obj src b n => hp_sort id obj src b n ;;; WRet RUnit
  end.
End Heap.
Arguments HVec {A}. Arguments HVIter {A}. Arguments HNew {A}. Arguments HRange {A}. Arguments HCopyNew {A}.
Arguments HMoveNew {A}. Arguments HAssign {A}. Arguments HMoveAssign {A}. Arguments HDestroy {A}.
Arguments HPush {A}. Arguments HPop {A}. Arguments HTop {A}. Arguments HSize {A}. Arguments HEmpty {A}.
Arguments HIter {A}. Arguments HBuild {A}. Arguments HSort {A}.
