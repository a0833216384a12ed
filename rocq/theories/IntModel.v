(** The int arithmetic of Vector's operator[] and counting loops and of Heap, with
    the ranges and conversions of ArithModel.v: int has 32 bits and its overflow is
    undefined, size_t has 64 and wraps, and conversion to int wraps as well.
    VectorModel.v and HeapModel.v compute with unbounded numbers instead. *)
From Verif Require Import Base VectorModel VecProg ArithModel HeapModel.
Local Open Scope Z_scope.

(** Vector's operator[]: the offset into mC_d, for a vector of [n] elements
    (core/ds/array/Vector.hpp 86-91, 122-127).  mSize_d + index is computed in size_t
    and converted to int when it is assigned to index. *)
Definition int_index (n i : Z) : res Z :=
  let i := if i <? 0 then to_int (to_size (n + to_size i)) else i in
  if i <? to_int n then Ok i else Abort.

(** [for (int i = start; i < n; i++)] for a size_t [n]: the values of i the body sees
    (Vector.hpp 28, 38, 132, 169, 196, 205).  The comparison converts i to size_t.
    Diverge: more than [fuel] rounds. *)
Fixpoint int_for (fuel : nat) (i n : Z) : res (list Z) :=
  if to_size i <? n then
    match fuel with
    | O => Diverge
    | S f =>
        if i =? INT_MAX then UB else
        match int_for f (i + 1) n with
        | Ok l => Ok (i :: l)
        | Abort => Abort | UB => UB | Diverge => Diverge
        end
    end
  else Ok [].

Section Heap.
Context {A : Type} (cmp : A -> A -> bool).
Notation zn := Z.of_nat.
Local Open Scope wprog_scope.

(** The result of an int operation. *)
Definition wint (z : Z) : wprog A Z := if (INT_MIN <=? z) && (z <=? INT_MAX) then WRet z else WUB.
(** mHeap_d[i] through operator[]: an offset that is not below 0 is below the size. *)
Definition moff (id : nat) (i : Z) : wprog A Z :=
  n <- wsize id ;;
  match int_index (zn n) i with
  | Ok j => if j <? 0 then WUB else WRet j
  | Abort => WAbort
  | UB => WUB
  | Diverge => WDiverge
  end.
Definition mget (id : nat) (i : Z) : wprog A A := j <- moff id i ;; wget id j.
Definition mset (id : nat) (i : Z) (a : A) : wprog A unit := j <- moff id i ;; wset id j a.

(** dstruct::swap(mHeap_d[i], mHeap_d[j]): core/utils.hpp 99-104. *)
Definition mi_swap (id : nat) (i j : Z) : wprog A unit :=
  a <- mget id i ;; b <- mget id j ;; mset id i b ;;; mset id j a.
(** _adjust_up: core/ds/Heap.hpp 135-146.  node / 2 cannot overflow; mHeap_d.size() - 1
    is computed in size_t. *)
Fixpoint mi_up_loop (fuel id : nat) (node : Z) : wprog A unit :=
  match fuel with
  | O => WDiverge
  | S f =>
      if 1 <? node then
        let parent := Z.quot node 2 in
        a <- mget id parent ;; b <- mget id node ;;
        if negb (cmp a b) then mi_swap id parent node ;;; mi_up_loop f id parent else WRet tt
      else WRet tt
  end.
Definition mi_up (id : nat) : wprog A unit :=
  n <- wsize id ;; mi_up_loop n id (to_int (to_size (zn n - 1))).
(** [if (child < heapSize && !mCmp_d(mHeap_d[target], mHeap_d[child])) target = child]:
    Heap.hpp 158-164. *)
Definition mi_pick (id : nat) (size target child : Z) : wprog A Z :=
  if child <? size then
    a <- mget id target ;; b <- mget id child ;;
    WRet (if negb (cmp a b) then child else target)
  else WRet target.
(** _adjust_down: Heap.hpp 148-171. *)
Fixpoint mi_down_loop (fuel id : nat) (size parent : Z) : wprog A unit :=
  match fuel with
  | O => WDiverge
  | S f =>
      left <- wint (2 * parent) ;;
      right <- wint (left + 1) ;;
      t1 <- mi_pick id size parent left ;;
      t2 <- mi_pick id size t1 right ;;
      if t2 =? parent then WRet tt
      else mi_swap id parent t2 ;;; mi_down_loop f id size t2
  end.
Definition mi_down (id : nat) (node : Z) : wprog A unit :=
  n <- wsize id ;; mi_down_loop (S n) id (to_int (zn n)) node.
(** push: Heap.hpp 87-90; pop: 92-101; top: 77-79. *)
Definition mi_push (id : nat) (a : A) : wprog A unit := wunit (OPush id a) ;;; mi_up id.
Definition mi_pop (id : nat) : wprog A unit :=
  b <- wval (OBack id) ;; mset id 1 b ;;; wunit (OPop id) ;;; mi_down id 1.
Definition mi_top (id : nat) : wprog A A := mget id 1.
(** [for (int i = (mHeap_d.size() - 1) / 2; i >= 1; i--) _adjust_down(i)]: Heap.hpp 39-41. *)
Fixpoint mi_heapify (fuel id : nat) (i : Z) : wprog A unit :=
  if 1 <=? i then
    match fuel with
    | O => WDiverge
    | S f => mi_down id i ;;; i <- wint (i - 1) ;; mi_heapify f id i
    end
  else WRet tt.
(** Heap(begin, end): Heap.hpp 31-42; the loops over iterators are those of HeapModel.v. *)
Definition mi_range (id : nat) (obj : A) (src b n : nat) : wprog A unit :=
  hp_new id obj ;;;
  wunit (OResize id (n + 1)) ;;;
  hp_fill id src b n ;;;
  m <- wsize id ;; mi_heapify m id (to_int (to_size (zn m - 1) / 2)).
(** Move assignment: Heap.hpp 51-57. *)
Definition mi_move_assign (id src : nat) : wprog A unit :=
  wunit (OMoveAssign id src) ;;; s <- mget id 0 ;; wunit (OResizeFill src 1 s).
Definition mi_move_new (id src : nat) : wprog A unit := wunit (ONew id) ;;; mi_move_assign id src.
(** build: Heap.hpp 115-122; sort: 124-129. *)
Definition mi_build (id : nat) (obj : A) (src b n : nat) : wprog A unit :=
  mi_range id obj src b n ;;; hp_copy_back id 1 src b n.
Fixpoint mi_sort_loop (id src i n : nat) : wprog A unit :=
  match n with
  | O => WRet tt
  | S n => v <- mi_top id ;; wset src (zn i) v ;;; mi_pop id ;;; mi_sort_loop id src (S i) n
  end.
Definition mi_sort (id : nat) (obj : A) (src b n : nat) : wprog A unit :=
  mi_range id obj src b n ;;; mi_sort_loop id src b n ;;; wunit (ODestroy id).

(** The public operations, as [hp_step] of HeapModel.v. *)
Definition mi_step (o : hop) : wprog A (out A) :=
  match o with
  | HRange id obj src b n => mi_range id obj src b n ;;; WRet RUnit
  | HMoveNew id src => mi_move_new id src ;;; WRet RUnit
  | HMoveAssign id src => mi_move_assign id src ;;; WRet RUnit
  | HPush id a => mi_push id a ;;; WRet RUnit
  | HPop id => mi_pop id ;;; WRet RUnit
  | HTop id => a <- mi_top id ;; WRet (RVal a)
  | HBuild id obj src b n => mi_build id obj src b n ;;; WRet RUnit
  | HSort id obj src b n => mi_sort id obj src b n ;;; WRet RUnit
  | o => hp_step cmp o
  end.
End Heap.
