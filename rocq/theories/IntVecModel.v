(** The machine integers of all Vector operations, for programs over vectors
    (VecProg.v): int has 32 bits and its overflow is undefined.  VectorModel.v
    computes with unbounded numbers.  Not modelled: size_t wrapping round (a size of
    2^63 or more) and the int parameters of the allocator (ArithModel.v). *)
From Verif Require Import Base VectorModel VecProg ArithModel IntModel.
Local Open Scope wprog_scope.

Section Ints.
Context {A : Type}.
Notation zn := Z.of_nat.

(** [for (int i = 0; i < n; i++)] before the loop has finished: i++ overflows if [n] is
    larger than INT_MAX (IntModel.v int_for, C102_loop). *)
Definition count (n : nat) : wprog A unit := if (zn n <=? INT_MAX)%Z then WRet tt else WUB.
(** The loop over all elements of a vector: clear (and ~Vector) core/ds/array/Vector.hpp
    132; resize 169 and 196; the copy of another vector 38. *)
Definition walk (id : nat) : wprog A unit := n <- wsize id ;; count n.
(** operator[](int index): 86-91, 122-127.  An [i] beyond the range of int is a loop
    variable that has overflowed. *)
Definition offset (id : nat) (i : Z) : wprog A Z :=
  if ((INT_MIN <=? i) && (i <=? INT_MAX))%Z then moff id i else WUB.
(** push_back: 98-107; resize is called if there is no room. *)
Definition grow (id : nat) : wprog A unit :=
  n <- wsize id ;; c <- wcap id ;; if Nat.ltb c (n + 1) then count n else WRet tt.
(** pop_back: 113-120; resize is called after the decrement, and only if there is an
    element. *)
Definition shrink (id : nat) : wprog A unit :=
  n <- wsize id ;; c <- wcap id ;; if Nat.ltb (n - 1) (c / 3) then count (n - 1) else WRet tt.

(** What the int arithmetic of an operation does; the result is the operation with the
    offset that operator[] computed.
    Vector(n, x): 25-32.  operator= and copying: 34-43, clear() first.  Moving: 45-57.
    ~Vector: 59-61.  resize(n): 159-181.  resize(n, x): 183-210; its second loop runs
    from the size to n. *)
Definition machine (o : wop A) : wprog A (wop A) :=
  match o with
  | WOp (OFill _ n _) => count n ;;; WRet o
  | WOp (OCopyNew _ src) => walk src ;;; WRet o
  | WOp (OAssign id src) => if Nat.eqb id src then WRet o else walk id ;;; walk src ;;; WRet o
  | WOp (OMoveAssign id src) => if Nat.eqb id src then WRet o else walk id ;;; WRet o
  | WOp (OPush id _) => grow id ;;; WRet o
  | WOp (OPop id) => shrink id ;;; WRet o
  | WOp (OSet id i a) => j <- offset id i ;; WRet (WOp (OSet id j a))
  | WOp (OGet id i) => j <- offset id i ;; WRet (WOp (OGet id j))
  | WOp (OResize id _) => walk id ;;; WRet o
  | WOp (OResizeFill id n _) => walk id ;;; count n ;;; WRet o
  | WOp (OClear id) => walk id ;;; WRet o
  | WOp (ODestroy id) => walk id ;;; WRet o
  | WPushElem id src i => wsize id ;;; j <- offset src i ;; grow id ;;; WRet (WPushElem id src j)
  | _ => WRet o
  end.

(** A program with the machine integers of Vector. *)
Fixpoint ints {X} (p : wprog A X) : wprog A X :=
  match p with
  | WDo o k => o' <- machine o ;; WDo o' (fun r => ints (k r))
  | _ => p
  end.

(** One call of a client (no code of its own in /repo). *)
Definition vcall (o : vop A) : wprog A (out A) := WDo (WOp o) (fun r => WRet r).
End Ints.
