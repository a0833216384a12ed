(** Model of core/ds/set/DisjointSet.hpp as programs over Vector<int> (as [Z];
    int arithmetic is exact: ranks never exceed the number of elements).  A
    DisjointSet object is the vector mArray_d with the same id. *)
From Verif Require Import Base VectorModel VectorSpec VecProg.
Local Open Scope wprog_scope.

(** find: DisjointSet.hpp 48-52.  The function takes and returns references;
    the model passes values.  That is the same (C91_value, for the model with
    references in DSURefModel.v). *)
Fixpoint ds_find (fuel id : nat) (index : Z) : wprog Z Z :=
  match fuel with
  | O => WDiverge
  | S f =>
      v <- wget id index ;;
      if (v <? 0)%Z then WRet index
      else r <- ds_find f id v ;; wset id index r ;;; WRet r
  end.
(** A call from outside, with as much fuel as any acyclic path can need. *)
Definition ds_find_top (id : nat) (index : Z) : wprog Z Z :=
  n <- wsize id ;; ds_find (S n) id index.

(** count: DisjointSet.hpp 54-61. *)
Definition ds_count (id : nat) : wprog Z nat :=
  l <- witer id ;; WRet (length (List.filter (fun v => (v <? 0)%Z) l)).

(** connected: DisjointSet.hpp 64-66 (operands evaluated left to right). *)
Definition ds_connected (id : nat) (x y : Z) : wprog Z bool :=
  a <- ds_find_top id x ;; b <- ds_find_top id y ;; WRet (a =? b)%Z.

(** union_set: DisjointSet.hpp 74-82. *)
Definition ds_union (id : nat) (root1 root2 : Z) : wprog Z unit :=
  if (root1 <? root2)%Z then wset id root2 root1
  else
    a <- wget id root1 ;; b <- wget id root2 ;;
    (if (a =? b)%Z then wset id root1 (a - 1)%Z else WRet tt) ;;;
    wset id root2 root1.

(** connect: DisjointSet.hpp 68-72. *)
Definition ds_connect (id : nat) (x y : Z) : wprog Z unit :=
  r1 <- ds_find_top id x ;; r2 <- ds_find_top id y ;; ds_union id r1 r2.

Inductive dop :=
| DNew (id n : nat)
| DCopyNew (id src : nat) | DMoveNew (id src : nat) | DAssign (id src : nat) | DMoveAssign (id src : nat)
| DDestroy (id : nat)
| DFind (id x : nat) | DConnected (id x y : nat) | DConnect (id x y : nat)
| DCount (id : nat) | DSize (id : nat) | DEmpty (id : nat).

(** Constructor: DisjointSet.hpp 27; the defaulted special members (28-32) are
    the vector's; empty/size: 35-41. *)
Definition ds_step (o : dop) : wprog Z (out Z) :=
  match o with
  | DNew id n => wunit (OFill id n (-1)%Z) ;;; WRet RUnit
  | DCopyNew id src => wunit (OCopyNew id src) ;;; WRet RUnit
  | DMoveNew id src => wunit (OMoveNew id src) ;;; WRet RUnit
  | DAssign id src => wunit (OAssign id src) ;;; WRet RUnit
  | DMoveAssign id src => wunit (OMoveAssign id src) ;;; WRet RUnit
  | DDestroy id => wunit (ODestroy id) ;;; WRet RUnit
  | DFind id x => r <- ds_find_top id (Z.of_nat x) ;; WRet (RVal r)
  | DConnected id x y => b <- ds_connected id (Z.of_nat x) (Z.of_nat y) ;; WRet (RBool b)
  | DConnect id x y => ds_connect id (Z.of_nat x) (Z.of_nat y) ;;; WRet RUnit
  | DCount id => n <- ds_count id ;; WRet (RNat n)
  | DSize id => n <- wsize id ;; WRet (RNat n)
  | DEmpty id => b <- wempty id ;; WRet (RBool b)
  end.
