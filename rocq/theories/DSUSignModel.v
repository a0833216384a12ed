(** DisjointSet called with any int as element number (DisjointSet.hpp 48, 64, 68
    take const int &).  The methods are those of DSUModel.v, which already takes
    integers; the calls there have natural numbers only. *)
From Verif Require Import Base VectorModel VectorSpec VecProg DSUModel.
Local Open Scope wprog_scope.

(** A call of DSUModel.v, or find, connected or connect with any number. *)
Inductive zop := ZDo (o : dop) | ZFind (id : nat) (x : Z) | ZConnected (id : nat) (x y : Z) | ZConnect (id : nat) (x y : Z).

(** find: DisjointSet.hpp 48-52; connected: 64-66; connect: 68-72. *)
Definition zs_step (o : zop) : wprog Z (out Z) :=
  match o with
  | ZDo o => ds_step o
  | ZFind id x => r <- ds_find_top id x ;; WRet (RVal r)
  | ZConnected id x y => b <- ds_connected id x y ;; WRet (RBool b)
  | ZConnect id x y => ds_connect id x y ;;; WRet RUnit
  end.
