(** DisjointSet with its last public method: union_set called by a client.  All
    the other calls are those of DSUModel.v. *)
From Verif Require Import Base VectorModel VectorSpec VecProg DSUModel.
Local Open Scope wprog_scope.

(** The public interface of DisjointSet, DisjointSet.hpp 27-82: a call of
    DSUModel.v, or union_set(root1, root2). *)
Inductive uop := UDo (o : dop) | UUnion (id root1 root2 : nat).

(** union_set is public: DisjointSet.hpp 63, 74-82; [ds_union] (DSUModel.v)
    transcribes it.  Its parameters are references; the model passes values,
    which is the same (C91_value). *)
Definition us_step (o : uop) : wprog Z (out Z) :=
  match o with
  | UDo o => ds_step o
  | UUnion id root1 root2 => ds_union id (Z.of_nat root1) (Z.of_nat root2) ;;; WRet RUnit
  end.
