(** The classes built on vectors, with their storage in the static memory pool
    (the aliases of /repo/dstruct-static.hpp 47-111): what a history should show. *)
From Verif Require Import Base VectorModel VectorSpec VecProg SMAModel SMASpec VecPoolModel VecPoolSpec.
Local Open Scope nat_scope.

Section Spec.
Context {A : Type} (triv : bool) (MEM MAX sz : Z) (port : bool) (bytes : pworld A -> list (Z * Z)).

(** The program [p], started on an empty pool, answers [rs] (or runs into an
    assertion, for [None]), and its storage lies in the pool without overlap. *)
Definition answers {X} (p : wprog A X) (rs : option X) : Prop :=
  match rs with
  | Some rs => exists w, pwrun triv MEM MAX sz port bytes p (pw_init MEM MAX) = Ok (rs, w) /\
      storage_ok (pw_w w) /\ pool_ok MEM sz w
  | None => pwrun triv MEM MAX sz port bytes p (pw_init MEM MAX) = Abort
  end.
(** It does so or crashes for want of memory; and it does not crash if all its
    requests together fit into the pool. *)
Definition answers_or_crashes {X} (p : wprog A X) (rs : option X) : Prop :=
  (fits triv sz p ∅ -> pwrun triv MEM MAX sz port bytes p (pw_init MEM MAX) = Abort \/ answers p rs) /\
  ((spent triv sz p ∅ <= MEM)%Z -> answers p rs).
(** The same for the outcome of a specification; nothing is claimed where it
    claims nothing. *)
Definition pooled {X S} (p : wprog A X) (r : sres (X * S)) : Prop :=
  match r with
  | SVal (rs, _) => answers_or_crashes p (Some rs)
  | SAbort => answers_or_crashes p None
  | SUnspec => True
  end.
End Spec.
