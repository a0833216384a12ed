(** Counting the vector operations of a client program. *)
From Verif Require Import Base VectorModel VecProg.

(** How many vector operations [p] calls when run on the vectors of [w], up to
    its end or to the call that fails (included). *)
Fixpoint calls {A X} (triv : bool) (p : wprog A X) (w : world A) : nat :=
  match p with
  | WDo o k => S (match w_step triv o w with Ok (r, w') => calls triv (k r) w' | _ => 0 end)
  | _ => 0
  end.
