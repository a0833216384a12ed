(** What for_each over a list should do when its callback changes lists: it goes
    on with whatever follows the element when the callback returns. *)
From Verif Require Import Base VectorModel VectorSpec Adapter ListModel ListSpec ListIterModel ListIterSpec ListEachModel.

Section Spec.
Context {A C : Type} (dbl : bool).

Fixpoint client_spec (p : client A C) (s : ispec) : sres (C * ispec) :=
  match p with
  | Done c => SVal (c, s)
  | Do o k => match is_step dbl o s with SVal (r, s) => client_spec (k r) s | SAbort => SAbort | SUnspec => SUnspec end
  end.
(** None: more than [fuel] rounds. *)
Fixpoint each_spec (fuel : nat) (cb : C -> A -> client A C) (c : C) (p stop : place) (s : ispec) : sres (option (C * ispec)) :=
  if negb (valid (s_lists s) p && valid (s_lists s) stop) then SUnspec else
  if bool_decide (p = stop) then SVal (Some (c, s)) else
  match fuel, p with
  | O, _ => SVal None
  | S f, At n =>
      match where_is n (s_lists s) with
      | Some (_, (_, a, _)) =>
          match client_spec (cb c a) s with
          | SVal (c, s) => match next_place (s_lists s) p with Some p => each_spec f cb c p stop s | None => SUnspec end
          | SAbort => SAbort
          | SUnspec => SUnspec
          end
      | None => SUnspec
      end
  | S _, EndOf _ => SUnspec
  end.
Definition each_in_spec (ops1 : list (iop A)) (fuel : nat) (id : nat) (c : C) (cb : C -> A -> client A C) (ops2 : list (iop A)) : sres (option (list (out A) * C * list (out A))) :=
  match srun (is_step dbl) ops1 ispec0 with
  | SVal (rs1, s) =>
      match s_lists s !! id with
      | Some l =>
          match each_spec fuel cb c (first_of id l) (EndOf id) s with
          | SVal (Some (c, s)) => match srun (is_step dbl) ops2 s with SVal (rs2, _) => SVal (Some (rs1, c, rs2)) | SAbort => SAbort | SUnspec => SUnspec end
          | SVal None => SVal None
          | SAbort => SAbort
          | SUnspec => SUnspec
          end
      | None => SUnspec
      end
  | SAbort => SAbort
  | SUnspec => SUnspec
  end.
End Spec.

(** Pushing values one after the other, then finishing. *)
Fixpoint pushes {A C} (push : A -> lop A) (xs : list A) (c : C) : client A C :=
  match xs with [] => Done c | x :: xs => Do (IList (push x)) (fun _ => pushes push xs c) end.
(** A callback that notes the elements it sees and pushes what each gives rise to. *)
Definition noting {A} (push : A -> lop A) (kids : A -> list A) (seen : list A) (a : A) : client A (list A) := pushes push (kids a) (seen ++ [a]).

(** Working through a queue: the next one is taken from the front, what it gives
    rise to is put at the back.  None: more than [n] of them. *)
Fixpoint work {A} (kids : A -> list A) (n : nat) (todo : list A) : option (list A) :=
  match todo, n with
  | [], _ => Some []
  | _ :: _, O => None
  | x :: todo, S n => match work kids n (todo ++ kids x) with Some vs => Some (x :: vs) | None => None end
  end.
