(** What for_each over an AVL tree should do when its callback changes trees: it
    goes on with whatever follows the element when the callback returns. *)
From Verif Require Import Base VectorSpec Adapter TreeModel TreeSpec TreeWorld TreeWSpec ListIterSpec TreeIterModel TreeIterSpec TreeEachModel.
Local Open Scope nat_scope.

(** What becomes of a loop: it ends; it wants more rounds than it was given; it is
    undefined; an assertion fails; nothing is claimed. *)
Inductive eres (X : Type) := EEnd (x : X) | EMore | EUndef | EAbort | EUnspec.
Arguments EEnd {X} x.
Arguments EMore {X}.
Arguments EUndef {X}.
Arguments EAbort {X}.
Arguments EUnspec {X}.

Section Spec.
Context {A C : Type} (cmp : A -> A -> bool).

Fixpoint tclient_spec (p : tclient A C) (s : kspec) : sres (C * kspec) :=
  match p with
  | TDone c => SVal (c, s)
  | TDo o k => match ks_step cmp o s with SVal (r, s) => tclient_spec (k r) s | SAbort => SAbort | SUnspec => SUnspec end
  end.
(** The loop from place [p].  It is undefined to go on from an element the callback
    removed; when the callback also pushed something, which may be put where the
    element was, nothing is claimed. *)
Fixpoint teach_spec (fuel : nat) (cb : C -> A -> tclient A C) (c : C) (p : option nat) (s : kspec) : eres (C * kspec) :=
  match p, fuel with
  | None, _ => EEnd (c, s)
  | Some _, O => EMore
  | Some n, S f =>
      match where_is n (k_sets s) with
      | Some (_, (_, a, _)) =>
          match tclient_spec (cb c a) s with
          | SVal (c, s') =>
              match next_num (k_sets s') p with
              | Some p => teach_spec f cb c p s'
              | None => if Nat.eqb (k_next s') (k_next s) then EUndef else EUnspec
              end
          | SAbort => EAbort
          | SUnspec => EUnspec
          end
      | None => EUnspec
      end
  end.
(** Calls, then the loop over tree [id], then more calls.  begin() of an empty tree
    is undefined (C43). *)
Definition teach_in_spec (ops1 : list (kop A)) (fuel : nat) (id : nat) (c : C) (cb : C -> A -> tclient A C) (ops2 : list (kop A)) : eres (list (tout A) * C * list (tout A)) :=
  match srun (ks_step cmp) ops1 kspec0 with
  | SVal (rs1, s) =>
      match k_sets s !! id with
      | Some [] => EUndef
      | Some l =>
          match teach_spec fuel cb c (first_num l) s with
          | EEnd (c, s) => match srun (ks_step cmp) ops2 s with SVal (rs2, _) => EEnd (rs1, c, rs2) | SAbort => EAbort | SUnspec => EUnspec end
          | EMore => EMore
          | EUndef => EUndef
          | EAbort => EAbort
          | EUnspec => EUnspec
          end
      | None => EUnspec
      end
  | SAbort => EAbort
  | SUnspec => EUnspec
  end.
End Spec.

(** The same client code with its result changed, and any callback made to note the
    elements it is called with. *)
Fixpoint tmap {A C D} (f : C -> D) (p : tclient A C) : tclient A D :=
  match p with TDone c => TDone (f c) | TDo o k => TDo o (fun r => tmap f (k r)) end.
Definition logging {A C} (cb : C -> A -> tclient A C) (st : list A * C) (a : A) : tclient A (list A * C) :=
  tmap (pair (fst st ++ [a])) (cb (snd st) a).

(** Pushing those of the values that are not there yet, then finishing. *)
Fixpoint adds {A C} (id : nat) (xs : list A) (c : C) : tclient A C :=
  match xs with
  | [] => TDone c
  | x :: xs => TDo (KTree (TFind id x)) (fun r => match r with
      | OOpt None => TDo (KTree (TPush id x)) (fun _ => adds id xs c)
      | _ => adds id xs c
      end)
  end.
(** A callback that notes the elements it sees and adds what each gives rise to. *)
Definition adding {A} (id : nat) (kids : A -> list A) (seen : list A) (a : A) : tclient A (list A) := adds id (kids a) (seen ++ [a]).

(** Sweeping upwards through a set that grows on the way: at [x], add what it gives
    rise to, and go on with the least one above it.  The elements passed, and the
    set at the end; None: more than [n] of them. *)
Section Sweep.
Context {A : Type} (cmp : A -> A -> bool).
Definition add_new (l : list A) (x : A) : list A := match lookup_set cmp x l with Some _ => l | None => add_set cmp x l end.
Fixpoint sweep (kids : A -> list A) (n : nat) (x : A) (l : list A) : option (list A * list A) :=
  match n with
  | O => None
  | S n =>
      let l := fold_left add_new (kids x) l in
      match next_set cmp x l with
      | None => Some ([x], l)
      | Some y => match sweep kids n y l with Some (vs, l) => Some (x :: vs, l) | None => None end
      end
  end.
End Sweep.
