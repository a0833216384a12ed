(** Outcomes of a C++ operation and the state monad the models are written in. *)
From Coq Require Export ZArith Lia List.
From stdpp Require Export base tactics list numbers gmap.

(** What running a piece of C++ can lead to.
    - [Ok x]    : it returns normally with [x];
    - [Abort]   : DSTRUCT_ASSERT / DSTRUCT_CRASH fires
                  (spec/DStructSpec.hpp 13-16, port/dstruct-port.h 38-42,
                  port/libc/libc-dstruct-port.hpp 18);
    - [UB]      : undefined behaviour (invalid dereference, access to freed or
                  raw storage, mismatched deallocation ...);
    - [Diverge] : the explicit fuel given to a loop/recursion ran out. *)
Inductive res (X : Type) : Type :=
| Ok (x : X)
| Abort
| UB
| Diverge.
Arguments Ok {X} x.
Arguments Abort {X}.
Arguments UB {X}.
Arguments Diverge {X}.

Definition M (S X : Type) : Type := S -> res (X * S).

Definition ret {S X} (x : X) : M S X := fun s => Ok (x, s).
Definition bind {S X Y} (m : M S X) (k : X -> M S Y) : M S Y :=
  fun s => match m s with
           | Ok (x, s') => k x s'
           | Abort => Abort
           | UB => UB
           | Diverge => Diverge
           end.
Definition abort {S X} : M S X := fun _ => Abort.
Definition ub {S X} : M S X := fun _ => UB.
Definition diverge {S X} : M S X := fun _ => Diverge.
Definition get {S} : M S S := fun s => Ok (s, s).
Definition put {S} (s' : S) : M S unit := fun _ => Ok (tt, s').

(** DSTRUCT_ASSERT(expr): port/dstruct-port.h 38-42. *)
Definition dassert {S} (b : bool) : M S unit := if b then ret tt else abort.

Declare Scope cpp_scope.
Delimit Scope cpp_scope with cpp.
Notation "x <- m ;; k" := (bind m (fun x => k))
  (at level 100, m at next level, right associativity) : cpp_scope.
Notation "' p <- m ;; k" := (bind m (fun x => match x with p => k end))
  (at level 100, p pattern, m at next level, right associativity) : cpp_scope.
Notation "m ;;; k" := (bind m (fun _ => k))
  (at level 100, right associativity) : cpp_scope.
Open Scope cpp_scope.

(** [for (int i = start; i < start + count; i++) body(i)] *)
Fixpoint for_range {S} (start count : nat) (body : nat -> M S unit) : M S unit :=
  match count with
  | O => ret tt
  | Datatypes.S c => body start ;;; for_range (Datatypes.S start) c body
  end.

Lemma bind_ok {S X Y} (m : M S X) (k : X -> M S Y) s x s' :
  m s = Ok (x, s') -> bind m k s = k x s'.
Proof. intros H. unfold bind. rewrite H. reflexivity. Qed.

Lemma bind_abort {S X Y} (m : M S X) (k : X -> M S Y) s :
  m s = Abort -> bind m k s = Abort.
Proof. intros H. unfold bind. rewrite H. reflexivity. Qed.

Lemma bind_ub {S X Y} (m : M S X) (k : X -> M S Y) s :
  m s = UB -> bind m k s = UB.
Proof. intros H. unfold bind. rewrite H. reflexivity. Qed.

Lemma bind_diverge {S X Y} (m : M S X) (k : X -> M S Y) s :
  m s = Diverge -> bind m k s = Diverge.
Proof. intros H. unfold bind. rewrite H. reflexivity. Qed.

Lemma bind_inv {S X Y} (m : M S X) (k : X -> M S Y) s y s2 :
  bind m k s = Ok (y, s2) -> exists x s1, m s = Ok (x, s1) /\ k x s1 = Ok (y, s2).
Proof.
  unfold bind. destruct (m s) as [[x s1]| | |]; try discriminate.
  intros H. exists x, s1. split; [reflexivity|exact H].
Qed.

Lemma bind_ret {S X Y} (x : X) (k : X -> M S Y) s : bind (ret x) k s = k x s.
Proof. reflexivity. Qed.

Lemma bind_assoc {S X Y Z} (m : M S X) (f : X -> M S Y) (g : Y -> M S Z) s :
  bind (bind m f) g s = bind m (fun x => bind (f x) g) s.
Proof. unfold bind. destruct (m s) as [[x s1]| | |]; reflexivity. Qed.
