(** What for_each over a deque should do when its callback changes deques and
    iterators: iterators are where DequeIterSpec.v says. *)
From Verif Require Import Base VectorModel VectorSpec Adapter ListModel DequeModel DequeSpec DequeIterModel DequeIterSpec DqEachModel.

(** What becomes of a loop: it ends; it wants more rounds than it was given; an
    assertion fails; nothing is claimed. *)
Inductive dres (X : Type) := DEnd (x : X) | DMore | DAbort | DUnspec.
Arguments DEnd {X} x.
Arguments DMore {X}.
Arguments DAbort {X}.
Arguments DUnspec {X}.

Section Spec.
Context {A C : Type} (eqb : A -> A -> bool).

Fixpoint dclient_spec (p : dclient A C) (s : jspec A) : sres (C * jspec A) :=
  match p with
  | CDone c => SVal (c, s)
  | CDo o k => match js_step eqb o s with SVal (r, s) => dclient_spec (k r) s | SAbort => SAbort | SUnspec => SUnspec end
  end.
Fixpoint deach_spec (fuel : nat) (e it x : nat) (cb : C -> dclient A C) (c : C) (s : jspec A) : dres (C * jspec A) :=
  match j_its s !! it, j_its s !! e with
  | Some p, Some q =>
      if negb (Nat.eqb (dp_id p) (dp_id q)) then DUnspec else
      if Nat.eqb (dp_ix p) (dp_ix q) then DEnd (c, s) else
      match fuel, dp_ix p <? len_of (j_dqs s) (dp_id p) with
      | O, _ => DMore
      | S _, false => DUnspec
      | S f, true =>
          match dclient_spec (cb c) (set_pl s x (DP (dp_id p) (dp_ix p) false)) with
          | SVal (c, s) =>
              match js_step eqb (JNext it) s with
              | SVal (_, s) => deach_spec f e it x cb c s
              | SAbort => DAbort
              | SUnspec => DUnspec
              end
          | SAbort => DAbort
          | SUnspec => DUnspec
          end
      end
  | _, _ => DUnspec
  end.
(** Calls, then the loop, then more calls. *)
Definition deach_in_spec (ops1 : list (jop A)) (fuel : nat) (b e it x : nat) (cb : C -> dclient A C) (c : C) (ops2 : list (jop A))
  : dres (list (out A) * C * list (out A)) :=
  match srun (js_step eqb) ops1 jspec0 with
  | SVal (rs1, s) =>
      match j_its s !! b with
      | Some p =>
          match deach_spec fuel e it x cb c (set_pl s it p) with
          | DEnd (c, s) => match srun (js_step eqb) ops2 s with SVal (rs2, _) => DEnd (rs1, c, rs2) | SAbort => DAbort | SUnspec => DUnspec end
          | DMore => DMore
          | DAbort => DAbort
          | DUnspec => DUnspec
          end
      | None => DUnspec
      end
  | SAbort => DAbort
  | SUnspec => DUnspec
  end.
End Spec.

Section Callbacks.
Context {A : Type}.
(** Reading the element through the callback's parameter. *)
Definition reading {C} (x : nat) (c : C) (k : A -> dclient A C) : dclient A C :=
  CDo (JRead x) (fun r => match r with RVal a => k a | _ => CDone c end).
(** Noting the elements, and appending those with [P] to deque [dst]. *)
Definition copying (x dst : nat) (P : A -> bool) (seen : list A) : dclient A (list A) :=
  reading x seen (fun a => if P a then CDo (JDeq (DPushBack dst a)) (fun _ => CDone (seen ++ [a])) else CDone (seen ++ [a])).
(** Noting the elements, and removing the one before. *)
Definition trailing (x id : nat) (seen : list A) : dclient A (list A) :=
  reading x seen (fun a => match seen with [] => CDone [a] | _ => CDo (JDeq (DPopFront id)) (fun _ => CDone (seen ++ [a])) end).
(** Noting the elements, and moving the end behind the first with [P]. *)
Definition stopping (x e id : nat) (P : A -> bool) (seen : list A) : dclient A (list A) :=
  reading x seen (fun a => if P a then CDo (JBegin e id) (fun _ => CDo (JPlus e e (Z.of_nat (S (length seen)))) (fun _ => CDone (seen ++ [a]))) else CDone (seen ++ [a])).
Fixpoint until (P : A -> bool) (l : list A) : list A :=
  match l with [] => [] | a :: l => if P a then [a] else a :: until P l end.
(** Noting the elements, and removing each: at the front, where it is, or at the back. *)
Definition draining (x id : nat) (seen : list A) : dclient A (list A) :=
  reading x seen (fun a => CDo (JDeq (DPopFront id)) (fun _ => CDone (seen ++ [a]))).
Definition shrinking (x id : nat) (seen : list A) : dclient A (list A) :=
  reading x seen (fun a => CDo (JDeq (DPopBack id)) (fun _ => CDone (seen ++ [a]))).
(** Noting the elements, and appending each to the deque itself. *)
Definition doubling (x id : nat) (seen : list A) : dclient A (list A) :=
  reading x seen (fun a => CDo (JDeq (DPushBack id a)) (fun _ => CDone (seen ++ [a]))).
End Callbacks.
