(** What tree iterators do when they are moved from.  A moved-from iterator is
    lost: it can still be read and compared as before, but nothing is claimed of
    moving it on or erasing at it. *)
From Verif Require Import Base VectorSpec TreeModel TreeSpec TreeWorld BstWorld BstSpec ListIterSpec TreeIterModel TreeIterSpec BstIterModel BstIterSpec IterMoveModel.

(** The variables a step assigns to, and those it moves on or erases at. *)
Definition j_sets {A} (o : jop A) : list nat :=
  match o with
  | JBegin k _ _ | JEnd k _ _ | JFind k _ _ | JErase k _ _ | JCopy k _ | JPostNext k _ => [k]
  | _ => []
  end.
Definition j_moves {A} (o : jop A) : list nat :=
  match o with JErase _ _ j | JPostNext _ j => [j] | JNext k => [k] | _ => [] end.
Definition k_sets_of {A} (o : kop A) : list nat :=
  match o with
  | KBegin k _ | KEnd k _ | KFind k _ _ | KErase k _ _ | KCopy k _ | KPostNext k _ => [k]
  | _ => []
  end.
Definition k_moves {A} (o : kop A) : list nat :=
  match o with KErase _ _ j | KPostNext _ j => [j] | KNext k => [k] | _ => [] end.
(** The variables a step mentions. *)
Definition j_names {A} (o : mop (jop A)) : list nat :=
  match o with
  | MOp (JTree _) => []
  | MOp (JBegin k _ _) | MOp (JEnd k _ _) | MOp (JFind k _ _) | MOp (JNext k) | MOp (JRead k) => [k]
  | MOp (JErase k _ j) | MOp (JCopy k j) | MOp (JPostNext k j) | MOp (JEq k j) | MOp (JNe k j) | MMove k j => [k; j]
  end.
Definition k_names {A} (o : mop (kop A)) : list nat :=
  match o with
  | MOp (KTree _) => []
  | MOp (KBegin k _) | MOp (KEnd k _) | MOp (KFind k _ _) | MOp (KNext k) | MOp (KRead k) => [k]
  | MOp (KErase k _ j) | MOp (KCopy k j) | MOp (KPostNext k j) | MOp (KEq k j) | MOp (KNe k j) | MMove k j => [k; j]
  end.
(** Being lost or not. *)
Definition found (ks : list nat) (lost : gset nat) : gset nat := lost ∖ list_to_set ks.
Definition lose (k : nat) (lost : gset nat) : gset nat := {[k]} ∪ lost.
Definition any_lost (ks : list nat) (lost : gset nat) : bool := existsb (fun k => bool_decide (k ∈ lost)) ks.

Section Spec.
Context {A : Type} (cmp : A -> A -> bool).

(** Binary search trees: the state of BstIterSpec.v and the lost iterators.  A copy
    of a lost iterator is past the end and lost, and so is an iterator that was
    moved to itself. *)
Definition bm_spec : Type := (jspec (A := A) * gset nat)%type.
Definition bms_step (o : mop (jop A)) (s : bm_spec) : sres (tout A * bm_spec) :=
  let '(t, lost) := s in
  match o with
  | MOp (JCopy k j) =>
      if bool_decide (j ∈ lost) then SVal (OUnit, (put_jt t k (InOrder, None), lose k lost))
      else match js_step cmp (JCopy k j) t with SVal (r, t) => SVal (r, (t, found [k] lost)) | SAbort => SAbort | SUnspec => SUnspec end
  | MOp o =>
      if any_lost (j_moves o) lost then SUnspec
      else match js_step cmp o t with SVal (r, t) => SVal (r, (t, found (j_sets o) lost)) | SAbort => SAbort | SUnspec => SUnspec end
  | MMove k j => with_jt t j (fun p =>
      if bool_decide (j ∈ lost) || Nat.eqb k j then SVal (OUnit, (put_jt t k (InOrder, None), lose k lost))
      else SVal (OUnit, (put_jt (put_jt t k p) j (InOrder, snd p), lose j (found [k] lost))))
  end.

(** AVL trees: a copy of a lost iterator is lost at the same place, and an iterator
    moved to itself is lost where it was. *)
Definition am_spec : Type := (kspec (A := A) * gset nat)%type.
Definition ams_step (o : mop (kop A)) (s : am_spec) : sres (tout A * am_spec) :=
  let '(t, lost) := s in
  match o with
  | MOp (KCopy k j) => with_kt t j (fun p =>
      SVal (OUnit, (put_kt t k p, if bool_decide (j ∈ lost) then lose k lost else found [k] lost)))
  | MOp o =>
      if any_lost (k_moves o) lost then SUnspec
      else match ks_step cmp o t with SVal (r, t) => SVal (r, (t, found (k_sets_of o) lost)) | SAbort => SAbort | SUnspec => SUnspec end
  | MMove k j => with_kt t j (fun p =>
      SVal (OUnit, (put_kt t k p, lose j (if bool_decide (j ∈ lost) then lose k lost else found [k] lost))))
  end.
End Spec.
