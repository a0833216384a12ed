(** What moving deque iterators should be worth: the state of DequeIterSpec.v, and
    the iterators that have been moved from. *)
From Verif Require Import Base VectorModel VectorSpec ListModel DequeModel DequeSpec DequeIterModel DequeIterSpec DqMoveModel.

Section Spec.
Context {A : Type} (eqb : A -> A -> bool).

(** The iterators a call advances or copies, and the one it sets. *)
Definition jd_uses (o : jop A) : list nat :=
  match o with
  | JCopy _ j | JPostNext _ j | JPostPrev _ j | JPlus _ j _ | JMinus _ j _ => [j]
  | JNext k | JPrev k => [k]
  | JFind _ b e _ => [b; e]
  | JEach b _ => [b]
  | JDeq _ | JBegin _ _ | JEnd _ _ | JRef _ _ _ | JRead _ | JEq _ _ | JNe _ _ => []
  end.
Definition jd_sets (o : jop A) : list nat :=
  match o with
  | JBegin k _ | JEnd k _ | JRef k _ _ | JCopy k _ | JPostNext k _ | JPostPrev k _ | JPlus k _ _ | JMinus k _ _ | JFind k _ _ _ => [k]
  | _ => []
  end.
(** All the iterators a call names. *)
Definition jd_names (o : dmop A) : list nat :=
  match o with
  | DMMove k j | DMOp (JCopy k j) | DMOp (JPostNext k j) | DMOp (JPostPrev k j) | DMOp (JPlus k j _) | DMOp (JMinus k j _)
  | DMOp (JEq k j) | DMOp (JNe k j) | DMOp (JEach k j) => [k; j]
  | DMOp (JFind k b e _) => [k; b; e]
  | DMOp (JBegin k _) | DMOp (JEnd k _) | DMOp (JRef k _ _) | DMOp (JNext k) | DMOp (JPrev k) | DMOp (JRead k) => [k]
  | DMOp (JDeq _) => []
  end.

(** A moved-from iterator is read and compared as before; advancing or copying it is
    unspecified until it is set again.  Moving to itself, or from a moved-from
    iterator, leaves an iterator nothing is said about. *)
Definition forget (s : jspec A) (k : nat) : jspec A := JSpec (j_dqs s) (delete k (j_its s)).
Definition dms_step (o : dmop A) (sl : jspec A * gset nat) : sres (out A * (jspec A * gset nat)) :=
  let (s, lost) := sl in
  match o with
  | DMOp o => if existsb (fun j => bool_decide (j ∈ lost)) (jd_uses o) then SUnspec else
      match js_step eqb o s with
      | SVal (r, s') => SVal (r, (s', lost ∖ list_to_set (jd_sets o)))
      | SAbort => SAbort | SUnspec => SUnspec end
  | DMMove k j => with_pl s j (fun p _ =>
      if Nat.eqb k j || bool_decide (j ∈ lost) then SVal (RUnit, (forget s k, lost))
      else SVal (RUnit, (set_pl s k p, ({[j]} ∪ lost) ∖ {[k]})))
  end.
End Spec.
(** The iterators a call takes a step with. *)
Definition jd_moves {A} (o : jop A) : list nat :=
  match o with
  | JNext k | JPrev k => [k]
  | JPostNext _ j | JPostPrev _ j => [j]
  | JPlus _ j z | JMinus _ j z => if (z =? 0)%Z then [] else [j]
  | _ => []
  end.
