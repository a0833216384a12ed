(** What stacks should do: a list per object, most recent element first. *)
From Verif Require Import Base VectorModel VectorSpec StackModel.

Section Spec.
Context {A : Type} (triv : bool).
Notation kworld := (gmap nat (list A)).

Definition k_step (o : kop A) (s : kworld) : sres (out A * kworld) :=
  match o with
  | KNew id => match s !! id with None => SVal (RUnit, <[id := []]> s) | _ => SUnspec end
  | KCopyNew id src =>
      match s !! id, s !! src with
      | None, Some l => if triv || Nat.eqb (length l) 0 then SVal (RUnit, <[id := l]> s) else SUnspec
      | _, _ => SUnspec
      end
  | KMoveNew id src =>
      match s !! id, s !! src with
      | None, Some l => SVal (RUnit, <[src := []]> (<[id := l]> s))
      | _, _ => SUnspec
      end
  | KAssign id src =>
      match s !! id, s !! src with
      | Some _, Some l =>
          if Nat.eqb id src then SVal (RUnit, s)
          else if triv || Nat.eqb (length l) 0 then SVal (RUnit, <[id := l]> s) else SUnspec
      | _, _ => SUnspec
      end
  | KMoveAssign id src =>
      match s !! id, s !! src with
      | Some _, Some l =>
          if Nat.eqb id src then SVal (RUnit, s) else SVal (RUnit, <[src := []]> (<[id := l]> s))
      | _, _ => SUnspec
      end
  | KDestroy id => match s !! id with Some _ => SVal (RUnit, delete id s) | _ => SUnspec end
  | KPush id a => match s !! id with Some l => SVal (RUnit, <[id := a :: l]> s) | _ => SUnspec end
  | KPop id => match s !! id with
      | Some (_ :: l) => SVal (RUnit, <[id := l]> s) | Some [] => SAbort | _ => SUnspec end
  | KTop id => match s !! id with
      | Some (a :: _) => SVal (RVal a, s) | Some [] => SAbort | _ => SUnspec end
  | KSize id => match s !! id with Some l => SVal (RNat (length l), s) | _ => SUnspec end
  | KEmpty id => match s !! id with
      | Some [] => SVal (RBool true, s) | Some _ => SVal (RBool false, s) | _ => SUnspec end
  | KClear id => match s !! id with Some _ => SVal (RUnit, <[id := []]> s) | _ => SUnspec end
  | KIter id => match s !! id with Some l => SVal (RList (rev l), s) | _ => SUnspec end
  end.

(** The stack with extremum: a plain list.  getXValue() must be an element that
    no element precedes; top() the most recent one.  On an empty stack top/pop
    assert and getXValue() is unspecified. *)
Context (cmp : A -> A -> bool).

Definition is_extremum (x : A) (l : list A) : Prop := In x l /\ forall y, In y l -> cmp y x = false.

(** [xspec ops l rs]: answers [rs] are right for history [ops] started on a
    stack holding [l]; [None] means an assertion fires. *)
Fixpoint xspec (ops : list xop) (l : list A) (rs : option (list (out A))) : Prop :=
  match ops with
  | [] => rs = Some []
  | XPush a :: ops => exists rs', xspec ops (a :: l) rs' /\ rs = option_map (cons RUnit) rs'
  | XPop :: ops =>
      match l with
      | [] => rs = None
      | _ :: l => exists rs', xspec ops l rs' /\ rs = option_map (cons RUnit) rs'
      end
  | XTop :: ops =>
      match l with
      | [] => rs = None
      | a :: _ => exists rs', xspec ops l rs' /\ rs = option_map (cons (RVal a)) rs'
      end
  | XExt :: ops => exists x rs', (l <> [] -> is_extremum x l) /\ xspec ops l rs' /\ rs = option_map (cons (RVal x)) rs'
  | XEmpty :: ops =>
      exists rs', xspec ops l rs' /\ rs = option_map (cons (RBool (match l with [] => true | _ => false end))) rs'
  | XClear :: ops => exists rs', xspec ops [] rs' /\ rs = option_map (cons RUnit) rs'
  end.

(** The history never pushes a value equal to (or equivalent with) the current
    extremum: every pushed value is different from every minimal element. *)
Fixpoint no_repeat (eqb : A -> A -> bool) (ops : list xop) (l : list A) : Prop :=
  match ops with
  | [] => True
  | XPush a :: ops => (forall x, is_extremum x l -> eqb x a = false) /\ no_repeat eqb ops (a :: l)
  | XPop :: ops => no_repeat eqb ops (tail l)
  | XClear :: ops => no_repeat eqb ops []
  | _ :: ops => no_repeat eqb ops l
  end.

(** The elements on the stack after a history (which asserted nowhere). *)
Fixpoint xfinal (ops : list (@xop A)) (l : list A) : list A :=
  match ops with
  | [] => l
  | XPush a :: ops => xfinal ops (a :: l)
  | XPop :: ops => xfinal ops (tail l)
  | XClear :: ops => xfinal ops []
  | _ :: ops => xfinal ops l
  end.
End Spec.
