(** What a set of vectors should do, over plain lists: no memory, no capacity. *)
From Verif Require Import Base VectorModel.

(** Python-style index: position designated by [i] in a sequence of [len]. *)
Definition py_index (len : nat) (i : Z) : option nat :=
  if (0 <=? i)%Z then (if (i <? Z.of_nat len)%Z then Some (Z.to_nat i) else None)
  else (if (- Z.of_nat len <=? i)%Z then Some (Z.to_nat (Z.of_nat len + i)) else None).

(** [SVal]: the call returns; [SAbort]: an assertion must fire; [SUnspec]: the
    call is outside its precondition and nothing is claimed about it. *)
Inductive sres (X : Type) := SVal (x : X) | SAbort | SUnspec.
Arguments SVal {X} x.
Arguments SAbort {X}.
Arguments SUnspec {X}.

Notation sworld A := (gmap nat (list A)).

Section Spec.
Context {A : Type} (triv : bool).

Definition with_seq {X} (s : sworld A) (id : nat) (k : list A -> sres X) : sres X :=
  match s !! id with Some l => k l | None => SUnspec end.
Definition when_new {X} (s : sworld A) (id : nat) (r : sres X) : sres X :=
  match s !! id with Some _ => SUnspec | None => r end.
(** Copies of non-empty vectors are only specified for trivially destructible
    elements (see C05). *)
Definition copyable (l : list A) : bool := triv || Nat.eqb (length l) 0.

Definition s_step (o : vop A) (s : sworld A) : sres (out A * sworld A) :=
  match o with
  | ONew id => when_new s id (SVal (RUnit, <[id := []]> s))
  | OFill id n a =>
      when_new s id (if Nat.eqb n 0 then SAbort else SVal (RUnit, <[id := repeat a n]> s))
  | OCopyNew id src =>
      when_new s id (with_seq s src (fun l =>
        if copyable l then SVal (RUnit, <[id := l]> s) else SUnspec))
  | OMoveNew id src =>
      when_new s id (with_seq s src (fun l => SVal (RUnit, <[src := []]> (<[id := l]> s))))
  | OAssign id src =>
      with_seq s id (fun _ => with_seq s src (fun l =>
        if Nat.eqb id src then SVal (RUnit, s)
        else if copyable l then SVal (RUnit, <[id := l]> s) else SUnspec))
  | OMoveAssign id src =>
      with_seq s id (fun _ => with_seq s src (fun l =>
        if Nat.eqb id src then SVal (RUnit, s) else SVal (RUnit, <[src := []]> (<[id := l]> s))))
  | OPush id a => with_seq s id (fun l => SVal (RUnit, <[id := l ++ [a]]> s))
  | OPop id => with_seq s id (fun l =>
      match l with [] => SAbort | _ => SVal (RUnit, <[id := removelast l]> s) end)
  | OSet id i a => with_seq s id (fun l =>
      match py_index (length l) i with
      | Some k => SVal (RUnit, <[id := <[k := a]> l]> s)
      | None => if (Z.of_nat (length l) <=? i)%Z then SAbort else SUnspec
      end)
  | OResize id n => with_seq s id (fun l => SVal (RUnit, <[id := firstn n l]> s))
  | OResizeFill id n a => with_seq s id (fun l =>
      SVal (RUnit, <[id := firstn n l ++ repeat a (n - length l)]> s))
  | OClear id => with_seq s id (fun _ => SVal (RUnit, <[id := []]> s))
  | ODestroy id => with_seq s id (fun _ => SVal (RUnit, delete id s))
  | OGet id i => with_seq s id (fun l =>
      match py_index (length l) i with
      | Some k => match nth_error l k with Some a => SVal (RVal a, s) | None => SUnspec end
      | None => if (Z.of_nat (length l) <=? i)%Z then SAbort else SUnspec
      end)
  | OBack id => with_seq s id (fun l =>
      match nth_error l (length l - 1) with Some a => SVal (RVal a, s) | None => SAbort end)
  | OFront id => with_seq s id (fun l =>
      match l with a :: _ => SVal (RVal a, s) | [] => SUnspec end)
  | OSize id => with_seq s id (fun l => SVal (RNat (length l), s))
  | OEmpty id => with_seq s id (fun l => SVal (RBool (match l with [] => true | _ => false end), s))
  | OIter id => with_seq s id (fun l => SVal (RList l, s))
  end.

Fixpoint s_run (ops : list (vop A)) (s : sworld A) : sres (list (out A) * sworld A) :=
  match ops with
  | [] => SVal ([], s)
  | o :: ops =>
      match s_step o s with
      | SVal (r, s') =>
          match s_run ops s' with
          | SVal (rs, s'') => SVal (r :: rs, s'')
          | SAbort => SAbort
          | SUnspec => SUnspec
          end
      | SAbort => SAbort
      | SUnspec => SUnspec
      end
  end.

(** What a client reads from object [id] by iterating over it. *)
Definition contents (w : world A) (id : nat) : option (list A) :=
  match w_objs w !! id with
  | Some v => match v_iter v (w_mem w) with Ok (l, _) => Some l | _ => None end
  | None => None
  end.

(** States some history of calls leads to. *)
Definition reachable (w : world A) : Prop :=
  exists ops rs, v_run triv ops world_init = Ok (rs, w).

(** In state [w], object [id] is the vector [v] with contents [l]. *)
Definition holds (w : world A) (id : nat) (v : vec) (l : list A) : Prop :=
  w_objs w !! id = Some v /\ contents w id = Some l.

End Spec.
