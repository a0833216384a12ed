(** What list iterators should do.  Every element that comes into being gets a
    number of its own and keeps it for life, wherever its list is moved and
    whatever happens around it.  An iterator is either at an element, by number,
    or at the end of a list object. *)
From Verif Require Import Base VectorModel VectorSpec ListModel ListSpec ListIterModel.

Inductive place := At (n : nat) | EndOf (id : nat).
Global Instance place_eq_dec : EqDecision place.
Proof. solve_decision. Defined.

(** The same call with another element type, and the same answer. *)
Definition op_map {A B} (f : A -> B) (o : lop A) : lop B :=
  match o with
  | LNew id => LNew id | LFill id n a => LFill id n (f a)
  | LCopyNew id src => LCopyNew id src | LMoveNew id src => LMoveNew id src
  | LAssign id src => LAssign id src | LMoveAssign id src => LMoveAssign id src
  | LDestroy id => LDestroy id | LClear id => LClear id
  | LPushFront id a => LPushFront id (f a) | LPushBack id a => LPushBack id (f a)
  | LPopFront id => LPopFront id | LPopBack id => LPopBack id
  | LPush id a => LPush id (f a) | LPop id => LPop id
  | LFront id => LFront id | LBack id => LBack id | LSize id => LSize id | LEmpty id => LEmpty id
  | LIter id => LIter id | LRIter id => LRIter id
  end.
Definition out_map {A B} (f : A -> B) (r : out A) : out B :=
  match r with
  | RUnit => RUnit | RVal a => RVal (f a) | RNat n => RNat n | RBool b => RBool b | RList l => RList (f <$> l)
  end.

Section Spec.
Context {A : Type} (dbl : bool).
Notation elems := (list (nat * A)).

Record ispec := ISpec { s_lists : gmap nat elems; s_next : nat; s_its : gmap nat place }.
Definition ispec0 : ispec := ISpec ∅ 0 ∅.

(** A call on a list does what [ls_step] says.  A pushed element gets the next
    number, filled and copied elements get consecutive ones; everything else
    keeps the numbers it has. *)
Definition new_elems (s : ispec) (id : nat) (l : gmap nat elems) : ispec :=
  let xs := default [] (l !! id) in
  ISpec (<[id := number (s_next s) xs.*2]> l) (s_next s + length xs) (s_its s).
Definition lists_step (o : lop A) (s : ispec) : sres (out A * ispec) :=
  match ls_step dbl (op_map (pair (s_next s)) o) (s_lists s) with
  | SVal (r, l) => SVal (out_map snd r,
      match o with
      | LPushFront _ _ | LPushBack _ _ | LPush _ _ => ISpec l (S (s_next s)) (s_its s)
      | LFill id _ _ | LCopyNew id _ => new_elems s id l
      | LAssign id src => if Nat.eqb id src then s else new_elems s id l
      | _ => ISpec l (s_next s) (s_its s)
      end)
  | SAbort => SAbort
  | SUnspec => SUnspec
  end.

(** The list holding element [n], what is before it, its value, what is after it. *)
Fixpoint split_at (n : nat) (l : elems) : option (elems * A * elems) :=
  match l with
  | [] => None
  | (m, x) :: l =>
    if Nat.eqb m n then Some ([], x, l)
    else match split_at n l with Some (us, y, vs) => Some ((m, x) :: us, y, vs) | None => None end
  end.
Definition where_is (n : nat) (s : gmap nat elems) : option (nat * (elems * A * elems)) :=
  head (omap (fun kl => match split_at n (snd kl) with Some r => Some (fst kl, r) | None => None end) (map_to_list s)).

Definition first_of (id : nat) (l : elems) : place := match head l with Some (n, _) => At n | None => EndOf id end.
Definition last_of (id : nat) (l : elems) : place := match last l with Some (n, _) => At n | None => EndOf id end.

(** The neighbouring place; the end comes after the last element and before the
    first.  None: the iterator is no longer valid. *)
Definition next_place (s : gmap nat elems) (p : place) : option place :=
  match p with
  | At n => match where_is n s with Some (id, (_, _, vs)) => Some (first_of id vs) | None => None end
  | EndOf id => match s !! id with Some l => Some (first_of id l) | None => None end
  end.
Definition prev_place (s : gmap nat elems) (p : place) : option place :=
  match p with
  | At n => match where_is n s with Some (id, (us, _, _)) => Some (last_of id us) | None => None end
  | EndOf id => match s !! id with Some l => Some (last_of id l) | None => None end
  end.
(** Valid iterators: at an element that still exists, or at the end of a list
    that still exists. *)
Definition valid (s : gmap nat elems) (p : place) : bool :=
  match p with
  | At n => match where_is n s with Some _ => true | None => false end
  | EndOf id => match s !! id with Some _ => true | None => false end
  end.

Definition with_it {X} (s : ispec) (k : nat) (f : place -> sres X) : sres X :=
  match s_its s !! k with Some p => f p | None => SUnspec end.
Definition set_at (s : ispec) (k : nat) (p : place) : ispec := ISpec (s_lists s) (s_next s) (<[k := p]> (s_its s)).
Definition move_it (s : ispec) (k : nat) (p : option place) : sres (out A * ispec) :=
  match p with Some p => SVal (RUnit, set_at s k p) | None => SUnspec end.

Definition is_step (o : iop A) (s : ispec) : sres (out A * ispec) :=
  match o with
  | IList o => lists_step o s
  | IBegin k id => move_it s k (first_of id <$> s_lists s !! id)
  | IEnd k id => move_it s k ((fun _ => EndOf id) <$> s_lists s !! id)
  | ICopy k j => with_it s j (fun p => SVal (RUnit, set_at s k p))
  | INext k => with_it s k (fun p => move_it s k (next_place (s_lists s) p))
  | IPrev k => if dbl then with_it s k (fun p => move_it s k (prev_place (s_lists s) p)) else SUnspec
  | IPostNext k j => with_it s j (fun p =>
      match next_place (s_lists s) p with Some q => SVal (RUnit, set_at (set_at s j q) k p) | None => SUnspec end)
  | IPostPrev k j => if dbl then with_it s j (fun p =>
      match prev_place (s_lists s) p with Some q => SVal (RUnit, set_at (set_at s j q) k p) | None => SUnspec end)
      else SUnspec
  | IRead k => with_it s k (fun p =>
      match p with
      | At n => match where_is n (s_lists s) with Some (_, (_, x, _)) => SVal (RVal x, s) | None => SUnspec end
      | EndOf _ => SUnspec
      end)
  | IWrite k a => with_it s k (fun p =>
      match p with
      | At n => match where_is n (s_lists s) with
                | Some (id, (us, _, vs)) => SVal (RUnit, ISpec (<[id := us ++ (n, a) :: vs]> (s_lists s)) (s_next s) (s_its s))
                | None => SUnspec
                end
      | EndOf _ => SUnspec
      end)
  | IEq k j => with_it s k (fun p => with_it s j (fun q =>
      if valid (s_lists s) p && valid (s_lists s) q then SVal (RBool (bool_decide (p = q)), s) else SUnspec))
  | INe k j => with_it s k (fun p => with_it s j (fun q =>
      if valid (s_lists s) p && valid (s_lists s) q then SVal (RBool (negb (bool_decide (p = q))), s) else SUnspec))
  end.
End Spec.

(** The lists without the numbers. *)
Definition strip {A} (l : gmap nat (list (nat * A))) : gmap nat (list A) := (fun xs => xs.*2) <$> l.

(** Calls that remove the element with [us] before it and [vs] after it from
    list [id]; and the list an element of [id] is in afterwards. *)
Definition removes {A} (o : lop A) (id : nat) (us vs : list (nat * A)) : bool :=
  match o with
  | LDestroy i | LClear i => Nat.eqb i id
  | LPopFront i | LPop i => Nat.eqb i id && match us with [] => true | _ => false end
  | LPopBack i => Nat.eqb i id && match vs with [] => true | _ => false end
  | LAssign i src | LMoveAssign i src => Nat.eqb i id && negb (Nat.eqb i src)
  | _ => false
  end.
Definition goes_to {A} (o : lop A) (id : nat) : nat :=
  match o with
  | LMoveNew i src | LMoveAssign i src => if Nat.eqb src id then i else id
  | _ => id
  end.
