(** What for_each and find should do over list and tree iterators: something to the
    elements from the first iterator up to the second. *)
From Verif Require Import Base VectorModel VectorSpec ListModel ListSpec ListIterModel ListIterSpec TreeModel TreeWorld TreeWSpec TreeIterModel TreeIterSpec AlgoIterModel.
Local Open Scope nat_scope.

Section Lists.
Context {A : Type} (eqb : A -> A -> bool) (dbl : bool).
Notation elems := (list (nat * A)).

(** A range of a list: the list, what is before the range, the range, and what is
    after it.  There is one from an element to a later element or to the end of its
    list, and from any place to itself; the list is known from its end. *)
Definition range (s : gmap nat elems) (p q : place) : option (nat * (elems * elems * elems)) :=
  let rest := match p with
    | At n => match where_is n s with Some (id, (us, x, vs)) => Some (id, (us, (n, x) :: vs)) | None => None end
    | EndOf id => match s !! id with Some l => Some (id, (l, [])) | None => None end
    end in
  match rest with
  | Some (id, (us, ws)) =>
      match q with
      | EndOf j => if Nat.eqb id j then Some (id, (us, ws, [])) else None
      | At m => match split_at m ws with Some (xs, y, vs) => Some (id, (us, xs, (m, y) :: vs)) | None => None end
      end
  | None => None
  end.
(** The first element of a range that equals [a], or else [q]. *)
Definition find_in (a : A) (xs : elems) (q : place) : place :=
  match List.find (fun x => eqb (snd x) a) xs with Some (n, _) => At n | None => q end.

Definition as_step (o : aop A) (s : ispec) : sres (out A * ispec) :=
  match o with
  | AIt o => is_step dbl o s
  | AFind k b e a => with_it s b (fun p => with_it s e (fun q =>
      match range (s_lists s) p q with
      | Some (_, (_, xs, _)) => SVal (RUnit, set_at s k (find_in a xs q))
      | None => SUnspec
      end))
  | AEach b e g => with_it s b (fun p => with_it s e (fun q =>
      match range (s_lists s) p q with
      | Some (id, (us, xs, vs)) =>
          SVal (RList xs.*2, ISpec (<[id := us ++ ((fun x => (fst x, g (snd x))) <$> xs) ++ vs]> (s_lists s)) (s_next s) (s_its s))
      | None => SUnspec
      end))
  end.
End Lists.

Section Trees.
Context {A : Type} (cmp eqb : A -> A -> bool).
Notation set := (list (nat * A)).

(** The same for sets; all ends are one. *)
Definition krange (s : gmap nat set) (p q : option nat) : option set :=
  match p with
  | Some n =>
      match where_is n s with
      | Some (_, (_, x, vs)) =>
          match q with
          | None => Some ((n, x) :: vs)
          | Some m => match split_at m ((n, x) :: vs) with Some (xs, _, _) => Some xs | None => None end
          end
      | None => None
      end
  | None => match q with None => Some [] | Some _ => None end
  end.
Definition find_num (a : A) (xs : set) (q : option nat) : option nat :=
  match List.find (fun x => eqb (snd x) a) xs with Some (n, _) => Some n | None => q end.

Definition bs_step (o : bop A) (s : kspec) : sres (tout A * kspec) :=
  match o with
  | BIt o => ks_step cmp o s
  | BFind k b e a => with_kt s b (fun p => with_kt s e (fun q =>
      match krange (k_sets s) p q with Some xs => SVal (OUnit, put_kt s k (find_num a xs q)) | None => SUnspec end))
  | BEach b e => with_kt s b (fun p => with_kt s e (fun q =>
      match krange (k_sets s) p q with Some xs => SVal (OList xs.*2, s) | None => SUnspec end))
  end.
End Trees.
