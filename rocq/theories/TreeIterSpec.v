(** What AVLTree iterators should do.  Every element that is pushed gets a number
    of its own and keeps it for life, whatever happens around it.  An iterator is
    at an element, by number, or past the end. *)
From Verif Require Import Base VectorSpec TreeModel TreeSpec TreeWorld TreeWSpec ListIterSpec TreeIterModel.

(** The same call with another element type, and the same answer. *)
Definition top_map {A B} (f : A -> B) (o : top A) : top B :=
  match o with
  | TNew id => TNew id | TDestroy id => TDestroy id | TPush id x => TPush id (f x) | TPop id x => TPop id (f x)
  | TFind id x => TFind id (f x) | TErase id x => TErase id (f x)
  | TSize id => TSize id | TCapacity id => TCapacity id | TEmpty id => TEmpty id | THeight id => THeight id
  | TIter id => TIter id | TClear id => TClear id | TTraverse id t => TTraverse id t
  | TCopyNew id src => TCopyNew id src | TAssign id src => TAssign id src
  end.
Definition tout_map {A B} (f : A -> B) (r : tout A) : tout B :=
  match r with
  | OUnit => OUnit | OZ n => OZ n | OBool b => OBool b | OOpt o => OOpt (f <$> o) | OList l => OList (f <$> l)
  end.

Section Spec.
Context {A : Type} (cmp : A -> A -> bool).
Notation set := (list (nat * A)).
(** Numbered elements are compared by value. *)
Definition by_val (p q : nat * A) : bool := cmp (snd p) (snd q).

(** The sets, in ascending order; the next number; where the iterators are, None
    being past the end. *)
Record kspec := KSpec { k_sets : gmap nat set; k_next : nat; k_its : gmap nat (option nat) }.
Definition kspec0 : kspec := KSpec ∅ 0 ∅.

(** A call on a tree does what [ts_step] says; a pushed element gets the next
    number. *)
Definition trees_step (o : top A) (s : kspec) : sres (tout A * kspec) :=
  match ts_step by_val (top_map (pair (k_next s)) o) (k_sets s) with
  | SVal (r, l) => SVal (tout_map snd r,
      KSpec l (match o with TPush _ _ => S (k_next s) | _ => k_next s end) (k_its s))
  | SAbort => SAbort
  | SUnspec => SUnspec
  end.

Definition first_num (l : set) : option nat := fst <$> head l.
(** Where the place after [p] is; the end stays the end.  Nothing is claimed of an
    iterator at an element that no longer exists. *)
Definition next_num (s : gmap nat set) (p : option nat) : option (option nat) :=
  match p with
  | None => Some None
  | Some n => match where_is n s with Some (_, (_, _, vs)) => Some (first_num vs) | None => None end
  end.
Definition valid_num (s : gmap nat set) (p : option nat) : bool :=
  match p with
  | None => true
  | Some n => match where_is n s with Some _ => true | None => false end
  end.

Definition with_kt {X} (s : kspec) (k : nat) (f : option nat -> sres X) : sres X :=
  match k_its s !! k with Some p => f p | None => SUnspec end.
Definition put_kt (s : kspec) (k : nat) (p : option nat) : kspec := KSpec (k_sets s) (k_next s) (<[k := p]> (k_its s)).
Definition move_kt (s : kspec) (k : nat) (p : option (option nat)) : sres (tout A * kspec) :=
  match p with Some p => SVal (OUnit, put_kt s k p) | None => SUnspec end.

(** Left out, as for the calls: begin() of an empty tree (C43) and erasing from a
    tree of one or two elements (C45); also erasing at an iterator into another
    tree. *)
Definition ks_step (o : kop A) (s : kspec) : sres (tout A * kspec) :=
  match o with
  | KTree o => trees_step o s
  | KBegin k id => with_set (k_sets s) id (fun l => match l with [] => SUnspec | _ => move_kt s k (Some (first_num l)) end)
  | KEnd k id => with_set (k_sets s) id (fun _ => move_kt s k (Some None))
  | KFind k id x => with_set (k_sets s) id (fun l => move_kt s k (Some (fst <$> List.find (fun p => equivb cmp x (snd p)) l)))
  | KErase k id j => with_kt s j (fun p => with_set (k_sets s) id (fun l =>
      match p with
      | None => move_kt s k (Some None)
      | Some n =>
          match where_is n (k_sets s) with
          | Some (i, (us, _, vs)) =>
              if Nat.eqb i id && negb (Nat.ltb (length l) 3)
              then SVal (OUnit, put_kt (KSpec (<[id := us ++ vs]> (k_sets s)) (k_next s) (k_its s)) k (first_num vs))
              else SUnspec
          | None => SUnspec
          end
      end))
  | KCopy k j => with_kt s j (fun p => move_kt s k (Some p))
  | KNext k => with_kt s k (fun p => move_kt s k (next_num (k_sets s) p))
  | KPostNext k j => with_kt s j (fun p =>
      match next_num (k_sets s) p with Some q => SVal (OUnit, put_kt (put_kt s j q) k p) | None => SUnspec end)
  | KRead k => with_kt s k (fun p =>
      match p with
      | Some n => match where_is n (k_sets s) with Some (_, (_, x, _)) => SVal (OOpt (Some x), s) | None => SUnspec end
      | None => SUnspec
      end)
  | KEq k j => with_kt s k (fun p => with_kt s j (fun q =>
      if valid_num (k_sets s) p && valid_num (k_sets s) q then SVal (OBool (bool_decide (p = q)), s) else SUnspec))
  | KNe k j => with_kt s k (fun p => with_kt s j (fun q =>
      if valid_num (k_sets s) p && valid_num (k_sets s) q then SVal (OBool (negb (bool_decide (p = q))), s) else SUnspec))
  end.

(** Steps that remove element [n], of value [x], from tree [id]. *)
Definition kremoves (o : kop A) (s : kspec) (id n : nat) (x : A) : bool :=
  match o with
  | KTree (TDestroy i) | KTree (TClear i) => Nat.eqb i id
  | KTree (TPop i y) | KTree (TErase i y) => Nat.eqb i id && equivb cmp y x
  | KErase _ _ j => match k_its s !! j with Some (Some m) => Nat.eqb m n | _ => false end
  | _ => false
  end.
End Spec.
