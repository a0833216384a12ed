(** What AVLTree and Map objects should do: each tree is a set kept in ascending
    order, each Map a finite map. *)
From Verif Require Import Base VectorSpec TreeModel TreeSpec TreeWorld.

Section Spec.
Context {A : Type} (cmp : A -> A -> bool).
Notation sw := (gmap nat (list A)).
Definition with_set {X} (s : sw) (id : nat) (k : list A -> sres X) : sres X :=
  match s !! id with Some l => k l | None => SUnspec end.
Definition no_set {X} (s : sw) (id : nat) (r : sres X) : sres X :=
  match s !! id with None => r | Some _ => SUnspec end.

(** The claim leaves out: iterating an empty tree (C43), popping an absent key
    from a non-empty one (C44), erasing from a tree of one or two elements (C45),
    copying a non-empty tree or over one (C47), and what depends on the shape:
    height() (C36-C38) and traversal (C42). *)
Definition ts_step (o : top A) (s : sw) : sres (tout A * sw) :=
  match o with
  | TNew id => no_set s id (SVal (OUnit, <[id := []]> s))
  | TDestroy id => with_set s id (fun _ => SVal (OUnit, delete id s))
  | TPush id x => with_set s id (fun l =>
      match lookup_set cmp x l with Some _ => SAbort | None => SVal (OUnit, <[id := add_set cmp x l]> s) end)
  | TPop id x => with_set s id (fun l =>
      match l, lookup_set cmp x l with
      | _ :: _, None => SUnspec
      | _, _ => SVal (OUnit, <[id := remove_set cmp x l]> s)
      end)
  | TFind id x => with_set s id (fun l => SVal (OOpt (lookup_set cmp x l), s))
  | TErase id x => with_set s id (fun l =>
      match lookup_set cmp x l with
      | None => SVal (OOpt None, s)
      | Some _ => if Nat.ltb (length l) 3 then SUnspec
                  else SVal (OOpt (next_set cmp x l), <[id := remove_set cmp x l]> s)
      end)
  | TSize id | TCapacity id => with_set s id (fun l => SVal (OZ (Z.of_nat (length l)), s))
  | TEmpty id => with_set s id (fun l => SVal (OBool (match l with [] => true | _ => false end), s))
  | TIter id => with_set s id (fun l => match l with [] => SUnspec | _ => SVal (OList l, s) end)
  | TClear id => with_set s id (fun _ => SVal (OUnit, <[id := []]> s))
  | THeight _ | TTraverse _ _ => SUnspec
  | TCopyNew id src => no_set s id (with_set s src (fun l =>
      match l with [] => SVal (OUnit, <[id := []]> s) | _ => SUnspec end))
  | TAssign id src => with_set s id (fun l => with_set s src (fun l' =>
      if Nat.eqb id src then SVal (OUnit, s)
      else match l, l' with [], [] => SVal (OUnit, s) | _, _ => SUnspec end))
  end.
(** How many elements there are in all sets together. *)
Definition total (s : sw) : nat := length (map_to_list s ≫= snd).
End Spec.

Section MSpec.
Context {K V : Type} (lt : K -> K -> bool) (dflt : V).
Notation sw := (gmap nat (list (K * V))).

(** Finite maps as lists of pairs, the keys ascending. *)
Definition same_key (k k' : K) : bool := negb (lt k k') && negb (lt k' k).
Definition get_key (k : K) (l : list (K * V)) : option (K * V) := List.find (fun p => same_key k (fst p)) l.
Fixpoint put_key (k : K) (v : V) (l : list (K * V)) : list (K * V) :=
  match l with
  | [] => [(k, v)]
  | (k', v') :: l' =>
      if lt k k' then (k, v) :: l
      else if lt k' k then (k', v') :: put_key k v l'
      else (k', v) :: l'
  end.
Definition del_key (k : K) (l : list (K * V)) : list (K * V) := List.filter (fun p => negb (same_key k (fst p))) l.

Definition ms_step (o : mop K V) (s : sw) : sres (mout * sw) :=
  match o with
  | MNew id => no_set s id (SVal (MUnit, <[id := []]> s))
  | MDestroy id => with_set s id (fun _ => SVal (MUnit, delete id s))
  | MPush id k v => with_set s id (fun l =>
      match get_key k l with Some _ => SAbort | None => SVal (MUnit, <[id := put_key k v l]> s) end)
  | MPop id k => with_set s id (fun l =>
      match l, get_key k l with
      | _ :: _, None => SUnspec
      | _, _ => SVal (MUnit, <[id := del_key k l]> s)
      end)
  | MSet id k v => with_set s id (fun l => SVal (MUnit, <[id := put_key k v l]> s))
  | MGet id k => with_set s id (fun l =>
      match get_key k l with
      | Some p => SVal (MVal (snd p), s)
      | None => SVal (MVal dflt, <[id := put_key k dflt l]> s)
      end)
  | MFind id k => with_set s id (fun l => SVal (MOpt (get_key k l), s))
  | MSize id => with_set s id (fun l => SVal (MZ (Z.of_nat (length l)), s))
  | MEmpty id => with_set s id (fun l => SVal (MBool (match l with [] => true | _ => false end), s))
  | MIter id => with_set s id (fun l => match l with [] => SUnspec | _ => SVal (MList l, s) end)
  | MClear id => with_set s id (fun _ => SVal (MUnit, <[id := []]> s))
  | MCopyNew id src => no_set s id (with_set s src (fun l =>
      match l with [] => SVal (MUnit, <[id := []]> s) | _ => SUnspec end))
  | MAssign id src => with_set s id (fun l => with_set s src (fun l' =>
      if Nat.eqb id src then SVal (MUnit, s)
      else match l, l' with [], [] => SVal (MUnit, s) | _, _ => SUnspec end))
  end.
End MSpec.
