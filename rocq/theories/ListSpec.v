(** What the linked lists should do: each list object is an ordinary sequence. *)
From Verif Require Import Base VectorModel VectorSpec ListModel.

(** The elements of a list with consecutive numbers, from [n] on. *)
Fixpoint number {A} (n : nat) (l : list A) : list (nat * A) :=
  match l with [] => [] | a :: l => (n, a) :: number (S n) l end.

Section Spec.
Context {A : Type} (dbl : bool).
Notation sw := (gmap nat (list A)).
Definition with_list {X} (s : sw) (id : nat) (k : list A -> sres X) : sres X :=
  match s !! id with Some l => k l | None => SUnspec end.
Definition no_list {X} (s : sw) (id : nat) (r : sres X) : sres X :=
  match s !! id with None => r | Some _ => SUnspec end.

(** [dbl]: doubly linked lists.  For singly linked lists the claim leaves out
    copying from a non-empty list (C26), push on an empty list and pop of the
    last element (C27), and there is no backward iteration; for both it leaves
    out moving from an empty list (C28) and front() of an empty list. *)
Definition ls_step (o : lop A) (s : sw) : sres (out A * sw) :=
  match o with
  | LNew id => no_list s id (SVal (RUnit, <[id := []]> s))
  | LFill id n a => no_list s id (SVal (RUnit, <[id := repeat a n]> s))
  | LCopyNew id src => no_list s id (with_list s src (fun l =>
      if dbl then SVal (RUnit, <[id := l]> s)
      else match l with [] => SVal (RUnit, <[id := l]> s) | _ => SUnspec end))
  | LMoveNew id src => no_list s id (with_list s src (fun l =>
      match l with [] => SUnspec | _ => SVal (RUnit, <[src := []]> (<[id := l]> s)) end))
  | LAssign id src => with_list s id (fun _ => with_list s src (fun l =>
      if Nat.eqb id src then SVal (RUnit, s)
      else if dbl then SVal (RUnit, <[id := l]> s)
      else match l with [] => SVal (RUnit, <[id := l]> s) | _ => SUnspec end))
  | LMoveAssign id src => with_list s id (fun _ => with_list s src (fun l =>
      if Nat.eqb id src then SVal (RUnit, s)
      else match l with [] => SUnspec | _ => SVal (RUnit, <[src := []]> (<[id := l]> s)) end))
  | LDestroy id => with_list s id (fun _ => SVal (RUnit, delete id s))
  | LClear id => with_list s id (fun _ => SVal (RUnit, <[id := []]> s))
  | LPushFront id a => with_list s id (fun l => SVal (RUnit, <[id := a :: l]> s))
  | LPushBack id a => with_list s id (fun l => SVal (RUnit, <[id := l ++ [a]]> s))
  | LPopFront id => with_list s id (fun l => match l with [] => SAbort | _ :: t => SVal (RUnit, <[id := t]> s) end)
  | LPopBack id => with_list s id (fun l => match l with [] => SAbort | _ => SVal (RUnit, <[id := removelast l]> s) end)
  | LPush id a => with_list s id (fun l =>
      if dbl then SVal (RUnit, <[id := a :: l]> s)
      else match l with [] => SUnspec | _ => SVal (RUnit, <[id := a :: l]> s) end)
  | LPop id => with_list s id (fun l =>
      match l with
      | [] => SAbort
      | _ :: t => if dbl then SVal (RUnit, <[id := t]> s)
                  else match t with [] => SUnspec | _ => SVal (RUnit, <[id := t]> s) end
      end)
  | LFront id => with_list s id (fun l => match l with [] => SUnspec | a :: _ => SVal (RVal a, s) end)
  | LBack id => with_list s id (fun l => match last l with None => SAbort | Some a => SVal (RVal a, s) end)
  | LSize id => with_list s id (fun l => SVal (RNat (length l), s))
  | LEmpty id => with_list s id (fun l => SVal (RBool (match l with [] => true | _ => false end), s))
  | LIter id => with_list s id (fun l => SVal (RList l, s))
  | LRIter id => with_list s id (fun l => if dbl then SVal (RList (rev l), s) else SUnspec)
  end.

(** How many elements there are in all lists together. *)
Definition elements_total (s : sw) : nat := length (map_to_list s ≫= snd).
End Spec.

(** How many nodes are currently allocated. *)
Definition is_node (p : ptr) : bool := match p with inr _ => true | inl _ => false end.
Definition nodes_allocated {A} (w : lst A) : nat :=
  length (List.filter (fun pc => is_node (fst pc)) (map_to_list (l_cells w))).

(** The members of a circular list: following [next] from each member leads to
    the one behind it, from the last one back to the first; in a doubly linked
    ring [prev] leads the other way. *)
Definition is_ring {A} (dbl : bool) (m : gmap ptr (cell A)) (l : list ptr) : Prop :=
  NoDup l /\
  forall i p q, l !! i = Some p -> l !! (S i mod length l) = Some q ->
    exists cp cq, m !! p = Some cp /\ m !! q = Some cq /\ c_next cp = Some q /\ (dbl = true -> c_prev cq = Some p).
