(** What search trees should look like and do. *)
From Coq Require Import Sorted.
From Verif Require Import Base TreeModel.

(** Mathematical binary trees; each node has the address it is stored at and
    the height stored with it. *)
Inductive atree (A : Type) := Lf | Br (l : atree A) (a : nat) (h : Z) (x : A) (r : atree A).
Arguments Lf {A}.
Arguments Br {A} l a h x r.

Section Tree.
Context {A : Type}.
Notation tree := (atree A).

Definition rootp (t : tree) : option nat := match t with Lf => None | Br _ a _ _ _ => Some a end.

(** The elements in the three orders. *)
Fixpoint elems (t : tree) : list A :=
  match t with Lf => [] | Br l _ _ x r => elems l ++ x :: elems r end.
Fixpoint pre (t : tree) : list A :=
  match t with Lf => [] | Br l _ _ x r => x :: pre l ++ pre r end.
Fixpoint post (t : tree) : list A :=
  match t with Lf => [] | Br l _ _ x r => post l ++ post r ++ [x] end.

(** How often address [k] occurs in the tree. *)
Definition one (k a : nat) : nat := if Nat.eq_dec k a then 1 else 0.
Fixpoint cnt (k : nat) (t : tree) : nat :=
  match t with Lf => 0 | Br l a _ _ r => cnt k l + one k a + cnt k r end.
(** No two nodes of the tree share an address. *)
Definition nd (t : tree) : Prop := forall k, cnt k t <= 1.

(** The memory stores the tree, with right links down and up; [par] is what the
    root's parent pointer is. *)
Fixpoint linked (h : gmap nat (node A)) (par : option nat) (t : tree) : Prop :=
  match t with
  | Lf => True
  | Br l a hh x r =>
      h !! a = Some (Nd par (rootp l) (rootp r) hh x) /\ linked h (Some a) l /\ linked h (Some a) r
  end.

(** The number of nodes and the height. *)
Fixpoint nodes (t : tree) : nat := match t with Lf => 0 | Br l _ _ _ r => nodes l + 1 + nodes r end.
Fixpoint depth (t : tree) : Z :=
  match t with Lf => 0 | Br l _ _ _ r => Z.max (depth l) (depth r) + 1 end%Z.

(** Every node stores its height; every node's children differ in height by at
    most one. *)
Fixpoint heights_ok (t : tree) : Prop :=
  match t with Lf => True | Br l _ h _ r => h = depth t /\ heights_ok l /\ heights_ok r end.
Fixpoint balanced (t : tree) : Prop :=
  match t with
  | Lf => True
  | Br l _ _ _ r => (-1 <= depth l - depth r <= 1)%Z /\ balanced l /\ balanced r
  end.
End Tree.

(** A strict weak order, as a comparison function. *)
Definition swo {A} (cmp : A -> A -> bool) : Prop :=
  (forall a b, cmp a b = true -> cmp b a = false) /\
  (forall a b c, cmp a b = true -> cmp a c = true \/ cmp c b = true).

Section Sets.
Context {A : Type} (cmp : A -> A -> bool).

Definition equiv (a b : A) : Prop := cmp a b = false /\ cmp b a = false.
Definition equivb (a b : A) : bool := negb (cmp a b) && negb (cmp b a).

(** A set of elements is kept as the list in ascending order. *)
Definition ascending (l : list A) : Prop := StronglySorted (fun a b => cmp a b = true) l.
(** Its member equivalent to [x]; with [x] added; without [x]; what follows [x]. *)
Definition lookup_set (x : A) (l : list A) : option A := List.find (equivb x) l.
Fixpoint add_set (x : A) (l : list A) : list A :=
  match l with
  | [] => [x]
  | y :: l' => if cmp x y then x :: l else y :: add_set x l'
  end.
Definition remove_set (x : A) (l : list A) : list A := List.filter (fun y => negb (equivb x y)) l.
Definition next_set (x : A) (l : list A) : option A := List.find (fun y => cmp x y) l.
End Sets.

(** Fibonacci numbers. *)
Fixpoint fib (n : nat) : nat :=
  match n with 0 => 0 | S m => match m with 0 => 1 | S k => fib m + fib k end end.
