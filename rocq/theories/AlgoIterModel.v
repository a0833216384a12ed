(** Model of core/algorithm.hpp over any iterator type, and over the iterators of
    the linked lists (ListIterModel.v) and of AVL trees (TreeIterModel.v). *)
From Verif Require Import Base VectorModel ListModel ListIterModel TreeModel TreeWorld TreeIterModel.
Local Open Scope nat_scope.

(** The templates.  [P] is the type Iterator, with its operator!= [ne], its
    operator* and its operator++(int), whose result is not used.  [fuel] bounds the
    loop; running out of it is [Diverge]. *)
Section Templates.
Context {S P A : Type} (ne : P -> P -> M S bool) (next : P -> M S P).

(** for_each: algorithm.hpp 18-23.  [body it] is the call of cb on [*it]; what it gives back is
    collected. *)
Fixpoint for_each_loop {X} (fuel : nat) (body : P -> M S X) (it stop : P) : M S (list X) :=
  more <- ne it stop ;;
  if more : bool then
    match fuel with
    | O => diverge
    | Datatypes.S f => x <- body it ;; it <- next it ;; xs <- for_each_loop f body it stop ;; ret (x :: xs)
    end
  else ret [].

(** find: algorithm.hpp 25-33; [eqb] is operator== of the elements. *)
Context (eqb : A -> A -> bool) (star : P -> M S A).
Fixpoint find_loop (fuel : nat) (obj : A) (it stop : P) : M S P :=
  more <- ne it stop ;;
  if more : bool then
    match fuel with
    | O => diverge
    | Datatypes.S f => x <- star it ;; if eqb x obj then ret it else it <- next it ;; find_loop f obj it stop
    end
  else ret stop.
End Templates.

(** operator!= of spec/DStructSpec.hpp 93, on iterators that are one pointer. *)
Definition ptr_ne {S P} `{EqDecision P} (p q : P) : M S bool := ret (negb (bool_decide (p = q))).

(** What a client of a list can do: any step of ListIterModel.v,
    [AFind k b e a]: k = find(b, e, a), and [AEach b e g]: for_each(b, e, cb) with a
    callback that notes the element and then replaces it by its image under [g]. *)
Inductive aop (A : Type) := AIt (o : iop A) | AFind (k b e : nat) (a : A) | AEach (b e : nat) (g : A -> A).
Arguments AIt {A} o.
Arguments AFind {A} k b e a.
Arguments AEach {A} b e g.

(** The same for AVL trees, whose iterators do not allow writing (AVLTree.hpp 43). *)
Inductive bop (A : Type) := BIt (o : kop A) | BFind (k b e : nat) (a : A) | BEach (b e : nat).
Arguments BIt {A} o.
Arguments BFind {A} k b e a.
Arguments BEach {A} b e.

Section Lists.
Context {A : Type} (junk : A) (eqb : A -> A -> bool) (dbl : bool).
Notation I := (M (iworld A)).

(** operator*: spec/DStructSpec.hpp 91. *)
Definition it_star (p : ptr) : I A := on_lists (ld_dat p).
Definition it_visit (g : A -> A) (p : ptr) : I A := a <- it_star p ;; on_lists (st_dat p (g a)) ;;; ret a.
(** No loop can visit more nodes than there are. *)
Definition it_fuel : I nat := fun w => Ok (size (l_cells (fst w)), w).
Definition a_step (o : aop A) : I (out A) :=
  match o with
  | AIt o => it_step junk dbl o
  | AFind k b e a => p <- get_it b ;; q <- get_it e ;; n <- it_fuel ;; r <- find_loop ptr_ne it_next eqb it_star n a p q ;; set_it k r ;;; ret RUnit
  | AEach b e g => p <- get_it b ;; q <- get_it e ;; n <- it_fuel ;; l <- for_each_loop ptr_ne it_next n (it_visit g) p q ;; ret (RList l)
  end.
End Lists.

Section Trees.
Context {A : Type} (cmp eqb : A -> A -> bool).
Notation K := (M (kworld A)).

Definition kt_star (p : option nat) : K A := on_trees (on_nodes (ld_val p)).
Definition kt_fuel : K nat := fun w => Ok (size (tw_heap (fst w)), w).
Definition b_step (o : bop A) : K (tout A) :=
  match o with
  | BIt o => kt_step cmp o
  | BFind k b e a => p <- get_kt b ;; q <- get_kt e ;; n <- kt_fuel ;; r <- find_loop ptr_ne kt_next eqb kt_star n a p q ;; set_kt k r ;;; ret OUnit
  | BEach b e => p <- get_kt b ;; q <- get_kt e ;; n <- kt_fuel ;; l <- for_each_loop ptr_ne kt_next n kt_star p q ;; ret (OList l)
  end.
End Trees.
