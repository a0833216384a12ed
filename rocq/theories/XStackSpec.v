(** What a stack with extremum should do. *)
From Verif Require Import Base Alloc VectorModel VectorSpec VecProg ListModel ListSpec DequeModel DequeSpec StackModel StackOtherSpec XStackModel.

(** Which container is underneath; [triv]: the elements need no destructor. *)
Inductive base := OverVector (triv : bool) | Over (u : under).

Section Spec.
Context {A : Type} (b : base) (cmp eqb : A -> A -> bool).
(** Elements most recent first; the boolean tells whether anything was pushed since
    the stack was constructed or cleared. *)
Notation sw := (gmap nat (list A * bool)).

(** The element no other precedes, the oldest if there are several. *)
Fixpoint extremum (l : list A) : option A :=
  match l with
  | [] => None
  | a :: l => match extremum l with Some x => Some (if cmp a x then a else x) | None => Some a end
  end.
Definition some_pushed (l : list A) : bool := match l with [] => false | _ => true end.

(** What the containers themselves get wrong is left out: copying non-empty vectors
    of elements with a destructor (C05), non-empty singly linked lists (C26) and
    deques nothing was pushed to (C34); moving deques (C33) and empty lists (C28). *)
Definition can_copy (l : list A) (p : bool) : bool :=
  match b with OverVector triv => triv || negb (some_pushed l) | Over OnDeque => p | Over OnDList => true | Over OnSList => negb (some_pushed l) end.
Definition can_move (l : list A) : bool :=
  match b with OverVector _ => true | Over OnDeque => false | Over _ => some_pushed l end.
(** top() and pop() of an empty stack: an assertion, except over deques. *)
Definition no_element {X} : sres X := match b with Over OnDeque => SUnspec | _ => SAbort end.

(** Left out as well (C16): pushing what equals the current extremum.  getXValue() of
    an empty stack and iteration are not specified here. *)
Definition es_step (o : eop A) (s : sw) : sres (out A * sw) :=
  let live (id : nat) (k : list A -> bool -> sres (out A * sw)) := match s !! id with Some (l, p) => k l p | None => SUnspec end in
  let fresh (id : nat) (r : sres (out A * sw)) := match s !! id with None => r | Some _ => SUnspec end in
  let copy (id : nat) (l : list A) (p : bool) : sres (out A * sw) := if can_copy l p then SVal (RUnit, <[id := (l, some_pushed l)]> s) else SUnspec in
  let move (id src : nat) (l : list A) : sres (out A * sw) := if can_move l then SVal (RUnit, <[src := ([], false)]> (<[id := (l, some_pushed l)]> s)) else SUnspec in
  match o with
  | ENew id _ => fresh id (SVal (RUnit, <[id := ([], false)]> s))
  | ECopyNew id src => fresh id (live src (fun l p => copy id l p))
  | EMoveNew id src => fresh id (live src (fun l _ => move id src l))
  | EAssign id src => live id (fun _ _ => live src (fun l p => if Nat.eqb id src then SVal (RUnit, s) else copy id l p))
  | EMoveAssign id src => live id (fun _ _ => live src (fun l _ => if Nat.eqb id src then SVal (RUnit, s) else move id src l))
  | EDestroy id => live id (fun _ _ => SVal (RUnit, delete id s))
  | EPush id a => live id (fun l _ =>
      let pushed := SVal (RUnit, <[id := (a :: l, true)]> s) in
      match extremum l with Some x => if eqb x a then SUnspec else pushed | None => pushed end)
  | EPop id => live id (fun l p => match l with [] => no_element | _ :: rest => SVal (RUnit, <[id := (rest, p)]> s) end)
  | ETop id => live id (fun l _ => match l with [] => no_element | newest :: _ => SVal (RVal newest, s) end)
  | EExt id => live id (fun l _ => match extremum l with Some x => SVal (RVal x, s) | None => SUnspec end)
  | EEmpty id => live id (fun l _ => SVal (RBool (negb (some_pushed l)), s))
  | EClear id => live id (fun _ _ => SVal (RUnit, <[id := ([], false)]> s))
  | EIter id => SUnspec
  end.
End Spec.

Definition over {A} (c : cont A) : base :=
  match c with CVector triv => OverVector triv | CDeque _ => Over OnDeque | CDList _ _ => Over OnDList | CSList _ _ => Over OnSList end.
(** Deque blocks have room for something, and an allocator returns unused memory. *)
Definition usable {A} (c : cont A) : Prop :=
  match c with CVector _ => True | CDeque N => 0 < N | CDList _ pol => sound pol | CSList _ pol => sound pol end.
(** The allocator of the lists may refuse. *)
Definition may_stop {A} (c : cont A) : Prop :=
  match c with CVector _ => False | CDeque _ => False | CDList _ pol => ~ grants pol | CSList _ pol => ~ grants pol end.
(** When no stack is left, neither is memory or an element. *)
Definition nothing_left {A} (c : cont A) : cstate c -> Prop :=
  match c with
  | CVector _ => fun w => m_leaked (w_mem w) = 0 /\ m_blocks (w_mem w) = ∅
  | CDeque _ => fun w => blocks_allocated w = 0 /\ elements_live w = 0
  | CDList _ _ => fun w => nodes_allocated w = 0 | CSList _ _ => fun w => nodes_allocated w = 0
  end.
