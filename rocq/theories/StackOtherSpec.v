(** What a stack should do over any container: last in, first out. *)
From Verif Require Import Base VectorModel VectorSpec StackModel.

Inductive under := OnDeque | OnDList | OnSList.

Section Spec.
Context {A : Type} (u : under).
(** Elements most recent first; the boolean tells whether anything was pushed
    since the stack was constructed, cleared or copied empty.  Over a deque the
    claim leaves out iterating over and copying a stack nothing was pushed to
    (C34), moves (C33), and pop() and top() of an empty stack.  Over a list it
    leaves out moving an empty stack (C28) and, for singly linked lists, copying
    a non-empty one (C26); pop() and top() of an empty stack assert. *)
Notation sw := (gmap nat (list A * bool)).

Definition ko_step (o : kop A) (s : sw) : sres (out A * sw) :=
  let live (id : nat) (k : list A -> bool -> sres (out A * sw)) := match s !! id with Some (l, b) => k l b | None => SUnspec end in
  let fresh (id : nat) (r : sres (out A * sw)) := match s !! id with None => r | Some _ => SUnspec end in
  let pushed (l : list A) := match l with [] => false | _ => true end in
  let copy (id : nat) (l : list A) (b : bool) : sres (out A * sw) :=
    match u with
    | OnDeque => if b then SVal (RUnit, <[id := (l, pushed l)]> s) else SUnspec
    | OnDList => SVal (RUnit, <[id := (l, pushed l)]> s)
    | OnSList => if pushed l then SUnspec else SVal (RUnit, <[id := (l, false)]> s)
    end in
  let move (id src : nat) (l : list A) : sres (out A * sw) :=
    match u, l with
    | OnDeque, _ | _, [] => SUnspec
    | _, _ => SVal (RUnit, <[src := ([], false)]> (<[id := (l, true)]> s))
    end in
  let no_element : sres (out A * sw) := match u with OnDeque => SUnspec | _ => SAbort end in
  match o with
  | KNew id => fresh id (SVal (RUnit, <[id := ([], false)]> s))
  | KCopyNew id src => fresh id (live src (fun l b => copy id l b))
  | KAssign id src => live id (fun _ _ => live src (fun l b => if Nat.eqb id src then SVal (RUnit, s) else copy id l b))
  | KMoveNew id src => fresh id (live src (fun l _ => move id src l))
  | KMoveAssign id src => live id (fun _ _ => live src (fun l _ => if Nat.eqb id src then SVal (RUnit, s) else move id src l))
  | KDestroy id => live id (fun _ _ => SVal (RUnit, delete id s))
  | KPush id a => live id (fun l _ => SVal (RUnit, <[id := (a :: l, true)]> s))
  | KPop id => live id (fun l b => match l with [] => no_element | _ :: rest => SVal (RUnit, <[id := (rest, b)]> s) end)
  | KTop id => live id (fun l _ => match l with [] => no_element | newest :: _ => SVal (RVal newest, s) end)
  | KSize id => live id (fun l _ => SVal (RNat (length l), s))
  | KEmpty id => live id (fun l _ => SVal (RBool (negb (pushed l)), s))
  | KClear id => live id (fun _ _ => SVal (RUnit, <[id := ([], false)]> s))
  | KIter id => live id (fun l b => match u with
      | OnDeque => if b then SVal (RList (rev l), s) else SUnspec
      | _ => SVal (RList (rev l), s) end)
  end.
End Spec.
