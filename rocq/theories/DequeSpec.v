(** What deques and queues should do: each is an ordinary sequence. *)
From Verif Require Import Base VectorModel VectorSpec ListModel DequeModel.

Section Spec.
Context {A : Type}.
(** The boolean tells whether the deque has had a push since it was constructed,
    cleared or copied empty.  Iterating over and copying from the others is left
    out of the claim (C34), as are moves (C33), and pops, front(), back() and
    operator[] where there is no element. *)
Notation sw := (gmap nat (list A * bool)).
Definition with_dq {X} (s : sw) (id : nat) (k : list A -> bool -> sres X) : sres X :=
  match s !! id with Some (l, b) => k l b | None => SUnspec end.
Definition no_dq {X} (s : sw) (id : nat) (r : sres X) : sres X :=
  match s !! id with None => r | Some _ => SUnspec end.
Definition nonempty (l : list A) : bool := match l with [] => false | _ => true end.
Definition some_or {X Y} (o : option X) (k : X -> sres Y) : sres Y := match o with Some x => k x | None => SUnspec end.

Definition ds_step (o : dop A) (s : sw) : sres (out A * sw) :=
  match o with
  | DNew id => no_dq s id (SVal (RUnit, <[id := ([], false)]> s))
  | DCopyNew id src => no_dq s id (with_dq s src (fun l b =>
      if b then SVal (RUnit, <[id := (l, nonempty l)]> s) else SUnspec))
  | DAssign id src => with_dq s id (fun _ _ => with_dq s src (fun l b =>
      if Nat.eqb id src then SVal (RUnit, s)
      else if b then SVal (RUnit, <[id := (l, nonempty l)]> s) else SUnspec))
  | DMoveNew _ _ => SUnspec
  | DMoveAssign id src => with_dq s id (fun _ _ => if Nat.eqb id src then SVal (RUnit, s) else SUnspec)
  | DDestroy id => with_dq s id (fun _ _ => SVal (RUnit, delete id s))
  | DClear id => with_dq s id (fun _ _ => SVal (RUnit, <[id := ([], false)]> s))
  | DPushBack id a | DPush id a => with_dq s id (fun l _ => SVal (RUnit, <[id := (l ++ [a], true)]> s))
  | DPushFront id a => with_dq s id (fun l _ => SVal (RUnit, <[id := (a :: l, true)]> s))
  | DPopBack id => with_dq s id (fun l b => match l with [] => SUnspec | _ => SVal (RUnit, <[id := (removelast l, b)]> s) end)
  | DPopFront id | DPop id => with_dq s id (fun l b => match l with [] => SUnspec | _ :: t => SVal (RUnit, <[id := (t, b)]> s) end)
  | DFront id => with_dq s id (fun l _ => some_or (head l) (fun a => SVal (RVal a, s)))
  | DBack id => with_dq s id (fun l _ => some_or (last l) (fun a => SVal (RVal a, s)))
  | DAt id z => with_dq s id (fun l _ =>
      let i := (if z <? 0 then Z.of_nat (length l) + z else z)%Z in
      if (i <? 0)%Z then SUnspec else some_or (l !! Z.to_nat i) (fun a => SVal (RVal a, s)))
  | DSize id => with_dq s id (fun l _ => SVal (RNat (length l), s))
  | DEmpty id => with_dq s id (fun l _ => SVal (RBool (negb (nonempty l)), s))
  | DCapacity _ => SUnspec
  | DIter id => with_dq s id (fun l b => if b then SVal (RList l, s) else SUnspec)
  end.
End Spec.

(** Storage: every allocated block is paid for by some deque's capacity. *)
Definition blocks_allocated {A} (w : dst A) : nat := size (d_blk w).
Definition capacity_total {A} (w : dst A) : nat := sum_list_with (fun iq : nat * dq => q_cap iq.2) (map_to_list (d_obj w)).

(** Elements: the cells of all blocks that hold one, and the elements of all sequences. *)
Definition elements_live {A} (w : dst A) : nat :=
  sum_list_with (fun bc : nat * list (option A) => length (filter is_Some bc.2)) (map_to_list (d_blk w)).
Definition elements_total {A} (s : gmap nat (list A * bool)) : nat :=
  sum_list_with (fun ic : nat * (list A * bool) => length ic.2.1) (map_to_list s).

(** The deques a call may change. *)
Definition dop_writes {A} (o : dop A) : list nat :=
  match o with
  | DNew id | DCopyNew id _ | DAssign id _ | DDestroy id | DClear id | DPushBack id _ | DPushFront id _ | DPush id _
  | DPopBack id | DPopFront id | DPop id => [id]
  | DMoveNew id src | DMoveAssign id src => [id; src]
  | DFront _ | DBack _ | DAt _ _ | DSize _ | DEmpty _ | DCapacity _ | DIter _ => []
  end.

(** How many elements a history has put into the deque [id], by pushes and copies. *)
Definition puts_of {A} (id : nat) (o : dop A) (s : gmap nat (list A * bool)) : nat :=
  match o with
  | DPushBack k _ | DPushFront k _ | DPush k _ => if Nat.eqb k id then 1 else 0
  | DCopyNew k src | DAssign k src => if Nat.eqb k id && negb (Nat.eqb k src) then match s !! src with Some (l, _) => length l | None => 0 end else 0
  | _ => 0
  end.
Fixpoint puts {A} (id : nat) (ops : list (dop A)) (s : gmap nat (list A * bool)) : nat :=
  match ops with
  | [] => 0
  | o :: ops => puts_of id o s + match ds_step o s with SVal (_, s') => puts id ops s' | _ => 0 end
  end.
