(** What the references of DisjointSet should mean: a reference find returned names
    an element of a set.  No memory and no parents, only representatives. *)
From Verif Require Import Base VectorModel VectorSpec DSUModel DSUSpec DSUUnionModel DSUUnionSpec DSURefModel.

(** What a kept reference is: another name of a variable; an element of the set of [n]
    in [id], [cur]: the set has had the same representative ever since; or dangling. *)
Inductive sref := SInt (x : nat) | SElem (id n : nat) (cur : bool) | SGone.
Record rsp := RSp { p_sets : gmap nat (list nat); p_ints : gmap nat nat; p_refs : gmap nat sref }.
Definition rsp0 : rsp := RSp ∅ ∅ ∅.

(** What becomes of a reference at a call. *)
Definition same_rep (t t' : gmap nat (list nat)) (id n : nat) : bool :=
  match t !! id, t' !! id with Some d, Some d' => Nat.eqb (rep d n) (rep d' n) | _, _ => false end.
Definition sfollow (o : uop) (t t' : gmap nat (list nat)) (q : sref) : sref :=
  match q with
  | SElem id n cur =>
      match o with
      | UDo (DMoveNew x y) => if Nat.eqb y id then SElem x n cur else q
      | UDo (DAssign x y) => if Nat.eqb x id && negb (Nat.eqb x y) then SGone else q
      | UDo (DMoveAssign x y) =>
          if Nat.eqb x y then q
          else if Nat.eqb y id then SElem x n cur else if Nat.eqb x id then SGone else q
      | UDo (DDestroy x) => if Nat.eqb x id then SGone else q
      | _ => SElem id n (cur && same_rep t t' id n)
      end
  | q => q
  end.
Definition call (o : uop) (s : rsp) : sres (out Z * rsp) :=
  match du_step o (p_sets s) with
  | SVal (r, t) => SVal (r, RSp t (p_ints s) (sfollow o (p_sets s) t <$> p_refs s))
  | SAbort => SAbort
  | SUnspec => SUnspec
  end.

(** The value of an argument, where it is known, *)
Definition exact (a : rarg) (s : rsp) : option nat :=
  match a with
  | ALit n => Some n
  | AInt x => p_ints s !! x
  | ARef k =>
      match p_refs s !! k with
      | Some (SInt x) => p_ints s !! x
      | Some (SElem id n true) => (fun d => rep d n) <$> p_sets s !! id
      | _ => None
      end
  end.
(** and an element of the same set of [id] as the argument. *)
Definition member (id : nat) (a : rarg) (s : rsp) : option nat :=
  match a with
  | ARef k =>
      match p_refs s !! k with
      | Some (SElem id' n false) => if Nat.eqb id' id then Some n else None
      | _ => exact a s
      end
  | _ => exact a s
  end.
Definition refers (a : rarg) (s : rsp) : sref :=
  match a with
  | ALit _ => SGone
  | AInt x => SInt x
  | ARef k => match p_refs s !! k with Some q => q | None => SGone end
  end.
Definition with1 {X} (o : option nat) (f : nat -> sres X) : sres X := match o with Some x => f x | None => SUnspec end.

(** The reference find(a) returns: for an argument that represents its set, the
    argument; otherwise a reference to an element of the set. *)
Definition found (id : nat) (a : rarg) (d : list nat) (s : rsp) : sres sref :=
  let other := with1 (exact a s) (fun y =>
    if Nat.ltb y (length d) then SVal (if Nat.eqb (rep d y) y then refers a s else SElem id y true) else SAbort) in
  match refers a s with
  | SElem id' n _ => if Nat.eqb id' id then SVal (SElem id n true) else other
  | _ => other
  end.

Definition ps_step (o : rop) (s : rsp) : sres (out Z * rsp) :=
  match o with
  | PInt x n => SVal (RUnit, RSp (p_sets s) (<[x := n]> (p_ints s)) (p_refs s))
  | PDo o => call (UDo o) s
  | PRead k => with1 (exact (ARef k) s) (fun y => SVal (RVal (Z.of_nat y), s))
  | PFind id a => with1 (member id a s) (fun x => call (UDo (DFind id x)) s)
  | PBind k id a =>
      match p_sets s !! id with
      | None => SUnspec
      | Some d =>
          match found id a d s with
          | SVal q => SVal (RUnit, RSp (p_sets s) (p_ints s) (<[k := q]> (p_refs s)))
          | SAbort => SAbort
          | SUnspec => SUnspec
          end
      end
  | PConnected id a b => with1 (member id a s) (fun x => with1 (member id b s) (fun y => call (UDo (DConnected id x y)) s))
  | PConnect id a b => with1 (member id a s) (fun x => with1 (member id b s) (fun y => call (UDo (DConnect id x y)) s))
  | PUnion id a b => with1 (exact a s) (fun x => with1 (exact b s) (fun y => call (UUnion id x y) s))
  end.

(** The number an argument is when it is read in a state of the model. *)
Definition value (a : rarg) (st : rst) (y : nat) : Prop := (r <- bound a ;; rd r) st = Ok (Z.of_nat y, st).
