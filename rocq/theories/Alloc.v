(** Allocators of nodes (AllocSpec, spec/DStructSpec.hpp 45-54, over
    port/libc/libc-dstruct-port.hpp 24-30 or memory/StaticMemAllocator.hpp).

    An allocator sees the requests it has granted and the addresses it got back,
    newest first, and answers the next request with an address or with null.
    Every function from such logs to answers is an allocator; that it must not
    hand out an address in use, as long as only addresses in use are given back,
    is asked for in [sound].  Nothing else is assumed: addresses may come in any
    order and may be used again.  All nodes of one
    container class have the same size, so a request has no argument. *)
From Verif Require Import Base.

Inductive aev := Got (a : nat) | Gave (a : nat).
Definition policy : Type := list aev -> option nat.
Record alloc := Alloc { al_pol : policy; al_log : list aev }.

(** The addresses in use. *)
Fixpoint al_live (log : list aev) : gset nat :=
  match log with
  | [] => ∅
  | Got a :: log => {[a]} ∪ al_live log
  | Gave a :: log => al_live log ∖ {[a]}
  end.
Definition al_pick (al : alloc) : option nat := al_pol al (al_log al).
Definition al_got (a : nat) (al : alloc) : alloc := Alloc (al_pol al) (Got a :: al_log al).
Definition al_gave (a : nat) (al : alloc) : alloc := Alloc (al_pol al) (Gave a :: al_log al).

(** A log the allocator can have: it answered as it answers, and only addresses
    in use were given back. *)
Fixpoint served (pol : policy) (log : list aev) : Prop :=
  match log with
  | [] => True
  | Got a :: log => pol log = Some a /\ served pol log
  | Gave a :: log => a ∈ al_live log /\ served pol log
  end.

(** An address in use is not handed out again; no request is refused; the
    allocator refuses with fewer than [n] nodes in use. *)
Definition sound (pol : policy) : Prop := forall log a, served pol log -> pol log = Some a -> a ∉ al_live log.
Definition grants (pol : policy) : Prop := forall log, served pol log -> is_Some (pol log).
Definition refuses (pol : policy) (n : nat) : Prop := exists log, served pol log /\ pol log = None /\ size (al_live log) < n.

(** The allocator has room for exactly [n] nodes. *)
Definition room (pol : policy) (n : nat) : Prop := forall log, served pol log -> (is_Some (pol log) <-> size (al_live log) < n).

(** Example allocators: always a new address; the lowest free address; the
    address given back last, if that was the last thing that happened; at most [n] addresses. *)
Definition al_top (log : list aev) : nat := fold_right (fun e m => match e with Got a => Nat.max (S a) m | Gave _ => m end) 0 log.
Definition bump : policy := fun log => Some (al_top log).
Fixpoint first_free (fuel a : nat) (s : gset nat) : nat :=
  match fuel with
  | O => a
  | S f => if decide (a ∈ s) then first_free f (S a) s else a
  end.
Definition lowest : policy := fun log => Some (first_free (al_top log) 0 (al_live log)).
Definition last_back : policy := fun log =>
  match log with
  | Gave a :: _ => Some a
  | _ => Some (al_top log)
  end.
Definition limit (n : nat) (pol : policy) : policy := fun log => if Nat.ltb (size (al_live log)) n then pol log else None.
