(** Machine arithmetic and the helpers of core/utils.hpp. *)
From Verif Require Import Base.
Open Scope Z_scope.

(** ** Integers: int has 32 bits, size_t 64 (spec/DStructSpec.hpp 33-34). *)
Definition INT_MIN : Z := - 2 ^ 31.
Definition INT_MAX : Z := 2 ^ 31 - 1.
(** Conversion to int (two's complement). *)
Definition to_int (z : Z) : Z := (z + 2 ^ 31) mod 2 ^ 32 - 2 ^ 31.
(** Conversion to size_t. *)
Definition to_size (z : Z) : Z := z mod 2 ^ 64.

(** The int that Alloc::allocate receives when a container calls
    AllocSpec<T, Alloc>::allocate(n) with a size_t [n] and sizeof(T) = [s]:
    spec/DStructSpec.hpp 47-49 (int n; n * sizeof(T) is computed in size_t; the
    parameter of Alloc::allocate, port/dstruct-port.h 20, is an int). *)
Definition spec_bytes (n s : Z) : Z := to_int (to_size (to_size (to_int n) * s)).
(** The argument of malloc, a size_t: port/libc/libc-dstruct-port.hpp 25-27. *)
Definition malloc_arg (bytes : Z) : Z := to_size bytes.

(** ** core/utils.hpp *)
(** less<T *>: 58-65; greater<T *>: 74-81.  [raw] is the built-in < on addresses;
    nothing is assumed about how it treats the null pointer. *)
Section Pointers.
Context {P : Type} (null : P) (eqb raw : P -> P -> bool).
Definition less_ptr (a b : P) : bool :=
  if eqb b null then false else if eqb a null then true else raw a b.
Definition greater_ptr (a b : P) : bool :=
  if eqb a null then false else if eqb b null then true else raw b a.
End Pointers.
(** less<T>: 51-56 and greater<T>: 67-72, for a T with < and > (here: > is the
    converse of <, as for the built-in types). *)
Definition less_val {V : Type} (lt : V -> V -> bool) (a b : V) : bool := lt a b.
Definition greater_val {V : Type} (lt : V -> V -> bool) (a b : V) : bool := lt b a.

(** Objects as cells; moving out of an object leaves it in the state [left v];
    move assignment of an object to itself does nothing (core/common.hpp 44-47),
    which holds for the built-in types as well. *)
Section Moves.
Context {V : Type} (left : V -> V).
Notation store := (gmap nat V).
Definition move_from (a : nat) : M store V := fun s =>
  match s !! a with Some v => Ok (v, <[a := left v]> s) | None => UB end.
Definition move_assign (a b : nat) : M store unit := fun s =>
  match s !! a, s !! b with
  | Some _, Some v => Ok (tt, if Nat.eqb a b then s else <[a := v]> (<[b := left v]> s))
  | _, _ => UB
  end.
Definition assign_val (a : nat) (v : V) : M store unit := fun s =>
  match s !! a with Some _ => Ok (tt, <[a := v]> s) | None => UB end.
(** swap: 99-104; the local c is the value itself, and is moved out of at the end. *)
Definition swap_ref (a b : nat) : M store unit :=
  c <- move_from a ;; move_assign a b ;;; assign_val b c.
End Moves.

(** max: 106-109, for a T with the > given by [gt]. *)
Definition max_val {V : Type} (gt : V -> V -> bool) (a b : V) : V := if gt a b then a else b.
(** Signed negation overflows (undefined behaviour) at the most negative value. *)
Definition int_neg (a : Z) : res Z := if Z.eqb a INT_MIN then UB else Ok (- a).
(** abs: 111-114, at int. *)
Definition abs_int (a : Z) : res Z := if Z.geb a 0 then Ok a else int_neg a.
