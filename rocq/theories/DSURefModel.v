(** DisjointSet with its parameters and results as what they are, references to
    int: core/ds/set/DisjointSet.hpp 48-82.  DSUModel.v passes values instead.

    The project is compiled as C++11 (xmake.lua 3), which leaves open in which
    order the operands of = and of == are evaluated: [order] says what the
    compiler chose, and nothing below depends on it. *)
From Verif Require Import Base VectorModel VectorSpec VecProg DSUModel DSUUnionModel VecIterModel.

(** What a [const int &] can be bound to: a variable of the client, an element of a
    set's vector, a temporary made for a call ([CTmp]: as long as the call lasts), or
    a temporary that is gone. *)
Inductive cref := CVar (x : nat) | CSlot (p : ptr) | CTmp (z : Z) | CGone.

(** The disjoint sets, the client's int variables and the references it keeps. *)
Record rst := RSt { r_vecs : world Z; r_ints : gmap nat Z; r_refs : gmap nat cref }.
Definition r_init : rst := RSt world_init ∅ ∅.

(** The compiler's choices.  [o_left]: in [mArray_d[index] = find(..)] (51) the left
    operand is evaluated first.  [o_swap]: in [find(..) == find(..)] (65) the right
    operand is evaluated first; [o_early]: the operand evaluated first is read before
    the other one is evaluated. *)
Record order := Order { o_left : bool; o_swap : bool; o_early : bool }.

(** An argument in the client's code: a number, a variable, a kept reference. *)
Inductive rarg := ALit (n : nat) | AInt (x : nat) | ARef (k : nat).
(** [PInt x n] is [x = n] (or [int x = n]); [PDo o] is a call of DSUModel.v, with
    numbers as arguments; [PBind k id a] is [const int &k = id.find(a)]; [PRead k] reads
    [k]; the others are the methods of the same name. *)
Inductive rop :=
| PInt (x n : nat) | PDo (o : dop) | PRead (k : nat)
| PFind (id : nat) (a : rarg) | PBind (k id : nat) (a : rarg)
| PConnected (id : nat) (a b : rarg) | PConnect (id : nat) (a b : rarg) | PUnion (id : nat) (a b : rarg).

Section Model.
Context (ord : order).
Notation R := (M rst).

(** A computation on the vectors. *)
Definition on_sets {X} (m : M (world Z) X) : R X := fun st =>
  match m (r_vecs st) with
  | Ok (x, w) => Ok (x, RSt w (r_ints st) (r_refs st))
  | Abort => Abort | UB => UB | Diverge => Diverge
  end.

(** Reading what a reference is bound to. *)
Definition rd (r : cref) : R Z :=
  match r with
  | CVar x => fun st => match r_ints st !! x with Some z => Ok (z, st) | None => UB end
  | CSlot p => on_sets (lift (load (fst p) (snd p)))
  | CTmp z => ret z
  | CGone => ub
  end.
(** Assigning to the int a non-const reference (a result of mArray_d[..]) is bound to. *)
Definition wr (r : cref) (z : Z) : R unit :=
  match r with
  | CSlot p => on_sets (lift (store (fst p) (snd p) z))
  | _ => ub
  end.
(** mArray_d[index]: Vector.hpp 86-91, 122-127. *)
Definition slot (id : nat) (index : Z) : R cref :=
  on_sets (v <- obj id ;; p <- lift (v_ref v index) ;; ret (CSlot p)).
(** The same for an index given by reference. *)
Definition slot_at (id : nat) (index : cref) : R cref := i <- rd index ;; slot id i.

(** find: DisjointSet.hpp 48-52. *)
Fixpoint rf_find (fuel id : nat) (index : cref) : R cref :=
  match fuel with
  | O => diverge
  | S f =>
      s <- slot_at id index ;; v <- rd s ;;
      if (v <? 0)%Z then ret index
      else if o_left ord then
        d <- slot_at id index ;;
        s <- slot_at id index ;; r <- rf_find f id s ;; x <- rd r ;; wr d x ;;; ret d
      else
        s <- slot_at id index ;; r <- rf_find f id s ;;
        d <- slot_at id index ;; x <- rd r ;; wr d x ;;; ret d
  end.
(** A call from outside, with as much fuel as any acyclic path can need. *)
Definition rf_find_top (id : nat) (index : cref) : R cref :=
  v <- on_sets (obj id) ;; rf_find (S (v_size v)) id index.

(** connected: DisjointSet.hpp 64-66. *)
Definition rf_connected (id : nat) (e1 e2 : cref) : R bool :=
  let a := if o_swap ord then e2 else e1 in
  let b := if o_swap ord then e1 else e2 in
  r1 <- rf_find_top id a ;;
  if o_early ord then z1 <- rd r1 ;; r2 <- rf_find_top id b ;; z2 <- rd r2 ;; ret (z1 =? z2)%Z
  else r2 <- rf_find_top id b ;; z1 <- rd r1 ;; z2 <- rd r2 ;; ret (z1 =? z2)%Z.

(** union_set: DisjointSet.hpp 74-82. *)
Definition rf_union (id : nat) (root1 root2 : cref) : R unit :=
  a <- rd root1 ;; b <- rd root2 ;;
  if (a <? b)%Z then d <- slot_at id root2 ;; x <- rd root1 ;; wr d x
  else
    s1 <- slot_at id root1 ;; v1 <- rd s1 ;; s2 <- slot_at id root2 ;; v2 <- rd s2 ;;
    (if (v1 =? v2)%Z then d <- slot_at id root1 ;; v <- rd d ;; wr d (v - 1)%Z else ret tt) ;;;
    d <- slot_at id root2 ;; x <- rd root1 ;; wr d x.

(** connect: DisjointSet.hpp 68-72; root1 and root2 are variables of the function. *)
Definition rf_connect (id : nat) (e1 e2 : cref) : R unit :=
  r1 <- rf_find_top id e1 ;; z1 <- rd r1 ;;
  r2 <- rf_find_top id e2 ;; z2 <- rd r2 ;;
  rf_union id (CTmp z1) (CTmp z2).

(** Binding a parameter to an argument. *)
Definition bound (a : rarg) : R cref :=
  match a with
  | ALit n => ret (CTmp (Z.of_nat n))
  | AInt x => fun st => match r_ints st !! x with Some _ => Ok (CVar x, st) | None => UB end
  | ARef k => fun st => match r_refs st !! k with Some r => Ok (r, st) | None => UB end
  end.
(** Temporaries are destroyed at the end of the statement. *)
Definition kept (r : cref) : cref := match r with CTmp _ => CGone | r => r end.
Definition set_ref (k : nat) (r : cref) : R unit := fun st => Ok (tt, RSt (r_vecs st) (r_ints st) (<[k := r]> (r_refs st))).
Definition set_int (x : nat) (z : Z) : R unit := fun st => Ok (tt, RSt (r_vecs st) (<[x := z]> (r_ints st)) (r_refs st)).

Definition p_find (id : nat) (a : rarg) : R (out Z) := r <- bound a ;; r <- rf_find_top id r ;; z <- rd r ;; ret (RVal z).
Definition p_connected (id : nat) (a b : rarg) : R (out Z) := r <- bound a ;; q <- bound b ;; t <- rf_connected id r q ;; ret (RBool t).
Definition p_connect (id : nat) (a b : rarg) : R (out Z) := r <- bound a ;; q <- bound b ;; rf_connect id r q ;;; ret RUnit.

Definition p_step (o : rop) : R (out Z) :=
  match o with
  | PInt x n => set_int x (Z.of_nat n) ;;; ret RUnit
  | PDo (DFind id x) => p_find id (ALit x)
  | PDo (DConnected id x y) => p_connected id (ALit x) (ALit y)
  | PDo (DConnect id x y) => p_connect id (ALit x) (ALit y)
  | PDo o => on_sets (wrun true (ds_step o))
  | PRead k => r <- bound (ARef k) ;; z <- rd r ;; ret (RVal z)
  | PFind id a => p_find id a
  | PBind k id a => r <- bound a ;; r <- rf_find_top id r ;; set_ref k (kept r) ;;; ret RUnit
  | PConnected id a b => p_connected id a b
  | PConnect id a b => p_connect id a b
  | PUnion id a b => r <- bound a ;; q <- bound b ;; rf_union id r q ;;; ret RUnit
  end.
End Model.
