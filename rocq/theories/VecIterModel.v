(** Model of the vector iterators and references that clients keep in variables:
    Vector.hpp 86-91 and 122-127 (operator[]), 142-156 (begin and end),
    core/Iterator.hpp 16-19 and 36-71, spec/DStructSpec.hpp (operator*, ==, !=), and
    algorithm::find and algorithm::for_each (core/algorithm.hpp 18-33) over them. *)
From Verif Require Import Base VectorModel.

(** mPointer_d: an offset from the start of a block, or nullptr.  A reference is the
    address of the object it is bound to. *)
Definition ptr : Type := (option nat * nat)%type.

(** The vectors of VectorModel.v and named variables. *)
Definition vworld (A : Type) : Type := (world A * gmap nat ptr)%type.

(** What a client can do: any call on a vector, and operations on variables.
    [YRef k id z] is [T &k = id[z]]; [YPlus k j z] is [k = j + z], [YMinus k j z] is
    [k = j - z], [YPostNext k j] is [k = j++], [YPostPrev k j] is [k = j--];
    [YWrite k a] is [*k = a]; [YPush id k] is [id.push_back( *k)];
    [YDist k j] is [distance(k, j)]; [YFind k b e a] is [k = find(b, e, a)];
    [YEach b e cb] is [for_each(b, e, x -> x = cb(x))] and answers with the elements
    the callback is called with. *)
Inductive yop (A : Type) :=
| YVec (o : vop A) | YCap (id : nat)
| YBegin (k id : nat) | YEnd (k id : nat) | YRef (k id : nat) (z : Z) | YCopy (k j : nat)
| YNext (k : nat) | YPrev (k : nat) | YPostNext (k j : nat) | YPostPrev (k j : nat)
| YPlus (k j : nat) (z : Z) | YMinus (k j : nat) (z : Z)
| YRead (k : nat) | YWrite (k : nat) (a : A) | YPush (id k : nat)
| YEq (k j : nat) | YNe (k j : nat) | YDist (k j : nat)
| YFind (k b e : nat) (a : A) | YEach (b e : nat) (cb : A -> A).
Arguments YVec {A} o.
Arguments YCap {A} id.
Arguments YBegin {A} k id.
Arguments YEnd {A} k id.
Arguments YRef {A} k id z.
Arguments YCopy {A} k j.
Arguments YNext {A} k.
Arguments YPrev {A} k.
Arguments YPostNext {A} k j.
Arguments YPostPrev {A} k j.
Arguments YPlus {A} k j z.
Arguments YMinus {A} k j z.
Arguments YRead {A} k.
Arguments YWrite {A} k a.
Arguments YPush {A} id k.
Arguments YEq {A} k j.
Arguments YNe {A} k j.
Arguments YDist {A} k j.
Arguments YFind {A} k b e a.
Arguments YEach {A} b e cb.

(** Answers: those of vectors, and signed distances. *)
Inductive yout (A : Type) := YOut (r : out A) | YInt (z : Z).
Arguments YOut {A} r.
Arguments YInt {A} z.

Section Model.
Context {A : Type} (triv : bool) (eqb : A -> A -> bool).
Notation D := (M (mem A)).
Notation Y := (M (vworld A)).

(** A computation on the vectors alone. *)
Definition on_vecs {X} (m : M (world A) X) : Y X := fun w =>
  match m (fst w) with
  | Ok (x, s) => Ok (x, (s, snd w))
  | Abort => Abort | UB => UB | Diverge => Diverge
  end.
(** Reading and setting a variable. *)
Definition var (k : nat) : Y ptr := fun w =>
  match snd w !! k with Some p => Ok (p, w) | None => UB end.
Definition set_var (k : nat) (p : ptr) : Y unit := fun w => Ok (tt, (fst w, <[k := p]> (snd w))).

(** begin(): Vector.hpp 142-148; end(): 150-156. *)
Definition v_begin (v : vec) : ptr := (v_ptr v, 0).
Definition v_end (v : vec) : ptr := (v_ptr v, v_size v).
(** &operator[](index): Vector.hpp 86-91, 122-127. *)
Definition v_ref (v : vec) (index : Z) : D ptr :=
  i <- v_index v index ;; if (i <? 0)%Z then ub else ret (v_ptr v, Z.to_nat i).

(** Adding to mPointer_d: Iterator.hpp 52-60.  As in C++, a pointer stays within its
    block or one past its end, and only a pointer into an outstanding block can be
    computed with; nullptr + 0 is nullptr.  The int does not overflow. *)
Definition p_add (p : ptr) (z : Z) : D ptr := fun m =>
  match fst p with
  | None => if (z =? 0)%Z then Ok (p, m) else UB
  | Some b =>
      match m_blocks m !! b with
      | Some cs =>
          let j := (Z.of_nat (snd p) + z)%Z in
          if (0 <=? j)%Z && (j <=? Z.of_nat (length cs))%Z then Ok ((Some b, Z.to_nat j), m) else UB
      | None => UB
      end
  end.
(** last - first: Iterator.hpp 66-71; both point into the same outstanding block. *)
Definition p_diff (last first : ptr) : D Z := fun m =>
  match fst last, fst first with
  | None, None => Ok (0%Z, m)
  | Some b, Some b' =>
      if Nat.eqb b b' then
        match m_blocks m !! b with
        | Some _ => Ok ((Z.of_nat (snd last) - Z.of_nat (snd first))%Z, m)
        | None => UB
        end
      else UB
  | _, _ => UB
  end.
(** operator==: comparing mPointer_d.  Simplification: pointers into different blocks
    are not compared (C++ leaves it open whether an end compares equal to the start
    of another block). *)
Definition p_eq (p q : ptr) : D bool := d <- p_diff p q ;; ret (d =? 0)%Z.

(** A bound for the loops below: the number of steps within a block. *)
Definition p_fuel (p : ptr) : D nat := fun m =>
  match fst p with
  | Some b => match m_blocks m !! b with Some cs => Ok (S (length cs), m) | None => Ok (1, m) end
  | None => Ok (1, m)
  end.
(** algorithm::find: core/algorithm.hpp 25-33. *)
Fixpoint p_find (fuel : nat) (a : A) (it e : ptr) : D ptr :=
  stop <- p_eq it e ;;
  if (stop : bool) then ret e else
  match fuel with
  | O => diverge
  | S f =>
      x <- load (fst it) (snd it) ;;
      if eqb x a then ret it else it <- p_add it 1 ;; p_find f a it e
  end.
(** algorithm::for_each: core/algorithm.hpp 18-23. *)
Fixpoint p_each (fuel : nat) (cb : A -> A) (it e : ptr) : D (list A) :=
  stop <- p_eq it e ;;
  if (stop : bool) then ret [] else
  match fuel with
  | O => diverge
  | S f =>
      x <- load (fst it) (snd it) ;;
      store (fst it) (snd it) (cb x) ;;;
      it <- p_add it 1 ;; xs <- p_each f cb it e ;; ret (x :: xs)
  end.

Definition on_mem {X} (m : D X) : Y X := on_vecs (lift m).

Definition y_step (o : yop A) : Y (yout A) :=
  match o with
  | YVec o => r <- on_vecs (v_step triv o) ;; ret (YOut r)
  | YCap id => v <- on_vecs (obj id) ;; ret (YOut (RNat (v_cap v)))
  | YBegin k id => v <- on_vecs (obj id) ;; set_var k (v_begin v) ;;; ret (YOut RUnit)
  | YEnd k id => v <- on_vecs (obj id) ;; set_var k (v_end v) ;;; ret (YOut RUnit)
  | YRef k id z => v <- on_vecs (obj id) ;; p <- on_mem (v_ref v z) ;; set_var k p ;;; ret (YOut RUnit)
  | YCopy k j => p <- var j ;; set_var k p ;;; ret (YOut RUnit)
  | YNext k => p <- var k ;; q <- on_mem (p_add p 1) ;; set_var k q ;;; ret (YOut RUnit)
  | YPrev k => p <- var k ;; q <- on_mem (p_add p (-1)) ;; set_var k q ;;; ret (YOut RUnit)
  | YPostNext k j =>
      p <- var j ;; q <- on_mem (p_add p 1) ;; set_var j q ;;; set_var k p ;;; ret (YOut RUnit)
  | YPostPrev k j =>
      p <- var j ;; q <- on_mem (p_add p (-1)) ;; set_var j q ;;; set_var k p ;;; ret (YOut RUnit)
  | YPlus k j z => p <- var j ;; q <- on_mem (p_add p z) ;; set_var k q ;;; ret (YOut RUnit)
  | YMinus k j z => p <- var j ;; q <- on_mem (p_add p (- z)) ;; set_var k q ;;; ret (YOut RUnit)
  | YRead k => p <- var k ;; a <- on_mem (load (fst p) (snd p)) ;; ret (YOut (RVal a))
  | YWrite k a => p <- var k ;; on_mem (store (fst p) (snd p) a) ;;; ret (YOut RUnit)
  | YPush id k =>
      v <- on_vecs (obj id) ;; p <- var k ;;
      on_mem (load (fst p) (snd p)) ;;;
      v' <- on_mem (v_push_back triv (ARef (fst p) (snd p)) v) ;;
      on_vecs (set_obj id v') ;;; ret (YOut RUnit)
  | YEq k j => p <- var k ;; q <- var j ;; b <- on_mem (p_eq p q) ;; ret (YOut (RBool b))
  | YNe k j => p <- var k ;; q <- var j ;; b <- on_mem (p_eq p q) ;; ret (YOut (RBool (negb b)))
  | YDist k j => p <- var k ;; q <- var j ;; d <- on_mem (p_diff q p) ;; ret (YInt d)
  | YFind k b e a =>
      p <- var b ;; q <- var e ;; n <- on_mem (p_fuel p) ;; r <- on_mem (p_find n a p q) ;;
      set_var k r ;;; ret (YOut RUnit)
  | YEach b e cb =>
      p <- var b ;; q <- var e ;; n <- on_mem (p_fuel p) ;; l <- on_mem (p_each n cb p q) ;;
      ret (YOut (RList l))
  end.

Definition y_init : vworld A := (world_init, ∅).
End Model.
