(** Model of the deque iterators as clients see them: DoubleEndedQueue.hpp 20-154
    (the class), 294-302 (begin and end), of references to elements (232-236), and of
    algorithm::find and algorithm::for_each (core/algorithm.hpp 18-33) over them. *)
From Verif Require Import Base VectorModel ListModel DequeModel.

(** The deques of DequeModel.v and named iterator variables.  mPointer_d always equals
    mCurr_d's pointer (_sync, 146-148), so [i_cur] stands for both; moving an iterator
    from another (60-74) is in DqMoveModel.v. *)
Definition jworld (A : Type) : Type := (dst A * gmap nat diter)%type.

(** What a client can do: any call on a deque, and iterator operations.
    [JRef k id z] is [const T &k = id[z]]; [JPlus k j z] is [k = j + z], [JMinus k j z]
    is [k = j - z], [JPostNext k j] is [k = j++], [JPostPrev k j] is [k = j--];
    [JFind k b e a] is [k = find(b, e, a)]; [JEach b e] is [for_each(b, e, cb)]
    and answers with the elements cb is called with. *)
Inductive jop (A : Type) :=
| JDeq (o : dop A)
| JBegin (k id : nat) | JEnd (k id : nat) | JRef (k id : nat) (z : Z) | JCopy (k j : nat)
| JNext (k : nat) | JPrev (k : nat) | JPostNext (k j : nat) | JPostPrev (k j : nat)
| JPlus (k j : nat) (z : Z) | JMinus (k j : nat) (z : Z)
| JRead (k : nat) | JEq (k j : nat) | JNe (k j : nat)
| JFind (k b e : nat) (a : A) | JEach (b e : nat).
Arguments JDeq {A} o.
Arguments JBegin {A} k id.
Arguments JEnd {A} k id.
Arguments JRef {A} k id z.
Arguments JCopy {A} k j.
Arguments JNext {A} k.
Arguments JPrev {A} k.
Arguments JPostNext {A} k j.
Arguments JPostPrev {A} k j.
Arguments JPlus {A} k j z.
Arguments JMinus {A} k j z.
Arguments JRead {A} k.
Arguments JEq {A} k j.
Arguments JNe {A} k j.
Arguments JFind {A} k b e a.
Arguments JEach {A} b e.

Section Model.
Context {A : Type} (N : nat) (eqb : A -> A -> bool).
Notation D := (M (dst A)).
Notation J := (M (jworld A)).

(** A computation on the deques alone. *)
Definition on_deqs {X} (m : D X) : J X := fun w =>
  match m (fst w) with
  | Ok (x, s) => Ok (x, (s, snd w))
  | Abort => Abort | UB => UB | Diverge => Diverge
  end.
(** Reading and setting an iterator variable. *)
Definition get_var (k : nat) : J diter := fun w =>
  match snd w !! k with Some i => Ok (i, w) | None => UB end.
Definition set_var (k : nat) (i : diter) : J unit := fun w => Ok (tt, (fst w, <[k := i]> (snd w))).

(** operator+(int): 126-133; operator-(int): 135-142; the int does not overflow. *)
Definition it_plus (i : diter) (z : Z) : D diter :=
  if (z <? 0)%Z then it_sub N (Z.to_nat (- z)) i else it_add N (Z.to_nat z) i.
Definition it_minus (i : diter) (z : Z) : D diter :=
  if (z <? 0)%Z then it_add N (Z.to_nat (- z)) i else it_sub N (Z.to_nat z) i.

(** &operator[](index): 232-236; a reference is an iterator that is only read and
    compared. *)
Definition dq_ref (id : nat) (z : Z) : D diter :=
  q <- q_get id ;; i <- (if (z <? 0)%Z then it_plus (q_end q) z else it_plus (q_beg q) z) ;; ret (It 0 (i_cur i) None).

(** A bound for the loops below: no iterator can be advanced more often than its
    deque has cells. *)
Definition loop_fuel (i : diter) : D nat :=
  match i_tab i with Some id => q <- q_get id ;; ret (S (q_cap q)) | None => ret 1 end.
(** algorithm::find: core/algorithm.hpp 25-33. *)
Fixpoint find_loop (fuel : nat) (a : A) (it e : diter) : D diter :=
  if eqp (i_cur it) (i_cur e) then it_copy e else
  match fuel with
  | O => diverge
  | S f => x <- cell_ld (i_cur it) ;; if eqb x a then ret it else it <- it_next N it ;; find_loop f a it e
  end.
Definition it_find (b e : diter) (a : A) : D diter := n <- loop_fuel b ;; it <- it_copy b ;; find_loop n a it e.
(** algorithm::for_each: core/algorithm.hpp 18-23; the callback does not touch the
    deques.  [it_loop] is the loop of range_for in DequeModel.v. *)
Definition it_each (b e : diter) : D (list A) :=
  n <- loop_fuel b ;; it <- it_copy b ;; it_loop N n (fun acc a => ret (acc ++ [a])) it e [].

(** One step.  operator* is spec/DStructSpec.hpp 91, operator!= and operator== are 93-94. *)
Definition j_step (o : jop A) : J (out A) :=
  match o with
  | JDeq o => on_deqs (dq_step N o)
  | JBegin k id => q <- on_deqs (q_get id) ;; i <- on_deqs (it_copy (q_beg q)) ;; set_var k i ;;; ret RUnit
  | JEnd k id => q <- on_deqs (q_get id) ;; i <- on_deqs (it_copy (q_end q)) ;; set_var k i ;;; ret RUnit
  | JRef k id z => i <- on_deqs (dq_ref id z) ;; set_var k i ;;; ret RUnit
  | JCopy k j => i <- get_var j ;; i <- on_deqs (it_copy i) ;; set_var k i ;;; ret RUnit
  | JNext k => i <- get_var k ;; i <- on_deqs (it_next N i) ;; set_var k i ;;; ret RUnit
  | JPrev k => i <- get_var k ;; i <- on_deqs (it_prev N i) ;; set_var k i ;;; ret RUnit
  | JPostNext k j => i <- get_var j ;; i' <- on_deqs (it_next N i) ;; set_var j i' ;;; set_var k i ;;; ret RUnit
  | JPostPrev k j => i <- get_var j ;; i' <- on_deqs (it_prev N i) ;; set_var j i' ;;; set_var k i ;;; ret RUnit
  | JPlus k j z => i <- get_var j ;; i <- on_deqs (it_plus i z) ;; set_var k i ;;; ret RUnit
  | JMinus k j z => i <- get_var j ;; i <- on_deqs (it_minus i z) ;; set_var k i ;;; ret RUnit
  | JRead k => i <- get_var k ;; a <- on_deqs (cell_ld (i_cur i)) ;; ret (RVal a)
  | JEq k j => i <- get_var k ;; i' <- get_var j ;; p <- on_deqs (rd (i_cur i)) ;; p' <- on_deqs (rd (i_cur i')) ;; ret (RBool (eqp p p'))
  | JNe k j => i <- get_var k ;; i' <- get_var j ;; p <- on_deqs (rd (i_cur i)) ;; p' <- on_deqs (rd (i_cur i')) ;; ret (RBool (negb (eqp p p')))
  | JFind k b e a => i <- get_var b ;; i' <- get_var e ;; i'' <- on_deqs (it_find i i' a) ;; set_var k i'' ;;; ret RUnit
  | JEach b e => i <- get_var b ;; i' <- get_var e ;; l <- on_deqs (it_each i i') ;; ret (RList l)
  end.
Definition jworld0 : jworld A := (dst_init, ∅).
End Model.
