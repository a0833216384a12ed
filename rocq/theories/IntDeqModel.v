(** Random access into deques with machine integers: int has 32 bits and its overflow
    is undefined.  DequeModel.v and DequeIterModel.v compute with unbounded numbers.
    Not modelled: the int loops over the map table (core/ds/queue/DoubleEndedQueue.hpp
    376, 386), which overflow if there are more than INT_MAX blocks. *)
From Verif Require Import Base VectorModel ListModel DequeModel DequeIterModel ArithModel.

Section Ints.
Context {A : Type} (N : nat) (eqb : A -> A -> bool).
Notation D := (M (dst A)).
Notation J := (M (jworld A)).

(** -n: core/ds/queue/DoubleEndedQueue.hpp 128, 137; INT_MIN has no negation. *)
Definition int_neg (n : Z) : D Z := if (n =? INT_MIN)%Z then ub else ret (- n)%Z.
(** while (n--) { step }: 131, 140; for an n that is not negative, as both callers
    ensure.  [fuel] bounds the loop. *)
Fixpoint int_steps (fuel : nat) (step : diter -> D diter) (n : Z) (i : diter) : D diter :=
  match fuel with
  | O => diverge
  | S f => if (n =? 0)%Z then ret i else i <- step i ;; int_steps f step (n - 1)%Z i
  end.
(** The loops of operator+ (130-132) and operator- (139-141). *)
Definition int_fwd (i : diter) (n : Z) : D diter := int_steps (S (Z.to_nat n)) (it_next N) n i.
Definition int_bwd (i : diter) (n : Z) : D diter := int_steps (S (Z.to_nat n)) (it_prev N) n i.
(** operator+(int): 126-133; operator-(int): 135-142.  They call each other for a
    negative n, with an n that is positive then. *)
Definition int_plus (i : diter) (n : Z) : D diter :=
  if (n <? 0)%Z then m <- int_neg n ;; int_bwd i m else int_fwd i n.
Definition int_minus (i : diter) (n : Z) : D diter :=
  if (n <? 0)%Z then m <- int_neg n ;; int_fwd i m else int_bwd i n.
(** operator[](int): 232-236; &operator[] as in DequeIterModel.v. *)
Definition int_elem (id : nat) (n : Z) : D diter :=
  q <- q_get id ;; if (n <? 0)%Z then int_plus (q_end q) n else int_plus (q_beg q) n.
Definition int_at (id : nat) (n : Z) : D A := i <- int_elem id n ;; cell_ld (i_cur i).
Definition int_ref (id : nat) (n : Z) : D diter := i <- int_elem id n ;; ret (It 0 (i_cur i) None).

(** One step of a client, as in DequeIterModel.v. *)
Definition int_step (o : jop A) : J (out A) :=
  match o with
  | JDeq (DAt id n) => a <- on_deqs (int_at id n) ;; ret (RVal a)
  | JRef k id n => i <- on_deqs (int_ref id n) ;; set_var k i ;;; ret RUnit
  | JPlus k j n => i <- get_var j ;; i <- on_deqs (int_plus i n) ;; set_var k i ;;; ret RUnit
  | JMinus k j n => i <- get_var j ;; i <- on_deqs (int_minus i n) ;; set_var k i ;;; ret RUnit
  | _ => j_step N eqb o
  end.
End Ints.
