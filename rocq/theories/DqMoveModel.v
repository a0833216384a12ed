(** Model of deque iterators that are moved from: DoubleEndedQueue.hpp 20-154 with
    the base class spec/DStructSpec.hpp 62-113.

    DequeIterModel.v lets mCurr_d stand for mPointer_d as well.  A moved-from iterator
    loses mCurr_d, its block number and its table but keeps mPointer_d (DoubleEndedQueue.hpp 60-74), so here
    mPointer_d is kept apart. *)
From Verif Require Import Base VectorModel ListModel DequeModel DequeIterModel.

(** mCurrMapIndex_d, mCurr_d and mArrMapTablePtr_d (DoubleEndedQueue.hpp 151-153), and mPointer_d
    (spec/DStructSpec.hpp 112). *)
Record dvar := DV { v_it : diter; v_dat : curp }.
(** Deques and iterator variables. *)
Definition dmworld (A : Type) : Type := (dst A * gmap nat dvar)%type.

(** What a client can do: as before ([jop]), and [k = move(j)] (iterators, not
    references, are moved). *)
Inductive dmop (A : Type) := DMOp (o : jop A) | DMMove (k j : nat).
Arguments DMOp {A} o.
Arguments DMMove {A} k j.

Section Model.
Context {A : Type} (N : nat) (eqb : A -> A -> bool).
Notation D := (M (dst A)).
Notation W := (M (dmworld A)).

(** A computation on the deques alone. *)
Definition on_dqs {X} (m : D X) : W X := fun w =>
  match m (fst w) with
  | Ok (x, s) => Ok (x, (s, snd w))
  | Abort => Abort | UB => UB | Diverge => Diverge
  end.
(** Reading and setting the members of an iterator variable. *)
Definition get_dv (k : nat) : W dvar := fun w =>
  match snd w !! k with Some v => Ok (v, w) | None => UB end.
Definition set_dv (k : nat) (v : dvar) : W unit := fun w => Ok (tt, (fst w, <[k := v]> (snd w))).
(** _sync: DoubleEndedQueue.hpp 146-148. *)
Definition synced (i : diter) : dvar := DV i (i_cur i).
(** The members an iterator has after its reset in DoubleEndedQueue.hpp 67-69. *)
Definition no_it : diter := It 0 PNull None.

(** operator=(&&): DoubleEndedQueue.hpp 60-74.  The members of the source are reset before _sync, so an
    iterator moved to itself is reset; mPointer_d of another source is not. *)
Definition dv_move (k j : nat) : W unit :=
  v <- get_dv j ;; i <- on_dqs (it_copy (v_it v)) ;; d <- get_dv k ;; set_dv k (DV i (v_dat d)) ;;;
  s <- get_dv j ;; set_dv j (DV no_it (v_dat s)) ;;;
  d <- get_dv k ;; set_dv k (synced (v_it d)).
(** The move constructor, used when [k] is new: DoubleEndedQueue.hpp 59; mPointer_d of the new iterator
    is nothing yet. *)
Definition dv_move_new (k j : nat) : W unit := set_dv k (DV (It 0 PUninit None) PUninit) ;;; dv_move k j.

(** algorithm::find: core/algorithm.hpp 25-33; the loop compares mPointer_d, and
    returns a copy of end (DoubleEndedQueue.hpp 47-57) or of the iterator it is at. *)
Fixpoint mfind_loop (fuel : nat) (a : A) (it : diter) (e : dvar) : D diter :=
  if eqp (i_cur it) (v_dat e) then it_copy (v_it e) else
  match fuel with
  | O => diverge
  | S f => x <- cell_ld (i_cur it) ;; if eqb x a then ret it else it <- it_next N it ;; mfind_loop f a it e
  end.
Definition mit_find (b e : dvar) (a : A) : D diter := n <- loop_fuel (v_it b) ;; it <- it_copy (v_it b) ;; mfind_loop n a it e.
(** algorithm::for_each: core/algorithm.hpp 18-23, the same way. *)
Fixpoint mit_loop (fuel : nat) (it : diter) (e : dvar) (acc : list A) : D (list A) :=
  if eqp (i_cur it) (v_dat e) then ret acc else
  match fuel with
  | O => diverge
  | S f => a <- cell_ld (i_cur it) ;; it <- it_next N it ;; mit_loop f it e (acc ++ [a])
  end.
Definition mit_each (b e : dvar) : D (list A) := n <- loop_fuel (v_it b) ;; it <- it_copy (v_it b) ;; mit_loop n it e [].

(** One step; as [j_step] in DequeIterModel.v, where what is dereferenced and compared
    is mPointer_d (spec/DStructSpec.hpp 91-94), and all else is done on the other
    members and ends with _sync.  [k = move(j)] makes [k] if there is none. *)
Definition dm_step (o : dmop A) : W (out A) :=
  match o with
  | DMOp (JDeq o) => on_dqs (dq_step N o)
  | DMOp (JBegin k id) => q <- on_dqs (q_get id) ;; i <- on_dqs (it_copy (q_beg q)) ;; set_dv k (synced i) ;;; ret RUnit
  | DMOp (JEnd k id) => q <- on_dqs (q_get id) ;; i <- on_dqs (it_copy (q_end q)) ;; set_dv k (synced i) ;;; ret RUnit
  | DMOp (JRef k id z) => i <- on_dqs (dq_ref N id z) ;; set_dv k (synced i) ;;; ret RUnit
  | DMOp (JCopy k j) => v <- get_dv j ;; i <- on_dqs (it_copy (v_it v)) ;; set_dv k (synced i) ;;; ret RUnit
  | DMOp (JNext k) => v <- get_dv k ;; i <- on_dqs (it_next N (v_it v)) ;; set_dv k (synced i) ;;; ret RUnit
  | DMOp (JPrev k) => v <- get_dv k ;; i <- on_dqs (it_prev N (v_it v)) ;; set_dv k (synced i) ;;; ret RUnit
  | DMOp (JPostNext k j) => v <- get_dv j ;; i <- on_dqs (it_next N (v_it v)) ;; set_dv j (synced i) ;;; set_dv k (synced (v_it v)) ;;; ret RUnit
  | DMOp (JPostPrev k j) => v <- get_dv j ;; i <- on_dqs (it_prev N (v_it v)) ;; set_dv j (synced i) ;;; set_dv k (synced (v_it v)) ;;; ret RUnit
  | DMOp (JPlus k j z) => v <- get_dv j ;; i <- on_dqs (it_plus N (v_it v) z) ;; set_dv k (synced i) ;;; ret RUnit
  | DMOp (JMinus k j z) => v <- get_dv j ;; i <- on_dqs (it_minus N (v_it v) z) ;; set_dv k (synced i) ;;; ret RUnit
  | DMOp (JRead k) => v <- get_dv k ;; a <- on_dqs (cell_ld (v_dat v)) ;; ret (RVal a)
  | DMOp (JEq k j) => v <- get_dv k ;; v' <- get_dv j ;; p <- on_dqs (rd (v_dat v)) ;; p' <- on_dqs (rd (v_dat v')) ;; ret (RBool (eqp p p'))
  | DMOp (JNe k j) => v <- get_dv k ;; v' <- get_dv j ;; p <- on_dqs (rd (v_dat v)) ;; p' <- on_dqs (rd (v_dat v')) ;; ret (RBool (negb (eqp p p')))
  | DMOp (JFind k b e a) => v <- get_dv b ;; v' <- get_dv e ;; i <- on_dqs (mit_find v v' a) ;; set_dv k (synced i) ;;; ret RUnit
  | DMOp (JEach b e) => v <- get_dv b ;; v' <- get_dv e ;; l <- on_dqs (mit_each v v') ;; ret (RList l)
  | DMMove k j => fun w => (match snd w !! k with Some _ => dv_move k j | None => dv_move_new k j end ;;; ret RUnit) w
  end.
Definition dmworld0 : dmworld A := (dst_init, ∅).
End Model.
