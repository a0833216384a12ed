(** What deque iterators should do, following the rules of std::deque.  A valid
    iterator is at an index of its deque's sequence, the length being the end.  Pushes
    keep iterators at elements at their element, but these can from then on only be
    read, compared and copied ([dp_mov] is false); pops invalidate the iterators to
    what they remove. *)
From Verif Require Import Base VectorModel VectorSpec ListModel DequeModel DequeSpec DequeIterModel.

Record dplace := DP { dp_id : nat; dp_ix : nat; dp_mov : bool }.

Section Spec.
Context {A : Type} (eqb : A -> A -> bool).
Notation sw := (gmap nat (list A * bool)).
Record jspec := JSpec { j_dqs : sw; j_its : gmap nat dplace }.
Definition jspec0 : jspec := JSpec ∅ ∅.

Definition len_of (s : sw) (id : nat) : nat := match s !! id with Some (l, _) => length l | None => 0 end.
(** Where an iterator is after a call; None: the call invalidates it. *)
Definition after (o : dop A) (s : sw) (p : dplace) : option dplace :=
  let own id r := if Nat.eqb (dp_id p) id then r else Some p in
  let n := dp_ix p in
  match o with
  | DPushBack id _ | DPush id _ => own id (if n <? len_of s id then Some (DP id n false) else None)
  | DPushFront id _ => own id (if n <? len_of s id then Some (DP id (S n) false) else None)
  | DPopBack id => own id (if S n <? len_of s id then Some p else None)
  | DPopFront id | DPop id => own id (match n with O => None | S n => Some (DP id n (dp_mov p)) end)
  | DNew id | DCopyNew id _ | DClear id | DDestroy id => own id None
  | DMoveNew id src => own id (own src None)
  | DAssign id src => if Nat.eqb id src then Some p else own id None
  | DMoveAssign id src => if Nat.eqb id src then Some p else own id (own src None)
  | DFront _ | DBack _ | DAt _ _ | DSize _ | DEmpty _ | DCapacity _ | DIter _ => Some p
  end.

Definition set_pl (s : jspec) (k : nat) (p : dplace) : jspec := JSpec (j_dqs s) (<[k := p]> (j_its s)).
Definition goto (s : jspec) (k : nat) (p : dplace) : sres (out A * jspec) := SVal (RUnit, set_pl s k p).
(** A valid iterator and its deque's sequence. *)
Definition with_pl {X} (s : jspec) (k : nat) (f : dplace -> list A -> sres X) : sres X :=
  match j_its s !! k with
  | Some p => match j_dqs s !! dp_id p with Some (l, _) => f p l | None => SUnspec end
  | None => SUnspec
  end.
(** The place [z] further on, if there is one. *)
Definition shifted (p : dplace) (l : list A) (z : Z) : option dplace :=
  let m := (Z.of_nat (dp_ix p) + z)%Z in
  if dp_mov p && (0 <=? m)%Z && (m <=? Z.of_nat (length l))%Z then Some (DP (dp_id p) (Z.to_nat m) true) else None.
Definition move_by (s : jspec) (k j : nat) (z : Z) : sres (out A * jspec) :=
  with_pl s j (fun p l => some_or (shifted p l z) (fun p' => goto s k p')).
Definition post_by (s : jspec) (k j : nat) (z : Z) : sres (out A * jspec) :=
  with_pl s j (fun p l => some_or (shifted p l z) (fun p' => goto (set_pl s j p') k p)).
(** Two iterators into the same deque. *)
Definition same_dq (s : jspec) (k j : nat) (f : bool -> sres (out A * jspec)) : sres (out A * jspec) :=
  with_pl s k (fun p _ => with_pl s j (fun p' _ => if Nat.eqb (dp_id p) (dp_id p') then f (Nat.eqb (dp_ix p) (dp_ix p')) else SUnspec)).
(** The elements between two iterators into the same deque, the first of them movable. *)
Definition between (s : jspec) (b e : nat) (f : dplace -> dplace -> list A -> sres (out A * jspec)) : sres (out A * jspec) :=
  with_pl s b (fun p l => with_pl s e (fun p' _ =>
    if Nat.eqb (dp_id p) (dp_id p') && dp_mov p && (dp_ix p <=? dp_ix p') then f p p' (take (dp_ix p' - dp_ix p) (drop (dp_ix p) l)) else SUnspec)).
(** The first position at which a sequence has [a]. *)
Fixpoint first_at (a : A) (l : list A) : option nat :=
  match l with [] => None | x :: l => if eqb x a then Some 0 else S <$> first_at a l end.

Definition js_step (o : jop A) (s : jspec) : sres (out A * jspec) :=
  match o with
  | JDeq o => match ds_step o (j_dqs s) with
      | SVal (r, d) => SVal (r, JSpec d (omap (after o (j_dqs s)) (j_its s)))
      | SAbort => SAbort | SUnspec => SUnspec end
  | JBegin k id => with_dq (j_dqs s) id (fun _ r => if r then goto s k (DP id 0 true) else SUnspec)
  | JEnd k id => with_dq (j_dqs s) id (fun l r => if r then goto s k (DP id (length l) true) else SUnspec)
  | JRef k id z => with_dq (j_dqs s) id (fun l _ =>
      let i := (if z <? 0 then Z.of_nat (length l) + z else z)%Z in
      if ((0 <=? i) && (i <? Z.of_nat (length l)))%Z then goto s k (DP id (Z.to_nat i) false) else SUnspec)
  | JCopy k j => with_pl s j (fun p _ => goto s k p)
  | JNext k => move_by s k k 1
  | JPrev k => move_by s k k (-1)
  | JPostNext k j => post_by s k j 1
  | JPostPrev k j => post_by s k j (-1)
  | JPlus k j z => move_by s k j z
  | JMinus k j z => move_by s k j (- z)
  | JRead k => with_pl s k (fun p l => some_or (l !! dp_ix p) (fun a => SVal (RVal a, s)))
  | JEq k j => same_dq s k j (fun b => SVal (RBool b, s))
  | JNe k j => same_dq s k j (fun b => SVal (RBool (negb b), s))
  | JFind k b e a => between s b e (fun p p' l =>
      match first_at a l with Some n => goto s k (DP (dp_id p) (dp_ix p + n) true) | None => goto s k p' end)
  | JEach b e => between s b e (fun _ _ l => SVal (RList l, s))
  end.
End Spec.
Arguments jspec A : clear implicits.
