(** When the ints of Vector are large enough. *)
From Verif Require Import Base VectorModel VecProg ArithModel.
Local Open Scope Z_scope.

(** The calls a program makes, with the state each is made in. *)
Inductive calls {A} (triv : bool) {X} : wprog A X -> world A -> wop A -> world A -> Prop :=
| calls_now o k w : calls triv (WDo o k) w o w
| calls_later o k w r w1 o' w' :
    w_step triv o w = Ok (r, w1) -> calls triv (k r) w1 o' w' -> calls triv (WDo o k) w o' w'.

(** A call is small if no vector has more than INT_MAX elements before it, it does not
    ask for more, and its index is an int. *)
Definition small_call {A} (o : wop A) (w : world A) : Prop :=
  (forall id v, w_objs w !! id = Some v -> Z.of_nat (v_size v) <= INT_MAX) /\
  match o with
  | WOp (OFill _ n _) | WOp (OResizeFill _ n _) => Z.of_nat n <= INT_MAX
  | WOp (OGet _ i) | WOp (OSet _ i _) | WPushElem _ _ i => INT_MIN <= i <= INT_MAX
  | _ => True
  end.

(** The calls whose loops count beyond INT_MAX. *)
Definition overflows {A} (o : vop A) (w : world A) : Prop :=
  let long id := exists v, w_objs w !! id = Some v /\ INT_MAX < Z.of_nat (v_size v) in
  match o with
  | OFill _ n _ => INT_MAX < Z.of_nat n
  | OCopyNew _ src => long src
  | OAssign id src => id <> src /\ (long id \/ long src)
  | OMoveAssign id src => id <> src /\ long id
  | OPush id _ => exists v, w_objs w !! id = Some v /\ INT_MAX < Z.of_nat (v_size v) /\ (v_cap v <= v_size v)%nat
  | OPop id => exists v, w_objs w !! id = Some v /\ INT_MAX < Z.of_nat (v_size v) - 1 /\ (v_size v <= v_cap v / 3)%nat
  | OResize id _ | OClear id | ODestroy id => long id
  | OResizeFill id n _ => long id \/ INT_MAX < Z.of_nat n
  | _ => False
  end.
