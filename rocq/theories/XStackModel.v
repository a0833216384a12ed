(** Model of XValueStack (core/ds/stack/XValueStack.hpp) with all its members, over
    any stack (its parameter StackType, 21) and for any number of objects.  The
    XValueStack [id] is the stack mStack_d (80) with the same id and the value of
    mXValue_d (78).  mCmp_d (79), which copies and moves carry along, is the same for
    all objects. *)
From Verif Require Import Base Alloc VectorModel VecProg ListModel DequeModel Hist StackModel StackOtherModel.

Inductive eop (A : Type) :=
| ENew (id : nat) (g : A) | ECopyNew (id src : nat) | EMoveNew (id src : nat) | EAssign (id src : nat) | EMoveAssign (id src : nat) | EDestroy (id : nat)
| EPush (id : nat) (a : A) | EPop (id : nat) | ETop (id : nat) | EExt (id : nat) | EEmpty (id : nat) | EClear (id : nat) | EIter (id : nat).
Arguments ENew {A} id g.
Arguments ECopyNew {A} id src.
Arguments EMoveNew {A} id src.
Arguments EAssign {A} id src.
Arguments EMoveAssign {A} id src.
Arguments EDestroy {A} id.
Arguments EPush {A} id a.
Arguments EPop {A} id.
Arguments ETop {A} id.
Arguments EExt {A} id.
Arguments EEmpty {A} id.
Arguments EClear {A} id.
Arguments EIter {A} id.

Section Model.
(** [kstep] are the calls of the stacks, [cmp] is mCmp_d, [eqb] the elements' ==, and
    [mvd] what moving leaves of an element. *)
Context {A S : Type} (kstep : kop A -> M S (out A)) (cmp eqb : A -> A -> bool) (mvd : A -> A).
Notation eworld := (S * gmap nat A)%type.
Definition stk (o : kop A) : M eworld (out A) := fun w =>
  match kstep o (fst w) with Ok (r, s) => Ok (r, (s, snd w)) | Abort => Abort | UB => UB | Diverge => Diverge end.
Definition stk_val (o : kop A) : M eworld A := r <- stk o ;; match r with RVal a => ret a | _ => ub end.
Definition stk_bool (o : kop A) : M eworld bool := r <- stk o ;; match r with RBool b => ret b | _ => ub end.
(** mXValue_d: XValueStack.hpp 78. *)
Definition get_x (id : nat) : M eworld A := fun w => match snd w !! id with Some x => Ok (x, w) | None => UB end.
Definition put_x (id : nat) (x : A) : M eworld unit := fun w => Ok (tt, (fst w, <[id := x]> (snd w))).
Definition end_x (id : nat) : M eworld unit := fun w => Ok (tt, (fst w, delete id (snd w))).

(** Copy and move assignment: common.hpp 36-40, 44-47 and XValueStack.hpp 30-35, 37-42. *)
Definition e_assign (id src : nat) : M eworld unit :=
  get_x id ;;; x <- get_x src ;;
  if Nat.eqb id src then ret tt else put_x id x ;;; stk (KAssign id src) ;;; ret tt.
Definition e_move (id src : nat) : M eworld unit :=
  get_x id ;;; x <- get_x src ;;
  if Nat.eqb id src then ret tt else put_x id x ;;; put_x src (mvd x) ;;; stk (KMoveAssign id src) ;;; ret tt.
(** XValueStack(): XValueStack.hpp 27; mXValue_d is default-initialised, which for a type like int is
    no value at all: [g] stands for whatever it is.  Copy and move construction
    construct this way and assign (common.hpp 35, 43); the assignment overwrites
    mXValue_d, so there any value will do, and the model takes the other object's. *)
Definition e_new (id : nat) (g : A) : M eworld unit := stk (KNew id) ;;; put_x id g.
(** push: XValueStack.hpp 53-59. *)
Definition e_push (id : nat) (val : A) : M eworld unit :=
  e <- stk_bool (KEmpty id) ;; x <- get_x id ;;
  (if e || cmp val x then stk (KPush id x) ;;; put_x id val else ret tt) ;;;
  stk (KPush id val) ;;; ret tt.
(** pop: XValueStack.hpp 61-67. *)
Definition e_pop (id : nat) : M eworld unit :=
  data <- stk_val (KTop id) ;; stk (KPop id) ;;; x <- get_x id ;;
  if eqb x data then x' <- stk_val (KTop id) ;; put_x id x' ;;; stk (KPop id) ;;; ret tt else ret tt.
(** XValueStack.hpp, empty: 47; top: 49; getXValue: 51; clear: 69-71; begin/end: 74-75; ~XValueStack: 44. *)
Definition e_step (o : eop A) : M eworld (out A) :=
  match o with
  | ENew id g => e_new id g ;;; ret RUnit
  | ECopyNew id src => x <- get_x src ;; e_new id x ;;; e_assign id src ;;; ret RUnit
  | EMoveNew id src => x <- get_x src ;; e_new id x ;;; e_move id src ;;; ret RUnit
  | EAssign id src => e_assign id src ;;; ret RUnit
  | EMoveAssign id src => e_move id src ;;; ret RUnit
  | EDestroy id => stk (KDestroy id) ;;; end_x id ;;; ret RUnit
  | EPush id a => e_push id a ;;; ret RUnit
  | EPop id => e_pop id ;;; ret RUnit
  | ETop id => stk (KTop id)
  | EExt id => x <- get_x id ;; ret (RVal x)
  | EEmpty id => stk (KEmpty id)
  | EClear id => stk (KClear id)
  | EIter id => stk (KIter id)
  end.
End Model.

(** The stacks over each container (Stack.hpp 20; dstruct.hpp 90-92 use Vector):
    Vector, a deque with blocks of [N] elements, or a linked list whose nodes an
    allocator [pol] places; [triv] and [junk] as in the models of these. *)
Inductive cont (A : Type) := CVector (triv : bool) | CDeque (N : nat) | CDList (junk : A) (pol : policy) | CSList (junk : A) (pol : policy).
Arguments CVector {A} triv.
Arguments CDeque {A} N.
Arguments CDList {A} junk pol.
Arguments CSList {A} junk pol.
Definition cstate {A} (c : cont A) : Type := match c with CVector _ => world A | CDeque _ => dst A | _ => lst A end.
Definition cinit {A} (c : cont A) : cstate c :=
  match c with CVector _ => world_init | CDeque _ => dst_init | CDList _ pol => lst_init pol | CSList _ pol => lst_init pol end.
Definition cstep {A} (c : cont A) : kop A -> M (cstate c) (out A) :=
  match c with
  | CVector triv => fun o => wrun triv (st_step o) | CDeque N => kd_step N
  | CDList junk _ => kl_step (dl_step junk) | CSList junk _ => kl_step (sl_step junk)
  end.
(** XValueStacks over container [c], running from the start. *)
Definition xrun {A} (c : cont A) (cmp eqb : A -> A -> bool) (mvd : A -> A) (ops : list (eop A)) : res (list (out A) * (cstate c * gmap nat A)) :=
  mrun (e_step (cstep c) cmp eqb mvd) ops (cinit c, ∅).
