(** Model of core/ds/stack/Stack.hpp (over Vector, dstruct.hpp 85) and
    core/ds/stack/XValueStack.hpp, as programs over vectors.  A Stack object is
    the vector mDS_d with the same id. *)
From Verif Require Import Base VectorModel VectorSpec VecProg.
Local Open Scope wprog_scope.

Inductive kop (A : Type) :=
| KNew (id : nat) | KCopyNew (id src : nat) | KMoveNew (id src : nat)
| KAssign (id src : nat) | KMoveAssign (id src : nat) | KDestroy (id : nat)
| KPush (id : nat) (a : A) | KPop (id : nat) | KTop (id : nat)
| KSize (id : nat) | KEmpty (id : nat) | KClear (id : nat) | KIter (id : nat).
Arguments KNew {A}. Arguments KCopyNew {A}. Arguments KMoveNew {A}. Arguments KAssign {A}.
Arguments KMoveAssign {A}. Arguments KDestroy {A}. Arguments KPush {A}. Arguments KPop {A}.
Arguments KTop {A}. Arguments KSize {A}. Arguments KEmpty {A}. Arguments KClear {A}. Arguments KIter {A}.

Section Stack.
Context {A : Type}.

(** push: Stack.hpp 44; pop: 45-48; top: 41; clear: 50-52. *)
Definition st_push (id : nat) (a : A) : wprog A unit := wunit (OPush id a).
Definition st_pop (id : nat) : wprog A unit := data <- wval (OBack id) ;; wunit (OPop id).
Definition st_top (id : nat) : wprog A A := wval (OBack id).
Definition st_clear (id : nat) : wprog A unit := wunit (OClear id).

(** All public operations.  The special members are defaulted (Stack.hpp 27-32):
    they are the vector's.  size/empty: 36-38; iteration: 55-56. *)
Definition st_step (o : kop A) : wprog A (out A) :=
  match o with
  | KNew id => wunit (ONew id) ;;; WRet RUnit
  | KCopyNew id src => wunit (OCopyNew id src) ;;; WRet RUnit
  | KMoveNew id src => wunit (OMoveNew id src) ;;; WRet RUnit
  | KAssign id src => wunit (OAssign id src) ;;; WRet RUnit
  | KMoveAssign id src => wunit (OMoveAssign id src) ;;; WRet RUnit
  | KDestroy id => wunit (ODestroy id) ;;; WRet RUnit
  | KPush id a => st_push id a ;;; WRet RUnit
  | KPop id => st_pop id ;;; WRet RUnit
  | KTop id => a <- st_top id ;; WRet (RVal a)
  | KSize id => n <- wsize id ;; WRet (RNat n)
  | KEmpty id => b <- wempty id ;; WRet (RBool b)
  | KClear id => st_clear id ;;; WRet RUnit
  | KIter id => l <- witer id ;; WRet (RList l)
  end.

(** XValueStack: the stack mStack_d is vector [id]; mXValue_d is threaded
    through explicitly.  [cmp] is mCmp_d, [eqb] the element type's ==. *)
Context (cmp eqb : A -> A -> bool).

(** push: XValueStack.hpp 53-59. *)
Definition xs_push (id : nat) (val xv : A) : wprog A A :=
  e <- wempty id ;;
  xv' <- (if e || cmp val xv then st_push id xv ;;; WRet val else WRet xv) ;;
  st_push id val ;;; WRet xv'.

(** pop: XValueStack.hpp 61-67. *)
Definition xs_pop (id : nat) (xv : A) : wprog A A :=
  data <- st_top id ;; st_pop id ;;;
  if eqb xv data then (xv' <- st_top id ;; st_pop id ;;; WRet xv') else WRet xv.

Inductive xop := XPush (a : A) | XPop | XTop | XExt | XEmpty | XClear.

(** top: 49; getXValue: 51; empty: 47; clear: 69-71 (mXValue_d is left as it is). *)
Definition xs_step (id : nat) (o : xop) (xv : A) : wprog A (out A * A) :=
  match o with
  | XPush a => xv' <- xs_push id a xv ;; WRet (RUnit, xv')
  | XPop => xv' <- xs_pop id xv ;; WRet (RUnit, xv')
  | XTop => a <- st_top id ;; WRet (RVal a, xv)
  | XExt => WRet (RVal xv, xv)
  | XEmpty => b <- wempty id ;; WRet (RBool b, xv)
  | XClear => st_clear id ;;; WRet (RUnit, xv)
  end.

Fixpoint xs_run (id : nat) (ops : list xop) (xv : A) : wprog A (list (out A) * A) :=
  match ops with
  | [] => WRet ([], xv)
  | o :: ops => r <- xs_step id o xv ;; rs <- xs_run id ops (snd r) ;; WRet (fst r :: fst rs, snd rs)
  end.

(** A new stack (XValueStack.hpp 27: default constructor; mXValue_d is left
    default-initialised, i.e. an arbitrary value [g]) and then a history. *)
Definition xs_history (g : A) (ops : list xop) : wprog A (list (out A)) :=
  wunit (ONew 0) ;;; r <- xs_run 0 ops g ;; WRet (fst r).

End Stack.
Arguments XPush {A}. Arguments XPop {A}. Arguments XTop {A}. Arguments XExt {A}.
Arguments XEmpty {A}. Arguments XClear {A}.
