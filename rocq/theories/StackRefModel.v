(** Stack::push (core/ds/stack/Stack.hpp 44) and XValueStack::push
    (core/ds/stack/XValueStack.hpp 53-59) called with a reference to an element of a
    stack, as in s.push( *s.begin()).  The iterators of XValueStack (74-75) are those of
    the stack underneath, so they lead to the saved values, too.  The stacks are over
    Vector, as in dstruct.hpp 85 and 90-92. *)
From Verif Require Import Base VectorModel VecProg Hist StackModel XStackModel.

(** The calls of StackModel.v, and id.push( *(src.begin() + i)). *)
Inductive gop (A : Type) := GDo (o : kop A) | GPushRef (id src i : nat).
Arguments GDo {A} o.
Arguments GPushRef {A} id src i.
(** The calls of XStackModel.v, and id.push( *(src.begin() + i)). *)
Inductive fop (A : Type) := FDo (o : eop A) | FPushRef (id src i : nat).
Arguments FDo {A} o.
Arguments FPushRef {A} id src i.

Section Model.
Context {A : Type} (triv : bool) (cmp eqb : A -> A -> bool) (mvd : A -> A).
Notation eworld := (world A * gmap nat A)%type.
Notation kstep := (fun o => wrun triv (st_step o)).
Definition vecs {X} (m : M (world A) X) : M eworld X := fun w =>
  match m (fst w) with Ok (r, s) => Ok (r, (s, snd w)) | Abort => Abort | UB => UB | Diverge => Diverge end.
(** Stack::push (Stack.hpp 44) hands its argument on to push_back (Vector.hpp 98-107). *)
Definition push_at (id : nat) (x : arg A) : M (world A) unit :=
  v <- obj id ;; v' <- lift (v_push_back triv x v) ;; set_obj id v'.
(** One call to plain stacks.  There must be an element to refer to. *)
Definition g_step (o : gop A) : M (world A) (out A) :=
  match o with
  | GDo o => wrun triv (st_step o)
  | GPushRef id src i => u <- obj src ;; lift (load (v_ptr u) i) ;;; push_at id (ARef (v_ptr u) i) ;;; ret RUnit
  end.
(** push: XValueStack.hpp 53-59.  [val] is the reference: it is read for the comparison
    (54), for mXValue_d = val (56), and by push_back (58). *)
Definition f_push (id : nat) (val : arg A) : M eworld unit :=
  e <- stk_bool kstep (KEmpty id) ;; x <- get_x id ;;
  c <- (if e : bool then ret true else a <- vecs (lift (read_arg val)) ;; ret (cmp a x)) ;;
  (if c : bool then stk kstep (KPush id x) ;;; a <- vecs (lift (read_arg val)) ;; put_x id a else ret tt) ;;;
  vecs (push_at id val).
(** One call to XValueStacks. *)
Definition f_step (o : fop A) : M eworld (out A) :=
  match o with
  | FDo o => e_step kstep cmp eqb mvd o
  | FPushRef id src i =>
      u <- vecs (obj src) ;; vecs (lift (load (v_ptr u) i)) ;;; f_push id (ARef (v_ptr u) i) ;;; ret RUnit
  end.
End Model.
