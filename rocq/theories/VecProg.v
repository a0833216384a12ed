(** Client programs over any number of Vectors, used only through their public
    operations.  The adapters of the library (Stack, Heap, DisjointSet,
    BasicString, ...) are such programs. *)
From Verif Require Import Base VectorModel VectorSpec.

(** The operations of [vop] plus capacity() and push_back of a reference to an
    element of some vector (possibly the same one). *)
Inductive wop (A : Type) :=
| WOp (o : vop A)
| WCap (id : nat)                       (* capacity(): Vector.hpp 72-74 *)
| WPushElem (id src : nat) (i : Z).     (* id.push_back(src[i]) *)
Arguments WOp {A} o.
Arguments WCap {A} id.
Arguments WPushElem {A} id src i.

(** Executing one operation on the vectors of VectorModel.v.  For
    [WPushElem] the reference is [mC_d + index] of [src] (Vector.hpp 122-127)
    and it is read by push_back after a possible reallocation (98-107). *)
Definition w_step {A} (triv : bool) (o : wop A) : M (world A) (out A) :=
  match o with
  | WOp o => v_step triv o
  | WCap id => v <- obj id ;; ret (RNat (v_cap v))
  | WPushElem id src i =>
      v <- obj id ;; u <- obj src ;;
      j <- lift (v_index u i) ;;
      if (j <? 0)%Z then ub
      else v' <- lift (v_push_back triv (ARef (v_ptr u) (Z.to_nat j)) v) ;; set_obj id v' ;;; ret RUnit
  end.

(** A program calls operations and continues with their results. *)
Inductive wprog (A X : Type) : Type :=
| WRet (x : X)
| WAbort                                  (* the client's own DSTRUCT_ASSERT fired *)
| WUB                                     (* the client itself did something undefined *)
| WDiverge                                (* the client's loop ran out of fuel *)
| WDo (o : wop A) (k : out A -> wprog A X).
Arguments WRet {A X} x.
Arguments WAbort {A X}.
Arguments WUB {A X}.
Arguments WDiverge {A X}.
Arguments WDo {A X} o k.

Fixpoint wbind {A X Y} (p : wprog A X) (f : X -> wprog A Y) : wprog A Y :=
  match p with
  | WRet x => f x
  | WAbort => WAbort
  | WUB => WUB
  | WDiverge => WDiverge
  | WDo o k => WDo o (fun r => wbind (k r) f)
  end.

(** Running a program against the real vectors. *)
Fixpoint wrun {A X} (triv : bool) (p : wprog A X) : M (world A) X :=
  match p with
  | WRet x => ret x
  | WAbort => abort
  | WUB => ub
  | WDiverge => diverge
  | WDo o k => r <- w_step triv o ;; wrun triv (k r)
  end.

(** ** What programs should see: sequences with a capacity number *)
Record lvec (A : Type) := LVec { l_seq : list A; l_cap : nat }.
Arguments LVec {A} _ _.
Arguments l_seq {A} _.
Arguments l_cap {A} _.
Notation lworld A := (gmap nat (lvec A)).

(** The capacity after push_back / pop_back, from the documented growth policy:
    double when full (2 from empty), halve when less than a third is used. *)
Definition cap_push (size cap : nat) : nat :=
  if Nat.eqb size cap then Nat.max 2 (2 * size) else cap.
Definition cap_pop (newsize cap : nat) : nat :=
  if Nat.ltb newsize (cap / 3) then cap / 2 else cap.

Section LSpec.
Context {A : Type} (triv : bool).

Definition lwith {X} (s : lworld A) (id : nat) (k : lvec A -> res X) : res X :=
  match s !! id with Some l => k l | None => UB end.
Definition lnew {X} (s : lworld A) (id : nat) (r : res X) : res X :=
  match s !! id with Some _ => UB | None => r end.
Definition at_index {X} (l : list A) (i : Z) (k : nat -> res X) : res X :=
  match py_index (length l) i with
  | Some j => k j
  | None => if (Z.of_nat (length l) <=? i)%Z then Abort else UB
  end.

Definition lv_step (o : vop A) (s : lworld A) : res (out A * lworld A) :=
  match o with
  | ONew id => lnew s id (Ok (RUnit, <[id := LVec [] 0]> s))
  | OFill id n a =>
      lnew s id (if Nat.eqb n 0 then Abort else Ok (RUnit, <[id := LVec (repeat a n) n]> s))
  | OCopyNew id src => lnew s id (lwith s src (fun l =>
      if copyable triv (l_seq l) then Ok (RUnit, <[id := l]> s) else UB))
  | OMoveNew id src => lnew s id (lwith s src (fun l =>
      Ok (RUnit, <[src := LVec [] 0]> (<[id := l]> s))))
  | OAssign id src => lwith s id (fun _ => lwith s src (fun l =>
      if Nat.eqb id src then Ok (RUnit, s)
      else if copyable triv (l_seq l) then Ok (RUnit, <[id := l]> s) else UB))
  | OMoveAssign id src => lwith s id (fun _ => lwith s src (fun l =>
      if Nat.eqb id src then Ok (RUnit, s) else Ok (RUnit, <[src := LVec [] 0]> (<[id := l]> s))))
  | OPush id a => lwith s id (fun l =>
      Ok (RUnit, <[id := LVec (l_seq l ++ [a]) (cap_push (length (l_seq l)) (l_cap l))]> s))
  | OPop id => lwith s id (fun l =>
      match l_seq l with
      | [] => Abort
      | _ => Ok (RUnit, <[id := LVec (removelast (l_seq l)) (cap_pop (length (l_seq l) - 1) (l_cap l))]> s)
      end)
  | OSet id i a => lwith s id (fun l => at_index (l_seq l) i (fun k =>
      Ok (RUnit, <[id := LVec (<[k := a]> (l_seq l)) (l_cap l)]> s)))
  | OResize id n => lwith s id (fun l => Ok (RUnit, <[id := LVec (firstn n (l_seq l)) n]> s))
  | OResizeFill id n a => lwith s id (fun l =>
      Ok (RUnit, <[id := LVec (firstn n (l_seq l) ++ repeat a (n - length (l_seq l))) n]> s))
  | OClear id => lwith s id (fun _ => Ok (RUnit, <[id := LVec [] 0]> s))
  | ODestroy id => lwith s id (fun _ => Ok (RUnit, delete id s))
  | OGet id i => lwith s id (fun l => at_index (l_seq l) i (fun k =>
      match nth_error (l_seq l) k with Some a => Ok (RVal a, s) | None => UB end))
  | OBack id => lwith s id (fun l =>
      match nth_error (l_seq l) (length (l_seq l) - 1) with Some a => Ok (RVal a, s) | None => Abort end)
  | OFront id => lwith s id (fun l =>
      match l_seq l with a :: _ => Ok (RVal a, s) | [] => UB end)
  | OSize id => lwith s id (fun l => Ok (RNat (length (l_seq l)), s))
  | OEmpty id => lwith s id (fun l => Ok (RBool (match l_seq l with [] => true | _ => false end), s))
  | OIter id => lwith s id (fun l => Ok (RList (l_seq l), s))
  end.

Definition lw_step (o : wop A) (s : lworld A) : res (out A * lworld A) :=
  match o with
  | WOp o => lv_step o s
  | WCap id => lwith s id (fun l => Ok (RNat (l_cap l), s))
  | WPushElem id src i => lwith s id (fun l => lwith s src (fun u => at_index (l_seq u) i (fun k =>
      match nth_error (l_seq u) k with
      | Some a =>
          (* pushing an own element dangles as soon as the push reallocates *)
          if Nat.eqb id src && Nat.eqb (length (l_seq l)) (l_cap l) then UB
          else Ok (RUnit, <[id := LVec (l_seq l ++ [a]) (cap_push (length (l_seq l)) (l_cap l))]> s)
      | None => UB
      end)))
  end.

(** Running a program against sequences. *)
Fixpoint lrun {X} (p : wprog A X) (s : lworld A) : res (X * lworld A) :=
  match p with
  | WRet x => Ok (x, s)
  | WAbort => Abort
  | WUB => UB
  | WDiverge => Diverge
  | WDo o k =>
      match lw_step o s with
      | Ok (r, s') => lrun (k r) s'
      | Abort => Abort
      | UB => UB
      | Diverge => Diverge
      end
  end.
End LSpec.

Declare Scope wprog_scope.
Delimit Scope wprog_scope with wprog.
Notation "x <- m ;; k" := (wbind m (fun x => k))
  (at level 100, m at next level, right associativity) : wprog_scope.
Notation "m ;;; k" := (wbind m (fun _ => k))
  (at level 100, right associativity) : wprog_scope.

(** The single operations as programs with typed results. *)
Section Ops.
Context {A : Type}.
Definition wunit (o : vop A) : wprog A unit := WDo (WOp o) (fun _ => WRet tt).
Definition wval (o : vop A) : wprog A A :=
  WDo (WOp o) (fun r => match r with RVal a => WRet a | _ => WUB end).
Definition wsize (id : nat) : wprog A nat :=
  WDo (WOp (OSize id)) (fun r => match r with RNat n => WRet n | _ => WUB end).
Definition wempty (id : nat) : wprog A bool :=
  WDo (WOp (OEmpty id)) (fun r => match r with RBool b => WRet b | _ => WUB end).
Definition witer (id : nat) : wprog A (list A) :=
  WDo (WOp (OIter id)) (fun r => match r with RList l => WRet l | _ => WUB end).
Definition wcap (id : nat) : wprog A nat :=
  WDo (WCap id) (fun r => match r with RNat n => WRet n | _ => WUB end).
Definition wpush_elem (id src : nat) (i : Z) : wprog A unit :=
  WDo (WPushElem id src i) (fun _ => WRet tt).
Definition wget (id : nat) (i : Z) : wprog A A := wval (OGet id i).
Definition wset (id : nat) (i : Z) (a : A) : wprog A unit := wunit (OSet id i a).
Definition wassert (b : bool) : wprog A unit := if b then WRet tt else WAbort.
End Ops.

(** The observable state of all vectors: contents (by iteration) and capacity. *)
Definition view {A} (w : world A) : lworld A :=
  map_imap (fun id v => match contents w id with Some l => Some (LVec l (v_cap v)) | None => None end) (w_objs w).

(** Nothing leaked; the outstanding blocks are exactly the blocks of the live
    vectors, one each, of exactly their capacity, with exactly their elements alive. *)
Definition storage_ok {A} (w : world A) : Prop :=
  m_leaked (w_mem w) = 0 /\
  (forall id v b, w_objs w !! id = Some v -> v_ptr v = Some b ->
     exists cs, m_blocks (w_mem w) !! b = Some cs /\ length cs = v_cap v /\ live_count cs = v_size v) /\
  (forall b, is_Some (m_blocks (w_mem w) !! b) ->
     exists id v, w_objs w !! id = Some v /\ v_ptr v = Some b) /\
  (forall i j vi vj b, w_objs w !! i = Some vi -> w_objs w !! j = Some vj ->
     v_ptr vi = Some b -> v_ptr vj = Some b -> i = j) /\
  (w_objs w = ∅ -> m_blocks (w_mem w) = ∅).
