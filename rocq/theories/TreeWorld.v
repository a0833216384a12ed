(** Programs that use any number of AVLTree (or Map) objects. *)
From Verif Require Import Base Alloc TreeModel.

(** The shared node memory, its allocator and, for every live object, mRootPtr_d and mSize_d
    (BinaryTree.hpp 223-224).  mCmp_d (AVLTree.hpp 174) is the same for all. *)
Record tworld (A : Type) := TW {
  tw_heap : gmap nat (node A); tw_al : alloc; tw_objs : gmap nat (option nat * Z) }.
Arguments TW {A} _ _ _.
Arguments tw_heap {A} _.
Arguments tw_al {A} _.
Arguments tw_objs {A} _.
Definition tw_init {A} (pol : policy) : tworld A := TW ∅ (Alloc pol []) ∅.

(** Calls on objects; Find and Erase dereference the iterator they get when it
    is not end().  CopyNew and Assign are the implicitly declared copy
    constructor and assignment (AVLTree declares none; the destructor declared at
    BinaryTree.hpp 118 suppresses the implicit moves, so moving copies too). *)
Inductive top (A : Type) :=
| TNew (id : nat) | TDestroy (id : nat) | TPush (id : nat) (x : A) | TPop (id : nat) (x : A)
| TFind (id : nat) (x : A) | TErase (id : nat) (x : A)
| TSize (id : nat) | TCapacity (id : nat) | TEmpty (id : nat) | THeight (id : nat) | TIter (id : nat) | TClear (id : nat)
| TTraverse (id : nat) (t : ttype) | TCopyNew (id src : nat) | TAssign (id src : nat).
Arguments TNew {A} id.
Arguments TDestroy {A} id.
Arguments TPush {A} id x.
Arguments TPop {A} id x.
Arguments TFind {A} id x.
Arguments TErase {A} id x.
Arguments TSize {A} id.
Arguments TCapacity {A} id.
Arguments TEmpty {A} id.
Arguments THeight {A} id.
Arguments TIter {A} id.
Arguments TClear {A} id.
Arguments TTraverse {A} id t.
Arguments TCopyNew {A} id src.
Arguments TAssign {A} id src.
(** What a call gives back. *)
Inductive tout (A : Type) := OUnit | OZ (n : Z) | OBool (b : bool) | OOpt (o : option A) | OList (l : list A).
Arguments OUnit {A}.
Arguments OZ {A} n.
Arguments OBool {A} b.
Arguments OOpt {A} o.
Arguments OList {A} l.

Section World.
Context {A : Type} (cmp : A -> A -> bool).
Notation T := (M (tst A)).
Notation W := (M (tworld A)).

(** A method call on a live object; anything else is undefined. *)
Definition on {X} (id : nat) (m : T X) : W X := fun w =>
  match tw_objs w !! id with
  | None => UB
  | Some (r, n) =>
      match m (TSt (tw_heap w) (tw_al w) r n) with
      | Ok (x, s) => Ok (x, TW (t_heap s) (t_al s) (<[id := (t_root s, t_size s)]> (tw_objs w)))
      | Abort => Abort | UB => UB | Diverge => Diverge
      end
  end.
(** Construction, on no live object; AVLTree.hpp 110. *)
Definition tw_new (id : nat) : W unit := fun w =>
  match tw_objs w !! id with
  | Some _ => UB
  | None => on id bt_init (TW (tw_heap w) (tw_al w) (<[id := (None, 0%Z)]> (tw_objs w)))
  end.
(** Destruction: BinaryTree.hpp 118-121. *)
Definition tw_destroy (id : nat) : W unit :=
  on id bt_destroy ;;; fun w => Ok (tt, TW (tw_heap w) (tw_al w) (delete id (tw_objs w))).
(** Memberwise copy construction and assignment. *)
Definition tw_copy_new (id src : nat) : W unit := fun w =>
  match tw_objs w !! id, tw_objs w !! src with
  | None, Some o => Ok (tt, TW (tw_heap w) (tw_al w) (<[id := o]> (tw_objs w)))
  | _, _ => UB
  end.
Definition tw_assign (id src : nat) : W unit := fun w =>
  match tw_objs w !! id, tw_objs w !! src with
  | Some _, Some o => Ok (tt, TW (tw_heap w) (tw_al w) (<[id := o]> (tw_objs w)))
  | _, _ => UB
  end.

(** *it for an iterator that is not end(). *)
Definition deref (p : option nat) : T (option A) := if is_null p then ret None else v <- ld_val p ;; ret (Some v).

Definition t_step (o : top A) : W (tout A) :=
  match o with
  | TNew id => tw_new id ;;; ret OUnit
  | TDestroy id => tw_destroy id ;;; ret OUnit
  | TPush id x => on id (avl_push cmp x) ;;; ret OUnit
  | TPop id x => on id (avl_pop cmp x) ;;; ret OUnit
  | TFind id x => o <- on id (p <- bt_find cmp x ;; deref p) ;; ret (OOpt o)
  | TErase id x => o <- on id (p <- bt_find cmp x ;; q <- avl_erase cmp p ;; deref q) ;; ret (OOpt o)
  | TSize id => n <- on id bt_size ;; ret (OZ n)
  | TCapacity id => n <- on id bt_capacity ;; ret (OZ n)
  | TEmpty id => b <- on id bt_empty ;; ret (OBool b)
  | THeight id => n <- on id avl_height ;; ret (OZ n)
  | TIter id => l <- on id (avl_iterate InOrder) ;; ret (OList l)
  | TClear id => on id bt_clear ;;; ret OUnit
  | TTraverse id t => l <- on id (bt_traversal t) ;; ret (OList l)
  | TCopyNew id src => tw_copy_new id src ;;; ret OUnit
  | TAssign id src => tw_assign id src ;;; ret OUnit
  end.
End World.

(** Map objects: the same over key-value pairs (Map.hpp 148 holds the tree; the
    defaulted copies and moves of 68-71 copy it memberwise). *)
Inductive mop (K V : Type) :=
| MNew (id : nat) | MDestroy (id : nat) | MPush (id : nat) (k : K) (v : V) | MPop (id : nat) (k : K)
| MSet (id : nat) (k : K) (v : V) | MGet (id : nat) (k : K) | MFind (id : nat) (k : K)
| MSize (id : nat) | MEmpty (id : nat) | MIter (id : nat) | MClear (id : nat) | MCopyNew (id src : nat) | MAssign (id src : nat).
Arguments MNew {K V} id.
Arguments MDestroy {K V} id.
Arguments MPush {K V} id k v.
Arguments MPop {K V} id k.
Arguments MSet {K V} id k v.
Arguments MGet {K V} id k.
Arguments MFind {K V} id k.
Arguments MSize {K V} id.
Arguments MEmpty {K V} id.
Arguments MIter {K V} id.
Arguments MClear {K V} id.
Arguments MCopyNew {K V} id src.
Arguments MAssign {K V} id src.

Section MapWorld.
Context {K V : Type} (lt : K -> K -> bool) (dflt : V).
(** What a call gives back. *)
Inductive mout := MUnit | MZ (n : Z) | MBool (b : bool) | MVal (v : V) | MOpt (o : option (K * V)) | MList (l : list (K * V)).
Definition m_step (o : mop K V) : M (tworld (K * V)) mout :=
  match o with
  | MNew id => tw_new id ;;; ret MUnit
  | MDestroy id => tw_destroy id ;;; ret MUnit
  | MPush id k v => on id (map_push lt k v) ;;; ret MUnit
  | MPop id k => on id (map_pop lt dflt k) ;;; ret MUnit
  | MSet id k v => on id (map_set lt dflt k v) ;;; ret MUnit
  | MGet id k => v <- on id (map_get lt dflt k) ;; ret (MVal v)
  | MFind id k => o <- on id (p <- map_find lt dflt k ;; deref p) ;; ret (MOpt o)
  | MSize id => n <- on id bt_size ;; ret (MZ n)
  | MEmpty id => b <- on id bt_empty ;; ret (MBool b)
  | MIter id => l <- on id (avl_iterate InOrder) ;; ret (MList l)
  | MClear id => on id bt_clear ;;; ret MUnit
  | MCopyNew id src => tw_copy_new id src ;;; ret MUnit
  | MAssign id src => tw_assign id src ;;; ret MUnit
  end.
End MapWorld.
Arguments MUnit {K V}.
Arguments MZ {K V} n.
Arguments MBool {K V} b.
Arguments MVal {K V} v.
Arguments MOpt {K V} o.
Arguments MList {K V} l.
