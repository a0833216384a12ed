(** Model of core/ds/array/Vector.hpp over an explicit block heap. *)
From Verif Require Import Base.

Section Vector.
Context {A : Type}.
(** Whether the element type's destructor is trivial (int, pointers, ...).
    [destroy] on storage holding no object is harmless only in that case. *)
Context (triv : bool).

(** A cell of storage: [None] is raw storage, [Some a] holds a live object. *)
Notation cell := (option A).

(** The allocator's view of memory.  [m_blocks] maps every outstanding block to
    its cells; freed blocks are absent.  [m_leaked] counts objects whose storage
    was reused or returned without running their destructor.  [m_ctor] counts
    constructor calls (the cost measure). *)
Record mem := Mem {
  m_blocks : gmap nat (list cell);
  m_next   : nat;
  m_leaked : nat;
  m_ctor   : nat
}.

Definition mem_init : mem := Mem ∅ 0 0 0.

Definition set_blocks (m : mem) (bs : gmap nat (list cell)) : mem :=
  Mem bs (m_next m) (m_leaked m) (m_ctor m).

Definition is_live (c : cell) : bool := match c with Some _ => true | None => false end.
Definition live_count (cs : list cell) : nat := length (filter (fun c => is_live c = true) cs).

(** AllocSpec<T,Alloc>::allocate(n): spec/DStructSpec.hpp 47-49 with
    port/libc/libc-dstruct-port.hpp 25-27.  Simplification: the request never
    fails and the byte count n*sizeof(T) does not overflow int (that arithmetic
    is modelled in ArithModel.v, and vectors over it in VecBytesModel.v). *)
Definition alloc (n : nat) : M mem nat := fun m =>
  Ok (m_next m,
      Mem (<[m_next m := replicate n None]> (m_blocks m)) (S (m_next m)) (m_leaked m) (m_ctor m)).

(** AllocSpec<T,Alloc>::deallocate(ptr, n): spec/DStructSpec.hpp 51-53.
    A block that is not outstanding, or a count different from the allocated
    one, is UB (the static allocator would be corrupted by it). *)
Definition dealloc (b : nat) (n : nat) : M mem unit := fun m =>
  match m_blocks m !! b with
  | Some cs =>
      if Nat.eqb (length cs) n
      then Ok (tt, Mem (delete b (m_blocks m)) (m_next m) (m_leaked m + live_count cs) (m_ctor m))
      else UB
  | None => UB
  end.

(** Reading the object at [b + i] (lvalue-to-rvalue on T). *)
Definition load (b : option nat) (i : nat) : M mem A := fun m =>
  match b with
  | None => UB
  | Some b =>
      match m_blocks m !! b with
      | Some cs => match cs !! i with Some (Some a) => Ok (a, m) | _ => UB end
      | None => UB
      end
  end.

(** T::operator= on the object at [b + i]; the object must be alive. *)
Definition store (b : option nat) (i : nat) (a : A) : M mem unit := fun m =>
  match b with
  | None => UB
  | Some b =>
      match m_blocks m !! b with
      | Some cs =>
          match cs !! i with
          | Some (Some _) => Ok (tt, set_blocks m (<[b := <[i := Some a]> cs]> (m_blocks m)))
          | _ => UB
          end
      | None => UB
      end
  end.

(** dstruct::construct(addr, obj): core/common.hpp 53-58 (and 70-75 for int).
    A null address triggers DSTRUCT_CRASH. *)
Definition construct (b : option nat) (i : nat) (a : A) : M mem unit := fun m =>
  match b with
  | None => if Nat.eqb i 0 then Abort else UB
  | Some b =>
      match m_blocks m !! b with
      | Some cs =>
          match cs !! i with
          | Some c =>
              Ok (tt, Mem (<[b := <[i := Some a]> cs]> (m_blocks m)) (m_next m)
                          (m_leaked m + (if is_live c then 1 else 0)) (S (m_ctor m)))
          | None => UB
          end
      | None => UB
      end
  end.

(** dstruct::destroy(addr): core/common.hpp 77-87. *)
Definition destroy (b : option nat) (i : nat) : M mem unit := fun m =>
  match b with
  | None => if Nat.eqb i 0 then Abort else UB
  | Some b =>
      match m_blocks m !! b with
      | Some cs =>
          match cs !! i with
          | Some (Some _) => Ok (tt, set_blocks m (<[b := <[i := None]> cs]> (m_blocks m)))
          | Some None => if triv then Ok (tt, m) else UB
          | None => UB
          end
      | None => UB
      end
  end.

(** A [const T &] argument: a value living elsewhere, or a reference to storage
    in the block heap (e.g. an element of this very vector). *)
Inductive arg := AVal (a : A) | ARef (b : option nat) (i : nat).
Definition read_arg (x : arg) : M mem A :=
  match x with AVal a => ret a | ARef b i => load b i end.

(** Data members: Vector.hpp 212-214. *)
Record vec := Vec { v_size : nat; v_cap : nat; v_ptr : option nat }.

(** Vector(): Vector.hpp 23. *)
Definition v_empty : vec := Vec 0 0 None.

(** resize(size_t n): Vector.hpp 159-181. *)
Definition v_resize (n : nat) (v : vec) : M mem vec :=
  newp <- (if Nat.eqb n 0 then ret None else (b <- alloc n ;; ret (Some b))) ;;
  (match v_ptr v with
   | Some oldb =>
       dassert (negb (Nat.eqb (v_cap v) 0)) ;;;
       for_range 0 (v_size v) (fun i =>
         (if Nat.ltb i n then (a <- load (Some oldb) i ;; construct newp i a) else ret tt) ;;;
         destroy (Some oldb) i) ;;;
       dealloc oldb (v_cap v)
   | None => ret tt
   end) ;;;
  ret (Vec (if Nat.ltb n (v_size v) then n else v_size v) n newp).

(** resize(size_t n, const T &element): Vector.hpp 183-210. *)
Definition v_resize_fill (n : nat) (x : arg) (v : vec) : M mem vec :=
  if Nat.eqb n 0 then v_resize 0 v
  else
    newb <- alloc n ;;
    (match v_ptr v with
     | Some oldb =>
         for_range 0 (v_size v) (fun i =>
           (if Nat.ltb i n then (a <- load (Some oldb) i ;; construct (Some newb) i a) else ret tt) ;;;
           destroy (Some oldb) i) ;;;
         dealloc oldb (v_cap v)
     | None => ret tt
     end) ;;;
    for_range (v_size v) (n - v_size v) (fun i => a <- read_arg x ;; construct (Some newb) i a) ;;;
    ret (Vec n n (Some newb)).

(** clear(): Vector.hpp 129-139; also ~Vector(): 59-61. *)
Definition v_clear (v : vec) : M mem vec :=
  (match v_ptr v with
   | Some b =>
       for_range 0 (v_size v) (fun i => destroy (Some b) i) ;;;
       dealloc b (v_cap v)
   | None => ret tt
   end) ;;;
  ret v_empty.

(** Vector(n, element): Vector.hpp 25-32. *)
Definition v_fill (n : nat) (x : arg) : M mem vec :=
  dassert (negb (Nat.eqb n 0)) ;;;
  v <- v_resize n v_empty ;;
  for_range 0 n (fun i => a <- read_arg x ;; construct (v_ptr v) i a) ;;;
  ret (Vec n n (v_ptr v)).

(** Copy assignment body: Vector.hpp 34-43 ([this != &ds], core/common.hpp 34-40). *)
Definition v_copy_assign (this ds : vec) : M mem vec :=
  v0 <- v_clear this ;;
  v1 <- v_resize (v_cap ds) v0 ;;
  for_range 0 (v_size ds) (fun i =>
    destroy (v_ptr v1) i ;;;
    a <- load (v_ptr ds) i ;;
    construct (v_ptr v1) i a) ;;;
  ret (Vec (v_size ds) (v_cap v1) (v_ptr v1)).

(** Copy constructor: delegates to Vector() then assigns (core/common.hpp 35). *)
Definition v_copy_new (ds : vec) : M mem vec := v_copy_assign v_empty ds.

(** Move assignment body: Vector.hpp 45-57; returns (this, ds). *)
Definition v_move_assign (this ds : vec) : M mem (vec * vec) :=
  v_clear this ;;;
  ret (Vec (v_size ds) (v_cap ds) (v_ptr ds), v_empty).

(** push_back: Vector.hpp 98-107 (push: 94-96). *)
Definition v_push_back (x : arg) (v : vec) : M mem vec :=
  v1 <- (if Nat.ltb (v_cap v) (v_size v + 1)
         then (if negb (Nat.eqb (v_size v) 0) then v_resize (2 * v_size v) v else v_resize 2 v)
         else ret v) ;;
  a <- read_arg x ;;
  construct (v_ptr v1) (v_size v1) a ;;;
  ret (Vec (v_size v1 + 1) (v_cap v1) (v_ptr v1)).

(** pop_back: Vector.hpp 113-120 (pop: 109-111). *)
Definition v_pop_back (v : vec) : M mem vec :=
  dassert (Nat.ltb 0 (v_size v)) ;;;
  let s := v_size v - 1 in
  destroy (v_ptr v) s ;;;
  let v1 := Vec s (v_cap v) (v_ptr v) in
  if Nat.ltb s (v_cap v / 3) then v_resize (v_cap v / 2) v1 else ret v1.

(** The element designated by operator[](int index): Vector.hpp 86-91, 122-127.
    The conversions between int and size_t are exact for size < 2^31 (IntModel.v). *)
Definition v_index (v : vec) (index : Z) : M mem Z :=
  let index := if (index <? 0)%Z then (Z.of_nat (v_size v) + index)%Z else index in
  dassert (index <? Z.of_nat (v_size v))%Z ;;;
  ret index.

(** Dereferencing [mC_d + index] for an index that may be negative. *)
Definition load_z (b : option nat) (i : Z) : M mem A :=
  if (i <? 0)%Z then ub else load b (Z.to_nat i).
Definition store_z (b : option nat) (i : Z) (a : A) : M mem unit :=
  if (i <? 0)%Z then ub else store b (Z.to_nat i) a.

(** v[index] read / v[index] = a. *)
Definition v_get (v : vec) (index : Z) : M mem A :=
  i <- v_index v index ;; load_z (v_ptr v) i.
Definition v_set (v : vec) (index : Z) (a : A) : M mem unit :=
  i <- v_index v index ;; store_z (v_ptr v) i a.

(** back(): Vector.hpp 77-80; front(): 82-84 (no assertion). *)
Definition v_back (v : vec) : M mem A :=
  dassert (Nat.ltb 0 (v_size v)) ;;; load (v_ptr v) (v_size v - 1).
Definition v_front (v : vec) : M mem A := load (v_ptr v) 0.

(** Range-for over [begin(), end()): Vector.hpp 141-156, core/Iterator.hpp 36-62.
    The iterators are the raw pointers mC_d + 0 .. mC_d + mSize_d; [it != end]
    compares them, [it++] advances by one element.  [fuel] bounds the loop. *)
Fixpoint v_iter_from (fuel : nat) (b : option nat) (cur last : nat) : M mem (list A) :=
  match fuel with
  | O => diverge
  | S fuel =>
      if Nat.eqb cur last then ret []
      else a <- load b cur ;; l <- v_iter_from fuel b (S cur) last ;; ret (a :: l)
  end.
Definition v_iter (v : vec) : M mem (list A) :=
  v_iter_from (S (v_size v)) (v_ptr v) 0 (v_size v).

(** algorithm::for_each(begin, end, cb) with a callback that may update the
    element through its reference: core/algorithm.hpp 18-23. *)
Fixpoint v_for_each_from (fuel : nat) (cb : A -> A) (b : option nat) (cur last : nat) : M mem unit :=
  match fuel with
  | O => diverge
  | S fuel =>
      if Nat.eqb cur last then ret tt
      else a <- load b cur ;; store b cur (cb a) ;;; v_for_each_from fuel cb b (S cur) last
  end.
Definition v_for_each (cb : A -> A) (v : vec) : M mem unit :=
  v_for_each_from (S (v_size v)) cb (v_ptr v) 0 (v_size v).

(** algorithm::find(begin, end, obj): core/algorithm.hpp 25-33.  Returns the
    offset of the result iterator ([v_size] is end()). *)
Fixpoint v_find_from (fuel : nat) (eqb : A -> A -> bool) (obj : A) (b : option nat) (cur last : nat) : M mem nat :=
  match fuel with
  | O => diverge
  | S fuel =>
      if Nat.eqb cur last then ret last
      else a <- load b cur ;;
           if eqb a obj then ret cur else v_find_from fuel eqb obj b (S cur) last
  end.
Definition v_find (eqb : A -> A -> bool) (obj : A) (v : vec) : M mem nat :=
  v_find_from (S (v_size v)) eqb obj (v_ptr v) 0 (v_size v).

(** ** Many vectors: a program's vector objects sharing one heap. *)
Record world := World { w_mem : mem; w_objs : gmap nat vec }.
Definition world_init : world := World mem_init ∅.

Inductive vop :=
| ONew (id : nat)                       (* Vector() *)
| OFill (id n : nat) (a : A)            (* Vector(n, a) *)
| OCopyNew (id src : nat)               (* Vector(const Vector &) *)
| OMoveNew (id src : nat)               (* Vector(Vector &&) *)
| OAssign (id src : nat)                (* operator=(const Vector &) *)
| OMoveAssign (id src : nat)            (* operator=(Vector &&) *)
| OPush (id : nat) (a : A)
| OPop (id : nat)
| OSet (id : nat) (i : Z) (a : A)
| OResize (id n : nat)
| OResizeFill (id n : nat) (a : A)
| OClear (id : nat)
| ODestroy (id : nat)                   (* ~Vector() *)
| OGet (id : nat) (i : Z)
| OBack (id : nat)
| OFront (id : nat)
| OSize (id : nat)
| OEmpty (id : nat)
| OIter (id : nat).

Inductive out := RUnit | RVal (a : A) | RNat (n : nat) | RBool (b : bool) | RList (l : list A).

Definition lift {X} (m : M mem X) : M world X := fun w =>
  match m (w_mem w) with
  | Ok (x, m') => Ok (x, World m' (w_objs w))
  | Abort => Abort | UB => UB | Diverge => Diverge
  end.
(** Using an object whose lifetime has not begun or has ended is UB, and so is
    constructing an object on top of a live one. *)
Definition obj (id : nat) : M world vec := fun w =>
  match w_objs w !! id with Some v => Ok (v, w) | None => UB end.
Definition absent (id : nat) : M world unit := fun w =>
  match w_objs w !! id with Some _ => UB | None => Ok (tt, w) end.
Definition set_obj (id : nat) (v : vec) : M world unit := fun w =>
  Ok (tt, World (w_mem w) (<[id := v]> (w_objs w))).
Definition del_obj (id : nat) : M world unit := fun w =>
  Ok (tt, World (w_mem w) (delete id (w_objs w))).

Definition v_step (o : vop) : M world out :=
  match o with
  | ONew id => absent id ;;; set_obj id v_empty ;;; ret RUnit
  | OFill id n a => absent id ;;; v <- lift (v_fill n (AVal a)) ;; set_obj id v ;;; ret RUnit
  | OCopyNew id src =>
      absent id ;;; ds <- obj src ;; v <- lift (v_copy_new ds) ;; set_obj id v ;;; ret RUnit
  | OMoveNew id src =>
      absent id ;;; ds <- obj src ;;
      r <- lift (v_move_assign v_empty ds) ;; set_obj id (fst r) ;;; set_obj src (snd r) ;;; ret RUnit
  | OAssign id src =>
      this <- obj id ;; ds <- obj src ;;
      if Nat.eqb id src then ret RUnit
      else v <- lift (v_copy_assign this ds) ;; set_obj id v ;;; ret RUnit
  | OMoveAssign id src =>
      this <- obj id ;; ds <- obj src ;;
      if Nat.eqb id src then ret RUnit
      else r <- lift (v_move_assign this ds) ;; set_obj id (fst r) ;;; set_obj src (snd r) ;;; ret RUnit
  | OPush id a => v <- obj id ;; v' <- lift (v_push_back (AVal a) v) ;; set_obj id v' ;;; ret RUnit
  | OPop id => v <- obj id ;; v' <- lift (v_pop_back v) ;; set_obj id v' ;;; ret RUnit
  | OSet id i a => v <- obj id ;; lift (v_set v i a) ;;; ret RUnit
  | OResize id n => v <- obj id ;; v' <- lift (v_resize n v) ;; set_obj id v' ;;; ret RUnit
  | OResizeFill id n a =>
      v <- obj id ;; v' <- lift (v_resize_fill n (AVal a) v) ;; set_obj id v' ;;; ret RUnit
  | OClear id => v <- obj id ;; v' <- lift (v_clear v) ;; set_obj id v' ;;; ret RUnit
  | ODestroy id => v <- obj id ;; lift (v_clear v) ;;; del_obj id ;;; ret RUnit
  | OGet id i => v <- obj id ;; a <- lift (v_get v i) ;; ret (RVal a)
  | OBack id => v <- obj id ;; a <- lift (v_back v) ;; ret (RVal a)
  | OFront id => v <- obj id ;; a <- lift (v_front v) ;; ret (RVal a)
  | OSize id => v <- obj id ;; ret (RNat (v_size v))
  | OEmpty id => v <- obj id ;; ret (RBool (Nat.eqb (v_size v) 0))
  | OIter id => v <- obj id ;; l <- lift (v_iter v) ;; ret (RList l)
  end.

Fixpoint v_run (ops : list vop) : M world (list out) :=
  match ops with
  | [] => ret []
  | o :: ops => r <- v_step o ;; rs <- v_run ops ;; ret (r :: rs)
  end.

End Vector.

Arguments mem : clear implicits.
Arguments arg : clear implicits.
Arguments world : clear implicits.
Arguments vop : clear implicits.
Arguments out : clear implicits.
