(** Vector.hpp over the static allocator: smemory::Vector (dstruct-static.hpp
    49-59: Vector<T, StaticMemAllocator<..>>), and Vector over the static-memory
    port (port/static-memory/sma-dstruct-port.hpp).  The vectors are those of
    VectorModel.v and VecFailModel.v, the allocator is that of SMAModel.v; here
    the one calls the other. *)
From Verif Require Import Base VectorModel VecProg ArithModel SMAModel.
Local Open Scope nat_scope.

(** Everything: the vectors with their elements; the allocator; where in the
    pool each block of storage lies.  Simplification: the elements are kept in
    the blocks of the vector model; what they look like as bytes in the pool is
    left open by [scribble] below. *)
Record pworld (A : Type) := PW { pw_w : world A; pw_pool : sma; pw_addr : gmap nat Z }.
Arguments PW {A} _ _ _.
Arguments pw_w {A} _.
Arguments pw_pool {A} _.
Arguments pw_addr {A} _.

Section VecPool.
Context {A : Type} (triv : bool).
(** Template parameters of the allocator (StaticMemAllocator.hpp 49); sizeof(T);
    whether the vector calls the allocator through the port. *)
Context (MEM MAX sz : Z) (port : bool).
(** What the program writes into the bytes of its own blocks (as elements), on
    any occasion: word addresses and values. *)
Context (bytes : pworld A -> list (Z * Z)).
Notation P := (M (pworld A)).

Definition onworld {X} (m : M (world A) X) : P X := fun s =>
  match m (pw_w s) with
  | Ok (x, w) => Ok (x, PW w (pw_pool s) (pw_addr s))
  | Abort => Abort | UB => UB | Diverge => Diverge
  end.
Definition onmem {X} (m : M (mem A) X) : P X := onworld (VectorModel.lift m).
Definition onpool {X} (m : M sma X) : P X := fun s =>
  match m (pw_pool s) with
  | Ok (x, st) => Ok (x, PW (pw_w s) st (pw_addr s))
  | Abort => Abort | UB => UB | Diverge => Diverge
  end.

(** Whether the word at [x] begins inside a block of a vector's storage. *)
Definition own_word (s : pworld A) (x : Z) : bool :=
  (x mod 8 =? 0)%Z &&
  existsb (fun p => match pw_addr s !! fst p with
                    | Some a => (a <=? x)%Z && (x <? a + Z.of_nat (length (snd p)) * sz)%Z
                    | None => false end)
    (map_to_list (m_blocks (w_mem (pw_w s)))).
(** The program's writes since the allocator was last called.  The allocator
    sees them at its next call, so performing them then loses nothing. *)
Fixpoint writes (ws : list (Z * Z)) : P unit :=
  match ws with
  | [] => ret tt
  | (x, v) :: ws => (fun s => (if own_word s x then onpool (user_write MEM x v) else ret tt) s) ;;; writes ws
  end.
Definition scribble : P unit := fun s => writes (bytes s) s.

(** AllocSpec<T, Alloc>::allocate(n): spec/DStructSpec.hpp 47-49, Alloc being
    StaticMemAllocator (69-71) or the port (sma-dstruct-port.hpp 30-49). *)
Definition p_alloc (n : nat) : P (option nat) :=
  scribble ;;;
  p <- onpool ((if port then port_allocate MEM MAX else allocate MEM MAX) (spec_bytes (Z.of_nat n) sz)) ;;
  fun s =>
    let m := w_mem (pw_w s) in
    match p with
    | None => Ok (None, PW (World (Mem (m_blocks m) (S (m_next m)) (m_leaked m) (m_ctor m)) (w_objs (pw_w s))) (pw_pool s) (pw_addr s))
    | Some a => Ok (Some (m_next m),
        PW (World (Mem (<[m_next m := replicate n None]> (m_blocks m)) (S (m_next m)) (m_leaked m) (m_ctor m)) (w_objs (pw_w s)))
           (pw_pool s) (<[m_next m := a]> (pw_addr s)))
    end.
(** AllocSpec<T, Alloc>::deallocate(ptr, n): spec/DStructSpec.hpp 51-53; the
    result of StaticMemAllocator::deallocate (73-76) is not looked at, that of
    the port is asserted (sma-dstruct-port.hpp 51-61). *)
Definition p_dealloc (b n : nat) : P unit :=
  scribble ;;;
  (fun s => let k := spec_bytes (Z.of_nat n) sz in
    (if port then onpool (port_deallocate MEM MAX (pw_addr s !! b) k)
     else onpool (deallocate MEM MAX (pw_addr s !! b) k) ;;; ret tt) s) ;;;
  onmem (dealloc b n) ;;;
  fun s => Ok (tt, PW (pw_w s) (pw_pool s) (delete b (pw_addr s))).

(** resize(size_t n): Vector.hpp 159-181. *)
Definition p_resize (n : nat) (v : vec) : P vec :=
  newp <- (if Nat.eqb n 0 then ret None else p_alloc n) ;;
  (match v_ptr v with
   | Some oldb =>
       onmem (dassert (negb (Nat.eqb (v_cap v) 0))) ;;;
       onmem (for_range 0 (v_size v) (fun i =>
         (if Nat.ltb i n then (a <- load (Some oldb) i ;; construct newp i a) else ret tt) ;;;
         destroy triv (Some oldb) i)) ;;;
       p_dealloc oldb (v_cap v)
   | None => ret tt
   end) ;;;
  ret (Vec (if Nat.ltb n (v_size v) then n else v_size v) n newp).

(** resize(size_t n, const T &element): Vector.hpp 183-210. *)
Definition p_resize_fill (n : nat) (x : arg A) (v : vec) : P vec :=
  if Nat.eqb n 0 then p_resize 0 v
  else
    newp <- p_alloc n ;;
    (match v_ptr v with
     | Some oldb =>
         onmem (for_range 0 (v_size v) (fun i =>
           (if Nat.ltb i n then (a <- load (Some oldb) i ;; construct newp i a) else ret tt) ;;;
           destroy triv (Some oldb) i)) ;;;
         p_dealloc oldb (v_cap v)
     | None => ret tt
     end) ;;;
    onmem (for_range (v_size v) (n - v_size v) (fun i => a <- read_arg x ;; construct newp i a)) ;;;
    ret (Vec n n newp).

(** clear(): Vector.hpp 129-139; also ~Vector(): 59-61. *)
Definition p_clear (v : vec) : P vec :=
  (match v_ptr v with
   | Some b => onmem (for_range 0 (v_size v) (fun i => destroy triv (Some b) i)) ;;; p_dealloc b (v_cap v)
   | None => ret tt
   end) ;;;
  ret v_empty.

(** Vector(n, element): Vector.hpp 25-32. *)
Definition p_fill (n : nat) (x : arg A) : P vec :=
  onmem (dassert (negb (Nat.eqb n 0))) ;;;
  v <- p_resize n v_empty ;;
  onmem (for_range 0 n (fun i => a <- read_arg x ;; construct (v_ptr v) i a)) ;;;
  ret (Vec n n (v_ptr v)).

(** Copy assignment body: Vector.hpp 34-43. *)
Definition p_copy_assign (this ds : vec) : P vec :=
  v0 <- p_clear this ;;
  v1 <- p_resize (v_cap ds) v0 ;;
  onmem (for_range 0 (v_size ds) (fun i =>
    destroy triv (v_ptr v1) i ;;;
    a <- load (v_ptr ds) i ;;
    construct (v_ptr v1) i a)) ;;;
  ret (Vec (v_size ds) (v_cap v1) (v_ptr v1)).

(** Move assignment body: Vector.hpp 45-57; returns (this, ds). *)
Definition p_move_assign (this ds : vec) : P (vec * vec) :=
  p_clear this ;;; ret (Vec (v_size ds) (v_cap ds) (v_ptr ds), v_empty).

(** push_back: Vector.hpp 98-107. *)
Definition p_push_back (x : arg A) (v : vec) : P vec :=
  v1 <- (if Nat.ltb (v_cap v) (v_size v + 1)
         then (if negb (Nat.eqb (v_size v) 0) then p_resize (2 * v_size v) v else p_resize 2 v)
         else ret v) ;;
  a <- onmem (read_arg x) ;;
  onmem (construct (v_ptr v1) (v_size v1) a) ;;;
  ret (Vec (v_size v1 + 1) (v_cap v1) (v_ptr v1)).

(** pop_back: Vector.hpp 113-120. *)
Definition p_pop_back (v : vec) : P vec :=
  onmem (dassert (Nat.ltb 0 (v_size v))) ;;;
  let s := (v_size v - 1)%nat in
  onmem (destroy triv (v_ptr v) s) ;;;
  let v1 := Vec s (v_cap v) (v_ptr v) in
  if Nat.ltb s (v_cap v / 3) then p_resize (v_cap v / 2) v1 else ret v1.

Notation obj id := (onworld (obj id)).
Notation absent id := (onworld (absent id)).
Notation set_obj id v := (onworld (set_obj id v)).
Notation del_obj id := (onworld (del_obj id)).

(** One operation (Vector.hpp 23-210): those that allocate or release storage;
    the others do not call the allocator and are those of VectorModel.v. *)
Definition p_step (o : vop A) : P (out A) :=
  match o with
  | OFill id n a => absent id ;;; v <- p_fill n (AVal a) ;; set_obj id v ;;; ret RUnit
  | OCopyNew id src =>
      absent id ;;; ds <- obj src ;; v <- p_copy_assign v_empty ds ;; set_obj id v ;;; ret RUnit
  | OMoveNew id src =>
      absent id ;;; ds <- obj src ;;
      r <- p_move_assign v_empty ds ;; set_obj id (fst r) ;;; set_obj src (snd r) ;;; ret RUnit
  | OAssign id src =>
      this <- obj id ;; ds <- obj src ;;
      if Nat.eqb id src then ret RUnit
      else v <- p_copy_assign this ds ;; set_obj id v ;;; ret RUnit
  | OMoveAssign id src =>
      this <- obj id ;; ds <- obj src ;;
      if Nat.eqb id src then ret RUnit
      else r <- p_move_assign this ds ;; set_obj id (fst r) ;;; set_obj src (snd r) ;;; ret RUnit
  | OPush id a => v <- obj id ;; v' <- p_push_back (AVal a) v ;; set_obj id v' ;;; ret RUnit
  | OPop id => v <- obj id ;; v' <- p_pop_back v ;; set_obj id v' ;;; ret RUnit
  | OResize id n => v <- obj id ;; v' <- p_resize n v ;; set_obj id v' ;;; ret RUnit
  | OResizeFill id n a =>
      v <- obj id ;; v' <- p_resize_fill n (AVal a) v ;; set_obj id v' ;;; ret RUnit
  | OClear id => v <- obj id ;; v' <- p_clear v ;; set_obj id v' ;;; ret RUnit
  | ODestroy id => v <- obj id ;; p_clear v ;;; del_obj id ;;; ret RUnit
  | o => onworld (v_step triv o)
  end.

(** push_back of a reference to an element: as [w_step] in VecProg.v. *)
Definition pw_step (o : wop A) : P (out A) :=
  match o with
  | WOp o => p_step o
  | WPushElem id src i =>
      v <- obj id ;; u <- obj src ;;
      j <- onmem (v_index u i) ;;
      if (j <? 0)%Z then ub
      else v' <- p_push_back (ARef (v_ptr u) (Z.to_nat j)) v ;; set_obj id v' ;;; ret RUnit
  | o => onworld (w_step triv o)
  end.

(** Running a client program (as [wrun] in VecProg.v), from a fresh pool. *)
Fixpoint pwrun {X} (p : wprog A X) : P X :=
  match p with
  | WRet x => ret x
  | WAbort => abort
  | WUB => ub
  | WDiverge => diverge
  | WDo o k => r <- pw_step o ;; pwrun (k r)
  end.
Definition pw_init : pworld A := PW world_init (sma_init MEM MAX) ∅.
End VecPool.
