(** Vector.hpp over malloc, with the byte counts it is really asked for.  The element
    count of a request is a size_t, but AllocSpec and Alloc pass it on as an int
    (ArithModel.v), so a block can be smaller than asked for, or there is none.
    VectorModel.v assumes that every request gets what it asks for. *)
From Verif Require Import Base VectorModel ArithModel.
Local Open Scope nat_scope.

Section Bytes.
Context {A : Type} (triv : bool).
(** sizeof(T). *)
Context (s : Z).
Notation mem := (mem A).
Notation world := (world A).

(** AllocSpec<T, Alloc>::allocate(n): spec/DStructSpec.hpp 47-49 with
    port/libc/libc-dstruct-port.hpp 25-27.  malloc is asked for up to INT_MAX bytes,
    which it is taken to have, or, if the int is negative, for 2^64 - 2^31 bytes and
    more, which no machine has.  The block has room for as many objects as fit (a
    request for 0 bytes gives an empty block). *)
Definition b_alloc (n : nat) : M mem (option nat) := fun m =>
  let bytes := malloc_arg (spec_bytes (Z.of_nat n) s) in
  if (bytes <? 2 ^ 63)%Z
  then Ok (Some (m_next m),
           Mem (<[m_next m := replicate (Z.to_nat (bytes / s)) None]> (m_blocks m)) (S (m_next m)) (m_leaked m) (m_ctor m))
  else Ok (None, Mem (m_blocks m) (S (m_next m)) (m_leaked m) (m_ctor m)).

(** resize(size_t n): Vector.hpp 159-181; mC_d takes whatever allocate returned.
    deallocate is that of VectorModel.v. *)
Definition b_resize (n : nat) (v : vec) : M mem vec :=
  newp <- (if Nat.eqb n 0 then ret None else b_alloc n) ;;
  (match v_ptr v with
   | Some oldb =>
       dassert (negb (Nat.eqb (v_cap v) 0)) ;;;
       for_range 0 (v_size v) (fun i =>
         (if Nat.ltb i n then (a <- load (Some oldb) i ;; construct newp i a) else ret tt) ;;;
         destroy triv (Some oldb) i) ;;;
       dealloc oldb (v_cap v)
   | None => ret tt
   end) ;;;
  ret (Vec (if Nat.ltb n (v_size v) then n else v_size v) n newp).

(** resize(size_t n, const T &element): Vector.hpp 183-210. *)
Definition b_resize_fill (n : nat) (x : arg A) (v : vec) : M mem vec :=
  if Nat.eqb n 0 then b_resize 0 v
  else
    newp <- b_alloc n ;;
    (match v_ptr v with
     | Some oldb =>
         for_range 0 (v_size v) (fun i =>
           (if Nat.ltb i n then (a <- load (Some oldb) i ;; construct newp i a) else ret tt) ;;;
           destroy triv (Some oldb) i) ;;;
         dealloc oldb (v_cap v)
     | None => ret tt
     end) ;;;
    for_range (v_size v) (n - v_size v) (fun i => a <- read_arg x ;; construct newp i a) ;;;
    ret (Vec n n newp).

(** Vector(n, element): Vector.hpp 25-32. *)
Definition b_fill (n : nat) (x : arg A) : M mem vec :=
  dassert (negb (Nat.eqb n 0)) ;;;
  v <- b_resize n v_empty ;;
  for_range 0 n (fun i => a <- read_arg x ;; construct (v_ptr v) i a) ;;;
  ret (Vec n n (v_ptr v)).

(** Copy assignment body: Vector.hpp 34-43. *)
Definition b_copy_assign (this ds : vec) : M mem vec :=
  v0 <- v_clear triv this ;;
  v1 <- b_resize (v_cap ds) v0 ;;
  for_range 0 (v_size ds) (fun i =>
    destroy triv (v_ptr v1) i ;;;
    a <- load (v_ptr ds) i ;;
    construct (v_ptr v1) i a) ;;;
  ret (Vec (v_size ds) (v_cap v1) (v_ptr v1)).

(** push_back: Vector.hpp 98-107. *)
Definition b_push_back (x : arg A) (v : vec) : M mem vec :=
  v1 <- (if Nat.ltb (v_cap v) (v_size v + 1)
         then (if negb (Nat.eqb (v_size v) 0) then b_resize (2 * v_size v) v else b_resize 2 v)
         else ret v) ;;
  a <- read_arg x ;;
  construct (v_ptr v1) (v_size v1) a ;;;
  ret (Vec (v_size v1 + 1) (v_cap v1) (v_ptr v1)).

(** pop_back: Vector.hpp 113-120. *)
Definition b_pop_back (v : vec) : M mem vec :=
  dassert (Nat.ltb 0 (v_size v)) ;;;
  let k := v_size v - 1 in
  destroy triv (v_ptr v) k ;;;
  let v1 := Vec k (v_cap v) (v_ptr v) in
  if Nat.ltb k (v_cap v / 3) then b_resize (v_cap v / 2) v1 else ret v1.

(** The operations of VectorModel.v (Vector.hpp 23-210). *)
Definition b_step (o : vop A) : M world (out A) :=
  match o with
  | OFill id n a => absent id ;;; v <- lift (b_fill n (AVal a)) ;; set_obj id v ;;; ret RUnit
  | OCopyNew id src =>
      absent id ;;; ds <- obj src ;; v <- lift (b_copy_assign v_empty ds) ;; set_obj id v ;;; ret RUnit
  | OAssign id src =>
      this <- obj id ;; ds <- obj src ;;
      if Nat.eqb id src then ret RUnit
      else v <- lift (b_copy_assign this ds) ;; set_obj id v ;;; ret RUnit
  | OPush id a => v <- obj id ;; v' <- lift (b_push_back (AVal a) v) ;; set_obj id v' ;;; ret RUnit
  | OPop id => v <- obj id ;; v' <- lift (b_pop_back v) ;; set_obj id v' ;;; ret RUnit
  | OResize id n => v <- obj id ;; v' <- lift (b_resize n v) ;; set_obj id v' ;;; ret RUnit
  | OResizeFill id n a =>
      v <- obj id ;; v' <- lift (b_resize_fill n (AVal a) v) ;; set_obj id v' ;;; ret RUnit
  | o => v_step triv o
  end.
Fixpoint b_run (ops : list (vop A)) : M world (list (out A)) :=
  match ops with
  | [] => ret []
  | o :: ops => r <- b_step o ;; rs <- b_run ops ;; ret (r :: rs)
  end.
End Bytes.
