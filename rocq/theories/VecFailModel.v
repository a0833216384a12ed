(** Vector.hpp over an allocator that may refuse requests.  VectorModel.v
    assumes that allocate never returns nullptr; here it may.  Only the functions
    that allocate are restated, everything else is taken from VectorModel.v. *)
From Verif Require Import Base VectorModel VecProg.

Section VecFail.
Context {A : Type}.
Context (triv : bool).
(** Which requests are refused.  Requests are numbered from 0 in the order they
    are made, so any pattern of refusals is some [fail]. *)
Context (fail : nat -> bool).
Notation mem := (mem A).
Notation world := (world A).

(** AllocSpec<T,Alloc>::allocate(n): spec/DStructSpec.hpp 47-49 with
    port/libc/libc-dstruct-port.hpp 25-27; malloc returns nullptr when it cannot
    serve the request.  [m_next] counts the requests made. *)
Definition f_alloc (n : nat) : M mem (option nat) := fun m =>
  if fail (m_next m)
  then Ok (None, Mem (m_blocks m) (S (m_next m)) (m_leaked m) (m_ctor m))
  else Ok (Some (m_next m),
           Mem (<[m_next m := replicate n None]> (m_blocks m)) (S (m_next m)) (m_leaked m) (m_ctor m)).

(** resize(size_t n): Vector.hpp 159-181; mC_d takes whatever allocate returned. *)
Definition f_resize (n : nat) (v : vec) : M mem vec :=
  newp <- (if Nat.eqb n 0 then ret None else f_alloc n) ;;
  (match v_ptr v with
   | Some oldb =>
       dassert (negb (Nat.eqb (v_cap v) 0)) ;;;
       for_range 0 (v_size v) (fun i =>
         (if Nat.ltb i n then (a <- load (Some oldb) i ;; construct newp i a) else ret tt) ;;;
         destroy triv (Some oldb) i) ;;;
       dealloc oldb (v_cap v)
   | None => ret tt
   end) ;;;
  ret (Vec (if Nat.ltb n (v_size v) then n else v_size v) n newp).

(** resize(size_t n, const T &element): Vector.hpp 183-210. *)
Definition f_resize_fill (n : nat) (x : arg A) (v : vec) : M mem vec :=
  if Nat.eqb n 0 then f_resize 0 v
  else
    newp <- f_alloc n ;;
    (match v_ptr v with
     | Some oldb =>
         for_range 0 (v_size v) (fun i =>
           (if Nat.ltb i n then (a <- load (Some oldb) i ;; construct newp i a) else ret tt) ;;;
           destroy triv (Some oldb) i) ;;;
         dealloc oldb (v_cap v)
     | None => ret tt
     end) ;;;
    for_range (v_size v) (n - v_size v) (fun i => a <- read_arg x ;; construct newp i a) ;;;
    ret (Vec n n newp).

(** Vector(n, element): Vector.hpp 25-32. *)
Definition f_fill (n : nat) (x : arg A) : M mem vec :=
  dassert (negb (Nat.eqb n 0)) ;;;
  v <- f_resize n v_empty ;;
  for_range 0 n (fun i => a <- read_arg x ;; construct (v_ptr v) i a) ;;;
  ret (Vec n n (v_ptr v)).

(** Copy assignment body: Vector.hpp 34-43. *)
Definition f_copy_assign (this ds : vec) : M mem vec :=
  v0 <- v_clear triv this ;;
  v1 <- f_resize (v_cap ds) v0 ;;
  for_range 0 (v_size ds) (fun i =>
    destroy triv (v_ptr v1) i ;;;
    a <- load (v_ptr ds) i ;;
    construct (v_ptr v1) i a) ;;;
  ret (Vec (v_size ds) (v_cap v1) (v_ptr v1)).

(** push_back: Vector.hpp 98-107. *)
Definition f_push_back (x : arg A) (v : vec) : M mem vec :=
  v1 <- (if Nat.ltb (v_cap v) (v_size v + 1)
         then (if negb (Nat.eqb (v_size v) 0) then f_resize (2 * v_size v) v else f_resize 2 v)
         else ret v) ;;
  a <- read_arg x ;;
  construct (v_ptr v1) (v_size v1) a ;;;
  ret (Vec (v_size v1 + 1) (v_cap v1) (v_ptr v1)).

(** pop_back: Vector.hpp 113-120. *)
Definition f_pop_back (v : vec) : M mem vec :=
  dassert (Nat.ltb 0 (v_size v)) ;;;
  let s := v_size v - 1 in
  destroy triv (v_ptr v) s ;;;
  let v1 := Vec s (v_cap v) (v_ptr v) in
  if Nat.ltb s (v_cap v / 3) then f_resize (v_cap v / 2) v1 else ret v1.

(** The operations of VectorModel.v and VecProg.v over this allocator
    (Vector.hpp 23-210). *)
Definition f_step (o : vop A) : M world (out A) :=
  match o with
  | OFill id n a => absent id ;;; v <- lift (f_fill n (AVal a)) ;; set_obj id v ;;; ret RUnit
  | OCopyNew id src =>
      absent id ;;; ds <- obj src ;; v <- lift (f_copy_assign v_empty ds) ;; set_obj id v ;;; ret RUnit
  | OAssign id src =>
      this <- obj id ;; ds <- obj src ;;
      if Nat.eqb id src then ret RUnit
      else v <- lift (f_copy_assign this ds) ;; set_obj id v ;;; ret RUnit
  | OPush id a => v <- obj id ;; v' <- lift (f_push_back (AVal a) v) ;; set_obj id v' ;;; ret RUnit
  | OPop id => v <- obj id ;; v' <- lift (f_pop_back v) ;; set_obj id v' ;;; ret RUnit
  | OResize id n => v <- obj id ;; v' <- lift (f_resize n v) ;; set_obj id v' ;;; ret RUnit
  | OResizeFill id n a =>
      v <- obj id ;; v' <- lift (f_resize_fill n (AVal a) v) ;; set_obj id v' ;;; ret RUnit
  | o => v_step triv o
  end.

(** push_back of a reference to an element: as [w_step] in VecProg.v. *)
Definition fw_step (o : wop A) : M world (out A) :=
  match o with
  | WOp o => f_step o
  | WPushElem id src i =>
      v <- obj id ;; u <- obj src ;;
      j <- lift (v_index u i) ;;
      if (j <? 0)%Z then ub
      else v' <- lift (f_push_back (ARef (v_ptr u) (Z.to_nat j)) v) ;; set_obj id v' ;;; ret RUnit
  | o => w_step triv o
  end.

(** Running a client program: as [wrun] in VecProg.v. *)
Fixpoint fwrun {X} (p : wprog A X) : M world X :=
  match p with
  | WRet x => ret x
  | WAbort => abort
  | WUB => ub
  | WDiverge => diverge
  | WDo o k => r <- fw_step o ;; fwrun (k r)
  end.

End VecFail.
