(** Model of DoubleEndedQueue (core/ds/queue/DoubleEndedQueue.hpp). *)
From Verif Require Import Base VectorModel.

(** PrimitiveIterator<T>::mPointer_d (core/Iterator.hpp 36-62): the default
    constructor leaves it indeterminate.  A valid pointer is modelled as a block
    address and an element offset in 0..ARR_SIZE; a one-past-the-end pointer is
    taken to differ from every pointer into another block. *)
Inductive curp := PUninit | PNull | PAt (b off : nat).
Global Instance curp_eq_dec : EqDecision curp. Proof. solve_decision. Defined.

(** DoubleEndedQueueIterator_: 151-153; [i_tab]: the deque whose mArrMapTable_d
    is pointed to, [None] for nullptr. *)
Record diter := It { i_map : nat; i_cur : curp; i_tab : option nat }.

(** DoubleEndedQueue's members: 306-308.  The map table is a Vector<Array_ *>
    (see VectorModel.v and C01); here it is its sequence of pointers ([None] for
    nullptr).  Its capacity() equals its size(), since it is only changed by
    resize(n, nullptr), clear, copy and move. *)
Record dq := DQ { q_size : nat; q_cap : nat; q_tab : list (option nat); q_beg : diter; q_end : diter }.

(** [d_blk]: allocated Array_ objects; a cell is [Some] while it holds an element
    put there by push and [None] otherwise (simplified: the default-constructed
    T's that Array_() leaves in the cells are not told apart from raw storage, so
    reading one counts as UB; their constructor and destructor calls are counted in
    [d_cnt]).  [d_fresh]: the number of blocks allocated so far, which names the next
    one.  [d_cnt]: how often the deque's code has called a constructor of T and ~T().
    [d_obj]: the live deques. *)
Record tally := Tl { t_ctor : nat; t_dtor : nat }.
Record dst (A : Type) := DSt { d_blk : gmap nat (list (option A)); d_fresh : nat; d_cnt : tally; d_obj : gmap nat dq }.
Arguments DSt {A} _ _ _ _.
Arguments d_blk {A} _.
Arguments d_fresh {A} _.
Arguments d_cnt {A} _.
Arguments d_obj {A} _.
Definition dst_init {A} : dst A := DSt ∅ 0 (Tl 0 0) ∅.
(** One more block: construct(ptr, Array_()) at 341 and 379 makes the temporary
    Array_() (ARR_SIZE T's: Array.hpp 24, 101), copies it (Array.hpp 32-38: ARR_SIZE
    T's are default-constructed in the block, then assigned) and destroys the
    temporary (Array.hpp 46). *)
Definition tal_block (N : nat) (t : tally) : tally := Tl (t_ctor t + (N + N)) (t_dtor t + N).
(** One call of a constructor of T (core/common.hpp 53-58), one of ~T() (77-87). *)
Definition tal_in (t : tally) : tally := Tl (S (t_ctor t)) (t_dtor t).
Definition tal_out (t : tally) : tally := Tl (t_ctor t) (S (t_dtor t)).

Section Model.
Context {A : Type} (N : nat).
Notation D := (M (dst A)).

Definition q_get (id : nat) : D dq := fun st => match d_obj st !! id with Some q => Ok (q, st) | None => UB end.
Definition q_put (id : nat) (q : dq) : D unit := fun st =>
  match d_obj st !! id with Some _ => Ok (tt, DSt (d_blk st) (d_fresh st) (d_cnt st) (<[id := q]> (d_obj st))) | None => UB end.

(** AllocArray_::allocate() (spec/DStructSpec.hpp 47-49) and
    construct(ptr, Array_()) (core/common.hpp 53-58); allocation does not fail. *)
Definition new_arr : D nat := fun st =>
  Ok (d_fresh st, DSt (<[d_fresh st := replicate N None]> (d_blk st)) (S (d_fresh st)) (tal_block N (d_cnt st)) (d_obj st)).
(** Does a block hold no element? *)
Definition blank (c : list (option A)) : bool := forallb (fun x => match x with Some _ => false | None => true end) c.

(** AllocArray_::deallocate(ptr) (spec/DStructSpec.hpp 51-53).  Simplified: in C++ the
    elements a released block still holds are silently never destroyed; here that is a
    fault of its own, so that a history that does not fault has leaked no element. *)
Definition free_arr (p : option nat) : D unit := fun st =>
  match p with
  | None => UB
  | Some b => match d_blk st !! b with
              | Some c => if blank c then Ok (tt, DSt (delete b (d_blk st)) (d_fresh st) (d_cnt st) (d_obj st)) else UB
              | None => UB end
  end.

(** *ptr *)
Definition cell_ld (p : curp) : D A := fun st =>
  match p with
  | PAt b o => match d_blk st !! b with
               | Some c => match c !! o with Some (Some a) => Ok (a, st) | _ => UB end
               | None => UB end
  | _ => UB
  end.
(** Change a cell and, by [f], the tally. *)
Definition cell_st (f : tally -> tally) (p : curp) (v : option A) : D unit := fun st =>
  match p with
  | PAt b o => match d_blk st !! b with
               | Some c => if o <? length c then Ok (tt, DSt (<[b := <[o := v]> c]> (d_blk st)) (d_fresh st) (f (d_cnt st)) (d_obj st)) else UB
               | None => UB end
  | _ => UB
  end.
(** dstruct::construct(ptr, obj) (core/common.hpp 53-58) on a cell without
    element; stricter than C++: on a cell that still holds one (which would
    leak) it is UB. *)
Definition cell_construct (p : curp) (a : A) : D unit := fun st =>
  match p with
  | PNull => Abort
  | PAt b o => match d_blk st !! b with
               | Some c => match c !! o with Some None => cell_st tal_in p (Some a) st | _ => UB end
               | None => UB end
  | PUninit => UB
  end.
(** dstruct::destroy(ptr) (core/common.hpp 77-87). *)
Definition cell_destroy (p : curp) : D unit :=
  match p with PNull => abort | _ => cell_ld p ;;; cell_st tal_out p None end.

(** mArrMapTablePtr_d-> operator[](index) (Vector::operator[], Vector.hpp 86-91, 122-127);
    the result must point to an Array_ for begin()/end() (Array.hpp 84-98). *)
Definition tab_at (t : list (option nat)) (i : nat) : D (option nat) := fun st =>
  match t !! i with Some p => Ok (p, st) | None => Abort end.
Definition arr_begin (p : option nat) : D curp := match p with Some b => ret (PAt b 0) | None => ub end.
Definition arr_end (p : option nat) : D curp := match p with Some b => ret (PAt b N) | None => ub end.
(** Copying a pointer that was never initialised is UB. *)
Definition rd (p : curp) : D curp := match p with PUninit => ub | _ => ret p end.
(** The map table an iterator points to. *)
Definition it_tab (i : diter) : D (list (option nat)) :=
  match i_tab i with None => ub | Some id => q <- q_get id ;; ret (q_tab q) end.
(** mCurr_d++ / mCurr_d-- (core/Iterator.hpp 52-56). *)
Definition cur_next (p : curp) : D curp := match p with PAt b o => ret (PAt b (S o)) | _ => ub end.
Definition cur_prev (p : curp) : D curp := match p with PAt b (S o) => ret (PAt b o) | _ => ub end.
Definition eqp (p q : curp) : bool := bool_decide (p = q).

(** operator++(): 91-101. *)
Definition it_next (i : diter) : D diter :=
  c <- cur_next (i_cur i) ;;
  t <- it_tab i ;; a <- tab_at t (i_map i) ;; e <- arr_end a ;;
  if eqp c e then
    if i_map i + 1 <? length t then
      a <- tab_at t (S (i_map i)) ;; b <- arr_begin a ;; ret (It (S (i_map i)) b (i_tab i))
    else ret (It (i_map i) c (i_tab i))
  else ret (It (i_map i) c (i_tab i)).
(** operator--(): 110-117.  Simplified: stepping back from the first block is UB
    (the code wraps mCurrMapIndex_d around, to the table's last entry). *)
Definition it_prev (i : diter) : D diter :=
  p <- rd (i_cur i) ;;
  t <- it_tab i ;; a <- tab_at t (i_map i) ;; b <- arr_begin a ;;
  if eqp p b then
    match i_map i with
    | O => ub
    | S m => a <- tab_at t m ;; e <- arr_end a ;; c <- cur_prev e ;; ret (It m c (i_tab i))
    end
  else c <- cur_prev p ;; ret (It (i_map i) c (i_tab i)).
(** operator+(int) / operator-(int): 126-142. *)
Fixpoint it_add (n : nat) (i : diter) : D diter := match n with O => ret i | S n => i <- it_next i ;; it_add n i end.
Fixpoint it_sub (n : nat) (i : diter) : D diter := match n with O => ret i | S n => i <- it_prev i ;; it_sub n i end.
(** begin() const / end() const: 296-302, 77-88; also copying an iterator: 47-57. *)
Definition it_copy (i : diter) : D diter := p <- rd (i_cur i) ;; ret i.

(** DoubleEndedQueue(): 174; the iterators' constructor 34 sets only the table pointer. *)
Definition dq_new (id : nat) : D unit := fun st =>
  match d_obj st !! id with
  | Some _ => UB
  | None => Ok (tt, DSt (d_blk st) (d_fresh st) (d_cnt st) (<[id := DQ 0 0 [] (It 0 PUninit None) (It 0 PUninit None)]> (d_obj st)))
  end.

(** The two loops of _only_clear: 314-321.  [fuel] bounds the first one. *)
Fixpoint clear_elems (fuel : nat) (it e : diter) : D unit :=
  if eqp (i_cur it) (i_cur e) then ret tt else
  match fuel with
  | O => diverge
  | S f => cell_destroy (i_cur it) ;;; it <- it_next it ;; clear_elems f it e
  end.
Fixpoint free_all (t : list (option nat)) : D unit :=
  match t with [] => ret tt | p :: t => free_arr p ;;; free_all t end.
(** _only_clear: 310-328. *)
Definition dq_clear (id : nat) : D unit :=
  q <- q_get id ;;
  match q_tab q with
  | [] => ret tt
  | _ => dassert (negb (q_cap q =? 0)) ;;;
         b <- it_copy (q_beg q) ;; clear_elems (S (q_cap q)) b (q_end q) ;;;
         free_all (q_tab q) ;;;
         q_put id (DQ 0 0 [] (q_beg q) (q_end q))
  end.

(** _only_init: 331-346 (MIN_MAP_TABLE_SIZE = 2, 156). *)
Definition dq_init (id : nat) : D unit :=
  q <- q_get id ;; dassert ((length (q_tab q) =? 0) && (q_cap q =? 0)) ;;;
  a0 <- new_arr ;; a1 <- new_arr ;;
  let it := It 1 (PAt a1 0) (Some id) in
  q_put id (DQ 0 (2 * N) [Some a0; Some a1] it it).

(** The loop that builds the new map table: 376-383. *)
Definition resize_build (id ns ne os : nat) (old : list (option nat)) (i : nat) : D unit :=
  p <- (if (i <? ns) || (ne <? i) then a <- new_arr ;; ret (Some a) else tab_at old (os + (i - ns))) ;;
  q <- q_get id ;; tab_at (q_tab q) i ;;;
  q_put id (DQ (q_size q) (q_cap q) (<[i := p]> (q_tab q)) (q_beg q) (q_end q)).
(** The loop that releases blocks: 386-391. *)
Definition resize_free (os oe : nat) (old : list (option nat)) (i : nat) : D unit :=
  if (i <? os) || (oe <? i) then p <- tab_at old i ;; free_arr p else ret tt.
(** _resize: 353-410.  size_t differences are taken on nat: in the code's own
    use end >= begin and n >= mSize_d. *)
Definition dq_resize (id n : nat) : D unit :=
  q <- q_get id ;;
  let isExtend := q_cap q <? n in
  let nts := n / N in
  let os := i_map (q_beg q) in let oe := i_map (q_end q) in
  let arrNum := oe - os in
  let ns := (n - q_size q) / 2 / N in let ne := ns + arrNum in
  if negb isExtend && (arrNum <=? nts) then ret tt else
  let old := q_tab q in
  (* mArrMapTable_d.resize(newMapTableSize, nullptr): Vector.hpp 183-210 *)
  q_put id (DQ (q_size q) (q_cap q) (take nts old ++ replicate (nts - length old) None) (q_beg q) (q_end q)) ;;;
  for_range 0 nts (resize_build id ns ne os old) ;;;
  for_range 0 (length old) (resize_free os oe old) ;;;
  q <- q_get id ;;
  let b := It ns (i_cur (q_beg q)) (i_tab (q_beg q)) in
  let e := It ne (i_cur (q_end q)) (i_tab (q_end q)) in
  a <- tab_at (q_tab q) ne ;; ae <- arr_end a ;; ec <- rd (i_cur e) ;;
  if eqp ec ae then
    a1 <- tab_at (q_tab q) (S ne) ;; a1b <- arr_begin a1 ;;
    let e := It (S ne) a1b (i_tab e) in
    bc <- rd (i_cur b) ;;
    q_put id (DQ (q_size q) n (q_tab q) (if eqp bc ae then e else b) e)
  else q_put id (DQ (q_size q) n (q_tab q) b e).

(** The room check at the start of push_back / push_front: 244-249, 256-261. *)
Definition room_back (id : nat) : D unit :=
  q <- q_get id ;;
  if q_cap q =? 0 then dassert (length (q_tab q) =? 0) ;;; dq_init id
  else match last (q_tab q) with
       | None => abort
       | Some a => ae <- arr_end a ;; ec <- rd (i_cur (q_end q)) ;;
                   if eqp ec ae then dq_resize id (q_cap q * 2) else ret tt
       end.
Definition room_front (id : nat) : D unit :=
  q <- q_get id ;;
  if q_cap q =? 0 then dassert (length (q_tab q) =? 0) ;;; dq_init id
  else a <- tab_at (q_tab q) 0 ;; ab <- arr_begin a ;; bc <- rd (i_cur (q_beg q)) ;;
       if eqp bc ab then dq_resize id (q_cap q * 2) else ret tt.

(** push_back: 243-253. *)
Definition dq_push_back (id : nat) (x : A) : D unit :=
  room_back id ;;;
  q <- q_get id ;; cell_construct (i_cur (q_end q)) x ;;;
  e <- it_next (q_end q) ;; q_put id (DQ (S (q_size q)) (q_cap q) (q_tab q) (q_beg q) e).
(** push_front: 255-265. *)
Definition dq_push_front (id : nat) (x : A) : D unit :=
  room_front id ;;;
  q <- q_get id ;; b <- it_prev (q_beg q) ;; cell_construct (i_cur b) x ;;;
  q_put id (DQ (S (q_size q)) (q_cap q) (q_tab q) b (q_end q)).
(** The shrink check of the pops: 275-277, 284-286. *)
Definition shrink (id : nat) : D unit :=
  q <- q_get id ;;
  if (q_size q <=? q_cap q / 3) && (2 <? length (q_tab q)) then dq_resize id (q_cap q / 2) else ret tt.
(** pop_back: 271-278.  mSize_d-- on an empty deque is not observable: destroying
    the missing element is UB already. *)
Definition dq_pop_back (id : nat) : D unit :=
  q <- q_get id ;; e <- it_prev (q_end q) ;;
  q_put id (DQ (pred (q_size q)) (q_cap q) (q_tab q) (q_beg q) e) ;;;
  cell_destroy (i_cur e) ;;; shrink id.
(** pop_front: 280-287. *)
Definition dq_pop_front (id : nat) : D unit :=
  q <- q_get id ;; cell_destroy (i_cur (q_beg q)) ;;; b <- it_next (q_beg q) ;;
  q_put id (DQ (pred (q_size q)) (q_cap q) (q_tab q) b (q_end q)) ;;; shrink id.

(** back(): 222-225; front(): 227-230; operator[]: 232-236. *)
Definition dq_back (id : nat) : D A := q <- q_get id ;; i <- it_sub 1 (q_end q) ;; cell_ld (i_cur i).
Definition dq_front (id : nat) : D A := q <- q_get id ;; cell_ld (i_cur (q_beg q)).
Definition dq_at (id : nat) (z : Z) : D A :=
  q <- q_get id ;;
  if (z <? 0)%Z then i <- it_sub (Z.to_nat (- z)) (q_end q) ;; cell_ld (i_cur i)
  else i <- it_add (Z.to_nat z) (q_beg q) ;; cell_ld (i_cur i).

(** for (auto &obj : deque) body(obj), begin() and end() taken once: 294-302.
    [fuel] bounds the loop. *)
Fixpoint it_loop {X} (fuel : nat) (body : X -> A -> D X) (it e : diter) (acc : X) : D X :=
  if eqp (i_cur it) (i_cur e) then ret acc else
  match fuel with
  | O => diverge
  | S f => a <- cell_ld (i_cur it) ;; acc <- body acc a ;; it <- it_next it ;; it_loop f body it e acc
  end.
Definition range_for {X} (id : nat) (body : X -> A -> D X) (acc : X) : D X :=
  q <- q_get id ;; b <- it_copy (q_beg q) ;; e <- it_copy (q_end q) ;; it_loop (S (q_cap q)) body b e acc.
Definition dq_iter (id : nat) : D (list A) := range_for id (fun acc a => ret (acc ++ [a])) [].

(** Copy assignment: core/common.hpp 36-39 and 176-184. *)
Definition dq_assign (id src : nat) : D unit :=
  if id =? src then ret tt else
  dq_clear id ;;; range_for src (fun _ a => dq_push_back id a) tt.
(** Move assignment: core/common.hpp 44-47 and 186-201; moving the iterators
    (60-74) keeps their pointer to the source's map table. *)
Definition dq_move (id src : nat) : D unit :=
  if id =? src then ret tt else
  dq_clear id ;;;
  q <- q_get src ;; b <- it_copy (q_beg q) ;; e <- it_copy (q_end q) ;; q_get id ;;;
  q_put id (DQ (q_size q) (q_cap q) (q_tab q) b e) ;;;
  q_put src (DQ 0 0 [] (It 0 PNull None) (It 0 PNull None)).
(** ~DoubleEndedQueue: 203-205. *)
Definition dq_destroy (id : nat) : D unit :=
  dq_clear id ;;; (fun st => Ok (tt, DSt (d_blk st) (d_fresh st) (d_cnt st) (delete id (d_obj st)))).
End Model.

(** Calls a client can make. *)
Inductive dop (A : Type) :=
| DNew (id : nat) | DCopyNew (id src : nat) | DMoveNew (id src : nat) | DAssign (id src : nat) | DMoveAssign (id src : nat)
| DDestroy (id : nat) | DClear (id : nat)
| DPushBack (id : nat) (a : A) | DPushFront (id : nat) (a : A) | DPush (id : nat) (a : A)
| DPopBack (id : nat) | DPopFront (id : nat) | DPop (id : nat)
| DFront (id : nat) | DBack (id : nat) | DAt (id : nat) (z : Z) | DSize (id : nat) | DEmpty (id : nat) | DCapacity (id : nat) | DIter (id : nat).
Arguments DNew {A} id.
Arguments DCopyNew {A} id src.
Arguments DMoveNew {A} id src.
Arguments DAssign {A} id src.
Arguments DMoveAssign {A} id src.
Arguments DDestroy {A} id.
Arguments DClear {A} id.
Arguments DPushBack {A} id a.
Arguments DPushFront {A} id a.
Arguments DPush {A} id a.
Arguments DPopBack {A} id.
Arguments DPopFront {A} id.
Arguments DPop {A} id.
Arguments DFront {A} id.
Arguments DBack {A} id.
Arguments DAt {A} id z.
Arguments DSize {A} id.
Arguments DEmpty {A} id.
Arguments DCapacity {A} id.
Arguments DIter {A} id.

(** One call; the copy and move constructors default-construct and assign
    (core/common.hpp 35, 43); push is push_back (239-241), pop is pop_front
    (267-269); size/capacity/empty 209-219. *)
Definition dq_unit {A} (m : M (dst A) unit) : M (dst A) (out A) := m ;;; ret RUnit.
Definition dq_step {A} (N : nat) (o : dop A) : M (dst A) (out A) :=
  match o with
  | DNew id => dq_unit (dq_new id)
  | DCopyNew id src => dq_unit (dq_new id ;;; dq_assign N id src)
  | DMoveNew id src => dq_unit (dq_new id ;;; dq_move N id src)
  | DAssign id src => dq_unit (dq_assign N id src)
  | DMoveAssign id src => dq_unit (dq_move N id src)
  | DDestroy id => dq_unit (dq_destroy N id)
  | DClear id => dq_unit (dq_clear N id)
  | DPushBack id a | DPush id a => dq_unit (dq_push_back N id a)
  | DPushFront id a => dq_unit (dq_push_front N id a)
  | DPopBack id => dq_unit (dq_pop_back N id)
  | DPopFront id | DPop id => dq_unit (dq_pop_front N id)
  | DFront id => a <- dq_front id ;; ret (RVal a)
  | DBack id => a <- dq_back N id ;; ret (RVal a)
  | DAt id z => a <- dq_at N id z ;; ret (RVal a)
  | DSize id => q <- q_get id ;; ret (RNat (q_size q))
  | DEmpty id => q <- q_get id ;; ret (RBool (q_size q =? 0))
  | DCapacity id => q <- q_get id ;; ret (RNat (q_cap q))
  | DIter id => l <- dq_iter N id ;; ret (RList l)
  end.
