(** DoubleEndedQueue.hpp over an allocator that may refuse requests.  DequeModel.v
    assumes that allocate never returns nullptr; here it may.  Only the functions
    that allocate are restated, everything else is taken from DequeModel.v. *)
From Verif Require Import Base VectorModel DequeModel QueueModel StackModel.
Local Open Scope nat_scope.

Section Model.
Context {A : Type} (N : nat).
(** Which requests are refused.  Requests are numbered from 0 in the order they
    are made, so any pattern of refusals is some [fail]. *)
Context (fail : nat -> bool).
(** The state of DequeModel.v and how many requests were made. *)
Notation F := (M (dst A * nat)).

(** Code that makes no request. *)
Definition fd_lift {X} (m : M (dst A) X) : F X := fun w =>
  match m (fst w) with Ok (x, st) => Ok (x, (st, snd w)) | Abort => Abort | UB => UB | Diverge => Diverge end.
(** Alloc::allocate: spec/DStructSpec.hpp 47-49 with port/libc/libc-dstruct-port.hpp
    25-27; malloc returns nullptr when it cannot serve the request.  Does it serve it? *)
Definition fd_request : F bool := fun w => Ok (negb (fail (snd w)), (fst w, S (snd w))).
(** AllocArray_::allocate(), then construct(ptr, Array_()), which crashes on
    nullptr (core/common.hpp 53-58): 340-341, 378-379. *)
Definition fd_new_arr : F nat := granted <- fd_request ;; if granted : bool then fd_lift (new_arr N) else abort.
(** The map table gets new storage for [n] pointers: resize(n, nullptr)
    (Vector.hpp 183-210) and copying (34-43).  Nothing is requested for none;
    when a request is refused, resize's construct (198, 206) and copy's destroy (39) crash
    at the first entry, address nullptr (core/common.hpp 53-58, 77-87; see C82_table). *)
Definition fd_table (n : nat) : F unit :=
  if n =? 0 then ret tt else granted <- fd_request ;; if granted : bool then ret tt else abort.

(** _only_init: 331-346. *)
Definition fd_init (id : nat) : F unit :=
  q <- fd_lift (q_get id) ;; dassert ((length (q_tab q) =? 0) && (q_cap q =? 0)) ;;;
  fd_table 2 ;;;
  a0 <- fd_new_arr ;; a1 <- fd_new_arr ;;
  let it := It 1 (PAt a1 0) (Some id) in
  fd_lift (q_put id (DQ 0 (2 * N) [Some a0; Some a1] it it)).

(** The loop that builds the new map table: 376-383. *)
Definition fd_resize_build (id ns ne os : nat) (old : list (option nat)) (i : nat) : F unit :=
  p <- (if (i <? ns) || (ne <? i) then a <- fd_new_arr ;; ret (Some a) else fd_lift (tab_at old (os + (i - ns)))) ;;
  q <- fd_lift (q_get id) ;; fd_lift (tab_at (q_tab q) i) ;;;
  fd_lift (q_put id (DQ (q_size q) (q_cap q) (<[i := p]> (q_tab q)) (q_beg q) (q_end q))).
(** _resize: 353-410; the table is copied (372) and resized (373). *)
Definition fd_resize (id n : nat) : F unit :=
  q <- fd_lift (q_get id) ;;
  let isExtend := q_cap q <? n in
  let nts := n / N in
  let os := i_map (q_beg q) in let oe := i_map (q_end q) in
  let arrNum := oe - os in
  let ns := (n - q_size q) / 2 / N in let ne := ns + arrNum in
  if negb isExtend && (arrNum <=? nts) then ret tt else
  let old := q_tab q in
  fd_table (length old) ;;;
  fd_table nts ;;;
  fd_lift (q_put id (DQ (q_size q) (q_cap q) (take nts old ++ replicate (nts - length old) None) (q_beg q) (q_end q))) ;;;
  for_range 0 nts (fd_resize_build id ns ne os old) ;;;
  fd_lift (
    for_range 0 (length old) (resize_free os oe old) ;;;
    q <- q_get id ;;
    let b := It ns (i_cur (q_beg q)) (i_tab (q_beg q)) in
    let e := It ne (i_cur (q_end q)) (i_tab (q_end q)) in
    a <- tab_at (q_tab q) ne ;; ae <- arr_end N a ;; ec <- rd (i_cur e) ;;
    if eqp ec ae then
      a1 <- tab_at (q_tab q) (S ne) ;; a1b <- arr_begin a1 ;;
      let e := It (S ne) a1b (i_tab e) in
      bc <- rd (i_cur b) ;;
      q_put id (DQ (q_size q) n (q_tab q) (if eqp bc ae then e else b) e)
    else q_put id (DQ (q_size q) n (q_tab q) b e)).

(** The room check at the start of push_back / push_front: 244-249, 256-261. *)
Definition fd_room_back (id : nat) : F unit :=
  q <- fd_lift (q_get id) ;;
  if q_cap q =? 0 then dassert (length (q_tab q) =? 0) ;;; fd_init id
  else match last (q_tab q) with
       | None => abort
       | Some a => ae <- fd_lift (arr_end N a) ;; ec <- fd_lift (rd (i_cur (q_end q))) ;;
                   if eqp ec ae then fd_resize id (q_cap q * 2) else ret tt
       end.
Definition fd_room_front (id : nat) : F unit :=
  q <- fd_lift (q_get id) ;;
  if q_cap q =? 0 then dassert (length (q_tab q) =? 0) ;;; fd_init id
  else a <- fd_lift (tab_at (q_tab q) 0) ;; ab <- fd_lift (arr_begin a) ;; bc <- fd_lift (rd (i_cur (q_beg q))) ;;
       if eqp bc ab then fd_resize id (q_cap q * 2) else ret tt.

(** push_back: 243-253. *)
Definition fd_push_back (id : nat) (x : A) : F unit :=
  fd_room_back id ;;;
  q <- fd_lift (q_get id) ;; fd_lift (cell_construct (i_cur (q_end q)) x) ;;;
  e <- fd_lift (it_next N (q_end q)) ;; fd_lift (q_put id (DQ (S (q_size q)) (q_cap q) (q_tab q) (q_beg q) e)).
(** push_front: 255-265. *)
Definition fd_push_front (id : nat) (x : A) : F unit :=
  fd_room_front id ;;;
  q <- fd_lift (q_get id) ;; b <- fd_lift (it_prev N (q_beg q)) ;; fd_lift (cell_construct (i_cur b) x) ;;;
  fd_lift (q_put id (DQ (S (q_size q)) (q_cap q) (q_tab q) b (q_end q))).
(** The shrink check of the pops: 275-277, 284-286. *)
Definition fd_shrink (id : nat) : F unit :=
  q <- fd_lift (q_get id) ;;
  if (q_size q <=? q_cap q / 3) && (2 <? length (q_tab q)) then fd_resize id (q_cap q / 2) else ret tt.
(** pop_back: 271-278. *)
Definition fd_pop_back (id : nat) : F unit :=
  q <- fd_lift (q_get id) ;; e <- fd_lift (it_prev N (q_end q)) ;;
  fd_lift (q_put id (DQ (pred (q_size q)) (q_cap q) (q_tab q) (q_beg q) e)) ;;;
  fd_lift (cell_destroy (i_cur e)) ;;; fd_shrink id.
(** pop_front: 280-287. *)
Definition fd_pop_front (id : nat) : F unit :=
  q <- fd_lift (q_get id) ;; fd_lift (cell_destroy (i_cur (q_beg q))) ;;; b <- fd_lift (it_next N (q_beg q)) ;;
  fd_lift (q_put id (DQ (pred (q_size q)) (q_cap q) (q_tab q) b (q_end q))) ;;; fd_shrink id.

(** Copy assignment: core/common.hpp 36-39 and 176-184.  [fuel] bounds the loop. *)
Fixpoint fd_copy_loop (fuel : nat) (id : nat) (it e : diter) : F unit :=
  if eqp (i_cur it) (i_cur e) then ret tt else
  match fuel with
  | O => diverge
  | S f => a <- fd_lift (cell_ld (i_cur it)) ;; fd_push_back id a ;;; it <- fd_lift (it_next N it) ;; fd_copy_loop f id it e
  end.
Definition fd_assign (id src : nat) : F unit :=
  if id =? src then ret tt else
  fd_lift (dq_clear N id) ;;;
  q <- fd_lift (q_get src) ;; b <- fd_lift (it_copy (q_beg q)) ;; e <- fd_lift (it_copy (q_end q)) ;;
  fd_copy_loop (S (q_cap q)) id b e.

(** One call: 174-302. *)
Definition fd_unit (m : F unit) : F (out A) := m ;;; ret RUnit.
Definition fd_step (o : dop A) : F (out A) :=
  match o with
  | DCopyNew id src => fd_unit (fd_lift (dq_new id) ;;; fd_assign id src)
  | DAssign id src => fd_unit (fd_assign id src)
  | DPushBack id a | DPush id a => fd_unit (fd_push_back id a)
  | DPushFront id a => fd_unit (fd_push_front id a)
  | DPopBack id => fd_unit (fd_pop_back id)
  | DPopFront id | DPop id => fd_unit (fd_pop_front id)
  | o => fd_lift (dq_step N o)
  end.

(** Queue over such deques (Queue.hpp 36-74) and Stack over them (Stack.hpp 36-56;
    pop also copies the element, 46). *)
Definition fq_step (o : qop A) : F (out A) := fd_step (q_to_deque o).
Definition fk_step (o : kop A) : F (out A) :=
  match o with
  | KNew id => fd_step (DNew id) | KCopyNew id src => fd_step (DCopyNew id src) | KMoveNew id src => fd_step (DMoveNew id src)
  | KAssign id src => fd_step (DAssign id src) | KMoveAssign id src => fd_step (DMoveAssign id src) | KDestroy id => fd_step (DDestroy id)
  | KPush id a => fd_step (DPushBack id a)
  | KPop id => data <- fd_step (DBack id) ;; fd_step (DPopBack id)
  | KTop id => fd_step (DBack id)
  | KSize id => fd_step (DSize id) | KEmpty id => fd_step (DEmpty id)
  | KClear id => fd_step (DClear id) | KIter id => fd_step (DIter id)
  end.
End Model.
(** Before any call. *)
Definition fd_start {A} : dst A * nat := (dst_init, 0).
