(** Model of core/ds/linked-list/: EmbeddedList.hpp, LinkedList.hpp,
    DoublyLinkedList.hpp, SinglyLinkedList.hpp.

    Memory: a map from node addresses to nodes.  A node is either the member
    mHeadNode_d of list object [id] ([Head id]) or a node obtained from the
    allocator ([Node a]); freed nodes are absent, so touching one is undefined
    behaviour as long as its address is not handed out again.  to_node/to_link (EmbeddedList.hpp 90-96) are casts between a node
    and its first member and are the identity here.  SinglyLink_ has no [prev];
    the model's cells have the field but the singly linked code never uses it. *)
From Verif Require Import Base VectorModel Alloc.

Notation ptr := (nat + nat)%type.
Notation Head := (@inl nat nat).
Notation Node := (@inr nat nat).

(** EmbeddedListNode_: EmbeddedList.hpp 67-70 with the links of 15-16, 38-40. *)
Record cell (A : Type) := Cell { c_next : option ptr; c_prev : option ptr; c_dat : A }.
Arguments Cell {A} _ _ _.
Arguments c_next {A} _.
Arguments c_prev {A} _.
Arguments c_dat {A} _.

(** The nodes, the allocator (Alloc.v), and per list object mSize_d
    (LinkedList.hpp 142) and mTailNodePtr_d (SinglyLinkedList.hpp 153). *)
Record lst (A : Type) := LSt {
  l_cells : gmap ptr (cell A); l_al : alloc; l_size : gmap nat nat; l_tail : gmap nat ptr }.
Arguments LSt {A} _ _ _ _.
Arguments l_cells {A} _.
Arguments l_al {A} _.
Arguments l_size {A} _.
Arguments l_tail {A} _.

(** No objects; the allocator is at its start. *)
Definition lst_init {A} (pol : policy) : lst A := LSt ∅ (Alloc pol []) ∅ ∅.

Section Model.
Context {A : Type} (junk : A).
Notation L := (M (lst A)).

(** Reading and writing through node pointers. *)
Definition ld (p : ptr) : L (cell A) := fun s =>
  match l_cells s !! p with Some c => Ok (c, s) | None => UB end.
Definition stc (p : ptr) (c : cell A) : L unit := fun s =>
  match l_cells s !! p with
  | Some _ => Ok (tt, LSt (<[p := c]> (l_cells s)) (l_al s) (l_size s) (l_tail s))
  | None => UB
  end.
Definition ld_next (p : ptr) : L (option ptr) := c <- ld p ;; ret (c_next c).
Definition ld_prev (p : ptr) : L (option ptr) := c <- ld p ;; ret (c_prev c).
Definition ld_dat (p : ptr) : L A := c <- ld p ;; ret (c_dat c).
Definition st_next (p : ptr) (q : option ptr) : L unit := c <- ld p ;; stc p (Cell q (c_prev c) (c_dat c)).
Definition st_prev (p : ptr) (q : option ptr) : L unit := c <- ld p ;; stc p (Cell (c_next c) q (c_dat c)).
Definition st_dat (p : ptr) (a : A) : L unit := c <- ld p ;; stc p (Cell (c_next c) (c_prev c) a).
(** Dereferencing a pointer that may be null. *)
Definition nonnull (p : option ptr) : L ptr := match p with Some p => ret p | None => ub end.

Definition ld_size (id : nat) : L nat := fun s =>
  match l_size s !! id with Some n => Ok (n, s) | None => UB end.
Definition st_size (id n : nat) : L unit := fun s =>
  match l_size s !! id with
  | Some _ => Ok (tt, LSt (l_cells s) (l_al s) (<[id := n]> (l_size s)) (l_tail s))
  | None => UB
  end.
Definition ld_tail (id : nat) : L ptr := fun s =>
  match l_tail s !! id with Some p => Ok (p, s) | None => UB end.
Definition st_tail (id : nat) (p : ptr) : L unit := fun s =>
  match l_tail s !! id with
  | Some _ => Ok (tt, LSt (l_cells s) (l_al s) (l_size s) (<[id := p]> (l_tail s)))
  | None => UB
  end.

(** AllocNode_::allocate() and construct(nPtr, mHeadNode_d), e.g. LinkedList.hpp
    91-93: a new node that is a copy of the head node of list [id].  A refused
    request gives a null pointer, on which construct crashes (core/common.hpp
    54-58). *)
Definition new_node (id : nat) : L ptr := fun s =>
  match l_cells s !! Head id, al_pick (l_al s) with
  | Some c, Some a => Ok (Node a, LSt (<[Node a := c]> (l_cells s)) (al_got a (l_al s)) (l_size s) (l_tail s))
  | Some _, None => Abort
  | None, _ => UB
  end.
(** destroy(nPtr); AllocNode_::deallocate(nPtr), e.g. LinkedList.hpp 113-114. *)
Definition free_node (p : ptr) : L unit := fun s =>
  match p, l_cells s !! p with
  | inr a, Some _ => Ok (tt, LSt (delete p (l_cells s)) (al_gave a (l_al s)) (l_size s) (l_tail s))
  | _, _ => UB
  end.

(** ** EmbeddedList.hpp *)
(** SinglyLink_::init 19-21, add 27-30, del 32-35. *)
Definition slink_init (p : ptr) : L unit := st_next p (Some p).
Definition slink_add (prev curr : ptr) : L unit :=
  n <- ld_next prev ;; st_next curr n ;;; st_next prev (Some curr).
Definition slink_del (prev curr : ptr) : L unit :=
  n <- ld_next curr ;; st_next prev n ;;; st_next curr None.
(** DoublyLink_::init 43-45, add 51-57, del 59-64. *)
Definition dlink_init (p : ptr) : L unit := st_prev p (Some p) ;;; st_next p (Some p).
Definition dlink_add (prev curr : ptr) : L unit :=
  n <- ld_next prev ;; st_next curr n ;;; st_prev curr (Some prev) ;;;
  n <- ld_next prev ;;
  match n with Some q => st_prev q (Some curr) | None => ret tt end ;;;
  st_next prev (Some curr).
Definition dlink_del (prev curr : ptr) : L unit :=
  n <- ld_next curr ;; st_next prev n ;;;
  n <- ld_next curr ;;
  match n with Some q => st_prev q (Some prev) | None => ret tt end ;;;
  st_next curr None ;;; st_prev curr None.

(** ** LinkedList.hpp, for either kind of link ([d]: doubly). *)
Context (d : bool).
Definition link_init (p : ptr) : L unit := if d then dlink_init p else slink_init p.
Definition link_add (prev curr : ptr) : L unit := if d then dlink_add prev curr else slink_add prev curr.
Definition link_del (prev curr : ptr) : L unit := if d then dlink_del prev curr else slink_del prev curr.

(** LinkedList_(): 37-40; for SinglyLinkedList also mTailNodePtr_d (59-61). *)
Definition ll_init (id : nat) : L unit := fun s =>
  match l_size s !! id with
  | Some _ => UB   (* an object of that name exists: not a program *)
  | None => (link_init (Head id)) (LSt (<[Head id := Cell None None junk]> (l_cells s)) (l_al s)
                                      (<[id := 0]> (l_size s)) (<[id := Head id]> (l_tail s)))
  end.
(** empty(): 66-73. *)
Definition ll_empty (id : nat) : L bool :=
  n <- ld_size id ;;
  if Nat.eqb n 0 then
    p <- ld_next (Head id) ;; dassert (bool_decide (p = Some (Head id))) ;;; ret true
  else ret false.
(** front(): 80-82. *)
Definition ll_front (id : nat) : L A := p <- ld_next (Head id) ;; p <- nonnull p ;; ld_dat p.
(** push_front: 89-98. *)
Definition ll_push_front (id : nat) (a : A) : L unit :=
  st_dat (Head id) a ;;; n <- new_node id ;; link_add (Head id) n ;;;
  k <- ld_size id ;; st_size id (S k).
(** pop_front: 104-116. *)
Definition ll_pop_front (id : nat) : L unit :=
  k <- ld_size id ;; dassert (Nat.ltb 0 k) ;;;
  p <- ld_next (Head id) ;; p <- nonnull p ;;
  link_del (Head id) p ;;; free_node p ;;; st_size id (k - 1).
(** _clear: 144-148; [fuel] bounds the loop. *)
Fixpoint ll_clear_loop (fuel id : nat) : L unit :=
  match fuel with
  | O => diverge
  | S f => b <- ll_empty id ;; if b then ret tt else ll_pop_front id ;;; ll_clear_loop f id
  end.
Definition ll_clear (id : nat) : L unit := n <- ld_size id ;; ll_clear_loop (S n) id.
(** ~LinkedList_(): 60-62; then the object is gone. *)
Definition ll_destroy (id : nat) : L unit :=
  ll_clear id ;;; (fun s => Ok (tt, LSt (delete (Head id) (l_cells s)) (l_al s) (delete id (l_size s)) (delete id (l_tail s)))).
(** operator=(LinkedList_&&) for different objects: 46-58, core/common.hpp 42-48. *)
Definition ll_move (id src : nat) : L unit :=
  ll_clear id ;;;
  c <- ld (Head src) ;; stc (Head id) c ;;;
  n <- ld_size src ;; st_size id n ;;;
  link_init (Head src) ;;; st_size src 0.

(** Range-for: begin()/end() 120-138, iterators DoublyLinkedList.hpp 27-40 and
    SinglyLinkedList.hpp 26-38.  The iterators are compared by the address of
    [data], i.e. by node. *)
Fixpoint ll_iter_loop (fuel : nat) (cur stop : ptr) : L (list A) :=
  match fuel with
  | O => diverge
  | S f => if bool_decide (cur = stop) then ret []
           else a <- ld_dat cur ;; n <- ld_next cur ;; n <- nonnull n ;;
                l <- ll_iter_loop f n stop ;; ret (a :: l)
  end.
Definition ll_iter (id : nat) : L (list A) := fun s =>
  (p <- ld_next (Head id) ;; p <- nonnull p ;; ll_iter_loop (S (size (l_cells s))) p (Head id)) s.

(** ** DoublyLinkedList.hpp *)
(** it = end(); while (it != begin()) { --it; visit *it }: 41-50. *)
Fixpoint dl_riter_loop (fuel : nat) (cur first : ptr) : L (list A) :=
  match fuel with
  | O => diverge
  | S f => if bool_decide (cur = first) then ret []
           else p <- ld_prev cur ;; p <- nonnull p ;; a <- ld_dat p ;;
                l <- dl_riter_loop f p first ;; ret (a :: l)
  end.
Definition dl_riter (id : nat) : L (list A) := fun s =>
  (p <- ld_next (Head id) ;; p <- nonnull p ;; dl_riter_loop (S (size (l_cells s))) (Head id) p) s.
(** back(): 99-102. *)
Definition dl_back (id : nat) : L A :=
  k <- ld_size id ;; dassert (Nat.ltb 0 k) ;;; p <- ld_prev (Head id) ;; p <- nonnull p ;; ld_dat p.
(** push_back: 104-114. *)
Definition dl_push_back (id : nat) (a : A) : L unit :=
  st_dat (Head id) a ;;; n <- new_node id ;;
  p <- ld_prev (Head id) ;; p <- nonnull p ;; link_add p n ;;;
  k <- ld_size id ;; st_size id (S k).
(** pop_back: 116-128. *)
Definition dl_pop_back (id : nat) : L unit :=
  k <- ld_size id ;; dassert (Nat.ltb 0 k) ;;;
  p <- ld_prev (Head id) ;; p <- nonnull p ;; pp <- ld_prev p ;; pp <- nonnull pp ;;
  link_del pp p ;;; free_node p ;;; st_size id (k - 1).
(** The loop of operator=(const DoublyLinkedList&): 79-81. *)
Fixpoint dl_copy_loop (fuel : nat) (id : nat) (cur stop : ptr) : L unit :=
  match fuel with
  | O => diverge
  | S f => if bool_decide (cur = stop) then ret tt
           else a <- ld_dat cur ;; dl_push_back id a ;;;
                n <- ld_next cur ;; n <- nonnull n ;; dl_copy_loop f id n stop
  end.
(** operator=(const DoublyLinkedList&): 76-83, core/common.hpp 34-40. *)
Definition dl_assign (id src : nat) : L unit :=
  if Nat.eqb id src then ret tt else
  ll_clear id ;;;
  p <- ld_next (Head src) ;; p <- nonnull p ;;
  (fun s => dl_copy_loop (S (size (l_cells s))) id p (Head src) s).
(** operator=(DoublyLinkedList&&): 85-93. *)
Definition dl_move (id src : nat) : L unit :=
  if Nat.eqb id src then ret tt else
  ll_move id src ;;;
  p <- ld_prev (Head id) ;; p <- nonnull p ;; st_next p (Some (Head id)) ;;;
  n <- ld_next (Head id) ;; n <- nonnull n ;; st_prev n (Some (Head id)).
(** DoublyLinkedList(n, obj): 74. *)
Fixpoint dl_fill_loop (n id : nat) (a : A) : L unit :=
  match n with O => ret tt | S n => dl_push_back id a ;;; dl_fill_loop n id a end.

(** ** SinglyLinkedList.hpp *)
(** back(): 101-104. *)
Definition sl_back (id : nat) : L A :=
  k <- ld_size id ;; dassert (Nat.ltb 0 k) ;;; p <- ld_tail id ;; ld_dat p.
(** push_back: 106-117. *)
Definition sl_push_back (id : nat) (a : A) : L unit :=
  st_dat (Head id) a ;;; n <- new_node id ;;
  t <- ld_tail id ;; link_add t n ;;;
  k <- ld_size id ;; st_size id (S k) ;;; st_tail id n.
(** push_front: 119-123; pop_front: 125-129; clear: 131-134. *)
Definition sl_push_front (id : nat) (a : A) : L unit :=
  ll_push_front id a ;;; k <- ld_size id ;;
  if Nat.eqb k 1 then p <- ld_next (Head id) ;; p <- nonnull p ;; st_tail id p else ret tt.
Definition sl_pop_front (id : nat) : L unit :=
  ll_pop_front id ;;; k <- ld_size id ;; if Nat.eqb k 0 then st_tail id (Head id) else ret tt.
Definition sl_clear (id : nat) : L unit := ll_clear id ;;; st_tail id (Head id).
(** The loop of _pop_back: 140-142. *)
Fixpoint sl_find_prev (fuel : nat) (cur target : ptr) : L ptr :=
  match fuel with
  | O => diverge
  | S f => n <- ld_next cur ;;
           if bool_decide (n = Some target) then ret cur
           else n <- nonnull n ;; sl_find_prev f n target
  end.
(** _pop_back: 137-150. *)
Definition sl_pop_back (id : nat) : L unit :=
  k <- ld_size id ;; dassert (Nat.ltb 0 k) ;;;
  t <- ld_tail id ;;
  link <- (fun s => sl_find_prev (S (size (l_cells s))) (Head id) t s) ;;
  free_node t ;;; st_size id (k - 1) ;;; st_tail id link ;;; st_next link (Some (Head id)).
(** The loop of operator=(const SinglyLinkedList&): 76-81.  The inner [nodePtr]
    shadows the outer one, which keeps pointing to the first node. *)
Fixpoint sl_copy_loop (fuel : nat) (id : nat) (node next stop : ptr) : L unit :=
  match fuel with
  | O => diverge
  | S f => if bool_decide (next = stop) then ret tt
           else a <- ld_dat node ;; sl_push_back id a ;;;
                n <- ld_next next ;; n <- nonnull n ;; sl_copy_loop f id node n stop
  end.
(** operator=(const SinglyLinkedList&): 69-86. *)
Definition sl_assign (id src : nat) : L unit :=
  if Nat.eqb id src then ret tt else
  sl_clear id ;;; n <- ld_size src ;;
  if Nat.eqb n 0 then ret tt
  else
    link <- ld_next (Head src) ;; link <- nonnull link ;;
    next <- ld_next link ;; next <- nonnull next ;;
    (fun s => sl_copy_loop (S (size (l_cells s))) id link next (Head src) s) ;;;
    a <- ld_dat link ;; sl_push_back id a ;;; st_tail id link.
(** operator=(SinglyLinkedList&&): 88-96. *)
Definition sl_move (id src : nat) : L unit :=
  if Nat.eqb id src then ret tt else
  ll_move id src ;;; t <- ld_tail src ;; st_tail id t ;;;
  st_next t (Some (Head id)) ;;; st_tail src (Head src).
(** SinglyLinkedList(n, obj): 63-67. *)
Fixpoint sl_fill_loop (n id : nat) (a : A) : L unit :=
  match n with O => ret tt | S n => sl_push_back id a ;;; sl_fill_loop n id a end.

End Model.

(** Calls a client can make on either kind of list. *)
Inductive lop (A : Type) :=
| LNew (id : nat) | LFill (id n : nat) (a : A)
| LCopyNew (id src : nat) | LMoveNew (id src : nat) | LAssign (id src : nat) | LMoveAssign (id src : nat)
| LDestroy (id : nat) | LClear (id : nat)
| LPushFront (id : nat) (a : A) | LPushBack (id : nat) (a : A) | LPopFront (id : nat) | LPopBack (id : nat)
| LPush (id : nat) (a : A) | LPop (id : nat)
| LFront (id : nat) | LBack (id : nat) | LSize (id : nat) | LEmpty (id : nat) | LIter (id : nat) | LRIter (id : nat).
Arguments LNew {A} id.
Arguments LFill {A} id n a.
Arguments LCopyNew {A} id src.
Arguments LMoveNew {A} id src.
Arguments LAssign {A} id src.
Arguments LMoveAssign {A} id src.
Arguments LDestroy {A} id.
Arguments LClear {A} id.
Arguments LPushFront {A} id a.
Arguments LPushBack {A} id a.
Arguments LPopFront {A} id.
Arguments LPopBack {A} id.
Arguments LPush {A} id a.
Arguments LPop {A} id.
Arguments LFront {A} id.
Arguments LBack {A} id.
Arguments LSize {A} id.
Arguments LEmpty {A} id.
Arguments LIter {A} id.
Arguments LRIter {A} id.

Section Step.
Context {A : Type} (junk : A).
Notation L := (M (lst A)).
Definition unit_out (m : L unit) : L (out A) := m ;;; ret RUnit.

(** One call on doubly linked lists; push/pop: LinkedList.hpp 85-87, 100-102. *)
Definition dl_step (o : lop A) : L (out A) :=
  match o with
  | LNew id => unit_out (ll_init junk true id)
  | LFill id n a => unit_out (ll_init junk true id ;;; dl_fill_loop true n id a)
  | LCopyNew id src => unit_out (ll_init junk true id ;;; dl_assign true id src)
  | LMoveNew id src => unit_out (ll_init junk true id ;;; dl_move true id src)
  | LAssign id src => unit_out (dl_assign true id src)
  | LMoveAssign id src => unit_out (dl_move true id src)
  | LDestroy id => unit_out (ll_destroy true id)
  | LClear id => unit_out (ll_clear true id)
  | LPushFront id a | LPush id a => unit_out (ll_push_front true id a)
  | LPushBack id a => unit_out (dl_push_back true id a)
  | LPopFront id | LPop id => unit_out (ll_pop_front true id)
  | LPopBack id => unit_out (dl_pop_back true id)
  | LFront id => a <- ll_front id ;; ret (RVal a)
  | LBack id => a <- dl_back id ;; ret (RVal a)
  | LSize id => n <- ld_size id ;; ret (RNat n)
  | LEmpty id => b <- ll_empty id ;; ret (RBool b)
  | LIter id => l <- ll_iter id ;; ret (RList l)
  | LRIter id => l <- dl_riter id ;; ret (RList l)
  end.

(** One call on singly linked lists.  push and pop are inherited from
    LinkedList_ and call its push_front/pop_front, which are not virtual:
    LinkedList.hpp 85-87, 100-102.  There is no backward iteration. *)
Definition sl_step (o : lop A) : L (out A) :=
  match o with
  | LNew id => unit_out (ll_init junk false id)
  | LFill id n a => unit_out (ll_init junk false id ;;; sl_fill_loop false n id a)
  | LCopyNew id src => unit_out (ll_init junk false id ;;; sl_assign false id src)
  | LMoveNew id src => unit_out (ll_init junk false id ;;; sl_move false id src)
  | LAssign id src => unit_out (sl_assign false id src)
  | LMoveAssign id src => unit_out (sl_move false id src)
  | LDestroy id => unit_out (ll_destroy false id)
  | LClear id => unit_out (sl_clear false id)
  | LPushFront id a => unit_out (sl_push_front false id a)
  | LPush id a => unit_out (ll_push_front false id a)
  | LPushBack id a => unit_out (sl_push_back false id a)
  | LPopFront id => unit_out (sl_pop_front false id)
  | LPop id => unit_out (ll_pop_front false id)
  | LPopBack id => unit_out (sl_pop_back id)
  | LFront id => a <- ll_front id ;; ret (RVal a)
  | LBack id => a <- sl_back id ;; ret (RVal a)
  | LSize id => n <- ld_size id ;; ret (RNat n)
  | LEmpty id => b <- ll_empty id ;; ret (RBool b)
  | LIter id => l <- ll_iter id ;; ret (RList l)
  | LRIter id => ub
  end.

End Step.
