(** Model of core/ds/tree/: tree-base.hpp, EmbeddedBinaryTree.hpp, BinaryTree.hpp,
    BinarySearchTreeBase.hpp, BinarySearchTree.hpp, AVLTree.hpp, and of
    core/ds/Map.hpp.

    Memory: a map from addresses to tree nodes.  A freed node is absent, so
    touching one is undefined behaviour; so is following a null pointer.
    to_node/to_link/data_to_link (tree-base.hpp 28-39) convert between a node and
    its members and are the identity here, also on null (where the code computes
    the address of a member of a null object, the usual offsetof idiom), and
    _sync (BinaryTree.hpp 85-87, AVLTree.hpp 74-79) caches an address derived
    from the link, so two iterators are equal when their links are. *)
From Verif Require Import Base Alloc.

(** BinaryTreeLink_ (EmbeddedBinaryTree.hpp 26-33) and the data of TreeNode
    (tree-base.hpp 18-20).  AVLTree's data is AVLData_ (AVLTree.hpp 19-27), an int
    [height] beside the value; BinarySearchTree has no height and never uses the
    field.  Heights are unbounded here; that they stay small is C38. *)
Record node (A : Type) := Nd {
  n_par : option nat; n_left : option nat; n_right : option nat; n_h : Z; n_val : A }.
Arguments Nd {A} _ _ _ _ _.
Arguments n_par {A} _.
Arguments n_left {A} _.
Arguments n_right {A} _.
Arguments n_h {A} _.
Arguments n_val {A} _.

(** The nodes in memory, their allocator (Alloc.v), and the members mRootPtr_d
    and mSize_d (BinaryTree.hpp 223-224) of the tree object whose method runs.
    mSize_d is a size_t; counting is exact here. *)
Record tst (A : Type) := TSt {
  t_heap : gmap nat (node A); t_al : alloc; t_root : option nat; t_size : Z }.
Arguments TSt {A} _ _ _ _.
Arguments t_heap {A} _.
Arguments t_al {A} _.
Arguments t_root {A} _.
Arguments t_size {A} _.

(** BinaryTree::TraversalType, BinaryTree.hpp 100-104. *)
Inductive ttype := PreOrder | InOrder | PostOrder.

Section Model.
Context {A : Type}.
Notation T := (M (tst A)).
Notation ptr := (option nat).

(** Reading and writing the members of a node through a pointer. *)
Definition ldn (p : ptr) : T (node A) := fun s =>
  match p with
  | Some a => match t_heap s !! a with Some n => Ok (n, s) | None => UB end
  | None => UB
  end.
Definition stn (p : ptr) (n : node A) : T unit := fun s =>
  match p with
  | Some a => match t_heap s !! a with
              | Some _ => Ok (tt, TSt (<[a := n]> (t_heap s)) (t_al s) (t_root s) (t_size s))
              | None => UB
              end
  | None => UB
  end.
Definition ld_par (p : ptr) : T ptr := n <- ldn p ;; ret (n_par n).
Definition ld_left (p : ptr) : T ptr := n <- ldn p ;; ret (n_left n).
Definition ld_right (p : ptr) : T ptr := n <- ldn p ;; ret (n_right n).
Definition ld_h (p : ptr) : T Z := n <- ldn p ;; ret (n_h n).
Definition ld_val (p : ptr) : T A := n <- ldn p ;; ret (n_val n).
Definition st_par (p q : ptr) : T unit := n <- ldn p ;; stn p (Nd q (n_left n) (n_right n) (n_h n) (n_val n)).
Definition st_left (p q : ptr) : T unit := n <- ldn p ;; stn p (Nd (n_par n) q (n_right n) (n_h n) (n_val n)).
Definition st_right (p q : ptr) : T unit := n <- ldn p ;; stn p (Nd (n_par n) (n_left n) q (n_h n) (n_val n)).
Definition st_h (p : ptr) (h : Z) : T unit := n <- ldn p ;; stn p (Nd (n_par n) (n_left n) (n_right n) h (n_val n)).
Definition st_val (p : ptr) (x : A) : T unit := n <- ldn p ;; stn p (Nd (n_par n) (n_left n) (n_right n) (n_h n) x).
Definition when (b : bool) (m : T unit) : T unit := if b then m else ret tt.
Definition is_null (p : ptr) : bool := match p with None => true | Some _ => false end.
Definition ptr_eqb (p q : ptr) : bool := bool_decide (p = q).

(** AllocNode_::allocate() and construct(.., Node_(x)): AVLTree.hpp 217-218,
    BinarySearchTree.hpp 166-168; links null (EmbeddedBinaryTree.hpp 32), height 0
    (AVLTree.hpp 25).  A refused request gives a null pointer, on which construct
    crashes (core/common.hpp 54-58). *)
Definition new_node (x : A) : T ptr := fun s =>
  match al_pick (t_al s) with
  | Some a => Ok (Some a, TSt (<[a := Nd None None None 0 x]> (t_heap s)) (al_got a (t_al s)) (t_root s) (t_size s))
  | None => Abort
  end.
(** destroy(nPtr); AllocNode_::deallocate(nPtr): BinaryTree.hpp 205-206,
    AVLTree.hpp 356-357, BinarySearchTree.hpp 232-233. *)
Definition free_node (p : ptr) : T unit := fun s =>
  match p with
  | Some a => match t_heap s !! a with
              | Some _ => Ok (tt, TSt (delete a (t_heap s)) (al_gave a (t_al s)) (t_root s) (t_size s))
              | None => UB
              end
  | None => UB
  end.
(** this->mRootPtr_d and this->mSize_d. *)
Definition ld_root : T ptr := fun s => Ok (t_root s, s).
Definition st_root (p : ptr) : T unit := fun s => Ok (tt, TSt (t_heap s) (t_al s) p (t_size s)).
Definition ld_size : T Z := fun s => Ok (t_size s, s).
Definition st_size (n : Z) : T unit := fun s => Ok (tt, TSt (t_heap s) (t_al s) (t_root s) n).

(** Fuel for loops and recursions over the nodes: more than there are nodes, so
    running out means walking in a circle. *)
Definition fuel : T nat := fun s => Ok (S (S (size (t_heap s))), s).

(** ** EmbeddedBinaryTree.hpp *)
(** left_rotate: 35-48. *)
Definition left_rotate (root : ptr) : T ptr :=
  newRoot <- ld_right root ;;
  p <- ld_par root ;; st_par newRoot p ;;;
  l <- ld_left newRoot ;; st_right root l ;;;
  l <- ld_left newRoot ;; when (negb (is_null l)) (st_par l root) ;;;
  st_par root newRoot ;;; st_left newRoot root ;;; ret newRoot.
(** right_rotate: 50-63. *)
Definition right_rotate (root : ptr) : T ptr :=
  newRoot <- ld_left root ;;
  p <- ld_par root ;; st_par newRoot p ;;;
  r <- ld_right newRoot ;; st_left root r ;;;
  r <- ld_right newRoot ;; when (negb (is_null r)) (st_par r root) ;;;
  st_par root newRoot ;;; st_right newRoot root ;;; ret newRoot.

(** height: 65-74. *)
Fixpoint height_loop (f : nat) (root : ptr) : T Z :=
  match f with
  | O => diverge
  | S f =>
      match root with
      | None => ret 0%Z
      | Some _ =>
          l <- ld_left root ;; lh <- height_loop f l ;;
          r <- ld_right root ;; rh <- height_loop f r ;;
          ret ((if (rh <? lh)%Z then lh else rh) + 1)%Z
      end
  end.

(** The loop of 91-96: up to the first parent with another right child. *)
Fixpoint up_pre (f : nat) (link : ptr) : T ptr :=
  match f with
  | O => diverge
  | S f =>
      p <- ld_par link ;;
      if is_null p then ret None
      else r <- ld_right p ;;
           if negb (is_null r) && negb (ptr_eqb r link) then ret r else up_pre f p
  end.
(** next_preorder: 76-98. *)
Definition next_preorder (link : ptr) : T ptr :=
  if is_null link then ret None else
  l <- ld_left link ;;
  if negb (is_null l) then ret l else
  r <- ld_right link ;;
  if negb (is_null r) then ret r else
  f <- fuel ;; up_pre f link.

(** The loop of 116-118 (and of BinaryTree.hpp 215-217): leftmost from [link]. *)
Fixpoint down_left (f : nat) (link : ptr) : T ptr :=
  match f with
  | O => diverge
  | S f => l <- ld_left link ;; if is_null l then ret link else down_left f l
  end.
(** The loop of 122-124: up while not a left child, then the parent (126). *)
Fixpoint up_in (f : nat) (link : ptr) : T ptr :=
  match f with
  | O => diverge
  | S f =>
      p <- ld_par link ;;
      if is_null p then ret p
      else l <- ld_left p ;; if ptr_eqb l link then ret p else up_in f p
  end.
(** next_inorder: 109-127. *)
Definition next_inorder (link : ptr) : T ptr :=
  if is_null link then ret None else
  r <- ld_right link ;;
  f <- fuel ;;
  if negb (is_null r) then down_left f r else up_in f link.

(** The loop of 145-151: down to a leaf, leftwards when possible. *)
Fixpoint down_leaf (f : nat) (link : ptr) : T ptr :=
  match f with
  | O => diverge
  | S f =>
      l <- ld_left link ;;
      if negb (is_null l) then down_leaf f l else
      r <- ld_right link ;;
      if negb (is_null r) then down_leaf f r else ret link
  end.
(** The loop of 156-158 and 159: up while a right child, then the parent. *)
Fixpoint up_post (f : nat) (link : ptr) : T ptr :=
  match f with
  | O => diverge
  | S f =>
      p <- ld_par link ;;
      if is_null p then ret p
      else r <- ld_right p ;; if ptr_eqb r link then up_post f p else ret p
  end.
(** next_postorder: 138-160. *)
Definition next_postorder (link : ptr) : T ptr :=
  if is_null link then ret None else
  r <- ld_right link ;;
  f <- fuel ;;
  if negb (is_null r) then down_leaf f r else up_post f link.

(** preorder_traversal 100-107, inorder_traversal 129-136, postorder_traversal
    162-169.  The callback returns something; the traversal returns what the
    calls returned, in the order of the calls. *)
Fixpoint traverse {X} (tt : ttype) (f : nat) (root : ptr) (cb : ptr -> T X) : T (list X) :=
  match f with
  | O => diverge
  | S f =>
      if is_null root then ret [] else
      match tt with
      | PreOrder =>
          x <- cb root ;;
          l <- ld_left root ;; xs <- traverse tt f l cb ;;
          r <- ld_right root ;; ys <- traverse tt f r cb ;; ret (x :: xs ++ ys)
      | InOrder =>
          l <- ld_left root ;; xs <- traverse tt f l cb ;;
          x <- cb root ;;
          r <- ld_right root ;; ys <- traverse tt f r cb ;; ret (xs ++ x :: ys)
      | PostOrder =>
          l <- ld_left root ;; xs <- traverse tt f l cb ;;
          r <- ld_right root ;; ys <- traverse tt f r cb ;;
          x <- cb root ;; ret (xs ++ ys ++ [x])
      end
  end.

(** ** BinaryTree.hpp *)
(** first_node: 212-220. *)
Definition first_node (root : ptr) (t : ttype) : T ptr :=
  match t with
  | PreOrder => ret root
  | _ => f <- fuel ;; down_left f root
  end.
(** BinaryTree(nullptr, 0): 111; AVLTree.hpp 110, BinarySearchTree.hpp 33. *)
Definition bt_init : T unit := st_root None ;;; st_size 0.
(** empty 124-126, size 128-131, capacity 133-136. *)
Definition bt_empty : T bool := n <- ld_size ;; ret (n =? 0)%Z.
Definition bt_size : T Z := ld_size.
Definition bt_capacity : T Z := ld_size.
(** clear(Node_ *&): 201-210. *)
Definition bt_clear_nodes : T unit :=
  r <- ld_root ;;
  when (negb (is_null r)) (f <- fuel ;; traverse PostOrder f r free_node ;;; ret tt) ;;;
  st_root None.
(** clear: 138-141; the destructor, 118-121, does the same. *)
Definition bt_clear : T unit := bt_clear_nodes ;;; st_size 0.
Definition bt_destroy : T unit := bt_clear_nodes ;;; st_size 0.
(** _update_root: 226-231. *)
Definition update_root (root : ptr) : T unit :=
  st_root root ;;; when (negb (is_null root)) (st_par root None).
(** traversal: 148-169; the callback gets the data of each node. *)
Definition bt_traversal (t : ttype) : T (list A) :=
  r <- ld_root ;; p <- first_node r t ;; f <- fuel ;; traverse t f p ld_val.

(** BinaryTreeIterator_ (18-92): a link and the next function selected by
    _create_iterator (233-251); operator++ 70-74; equality compares links. *)
Definition next_of (t : ttype) : ptr -> T ptr :=
  match t with PreOrder => next_preorder | InOrder => next_inorder | PostOrder => next_postorder end.
(** begin: 173-175 (BinarySearchTree.hpp 124-133); end, 177-179, is the null link. *)
Definition bt_begin (t : ttype) : T ptr := r <- ld_root ;; first_node r t.
(** for (it = p; it != end; ++it): the values used, in order. *)
Fixpoint iter_from (t : ttype) (f : nat) (p : ptr) : T (list A) :=
  match f with
  | O => diverge
  | S f =>
      if is_null p then ret [] else
      x <- ld_val p ;; q <- next_of t p ;; xs <- iter_from t f q ;; ret (x :: xs)
  end.
(** range-for from begin(t) to end(t). *)
Definition bt_iterate (t : ttype) : T (list A) := p <- bt_begin t ;; f <- fuel ;; iter_from t f p.

Context (cmp : A -> A -> bool).

(** ** BinarySearchTreeBase.hpp *)
(** _find: 21-37. *)
Fixpoint find_loop (f : nat) (target : ptr) (x : A) : T ptr :=
  match f with
  | O => diverge
  | S f =>
      if is_null target then ret target else
      v <- ld_val target ;;
      if cmp x v then l <- ld_left target ;; find_loop f l x
      else if cmp v x then r <- ld_right target ;; find_loop f r x
      else ret target
  end.
(** BinarySearchTree::find (BinarySearchTree.hpp 86-93), AVLTree::find
    (AVLTree.hpp 129-138; AVLDataCMP_, 30-40, compares the values).  The iterator
    returned is an in-order one. *)
Definition bt_find (x : A) : T ptr := r <- ld_root ;; f <- fuel ;; find_loop f r x.

(** ** BinarySearchTree.hpp *)
(** The loop of _insert: 152-163.  Left: an equivalent node; right: the parent
    to hang a new node under. *)
Fixpoint bst_descend (f : nat) (target parent : ptr) (x : A) : T (ptr + ptr) :=
  match f with
  | O => diverge
  | S f =>
      if is_null target then ret (inr parent) else
      v <- ld_val target ;;
      if cmp x v then l <- ld_left target ;; bst_descend f l target x
      else if cmp v x then r <- ld_right target ;; bst_descend f r target x
      else ret (inl target)
  end.
(** _insert: 146-187. *)
Definition bst_insert (x : A) : T ptr :=
  r <- ld_root ;; f <- fuel ;; d <- bst_descend f r None x ;;
  match d with
  | inl target => ret target
  | inr parent =>
      new <- new_node x ;;
      when (negb (is_null parent)) (
        st_par new parent ;;;
        v <- ld_val parent ;;
        sub <- (if cmp x v then
                  sub <- ld_left parent ;; st_left parent new ;;; st_left new sub ;;; ret sub
                else
                  sub <- ld_right parent ;; st_right parent new ;;; st_right new sub ;;; ret sub) ;;
        when (negb (is_null sub)) (st_par sub new)) ;;;
      ret new
  end.
(** push: 69-74. *)
Definition bst_push (x : A) : T unit :=
  t <- bst_insert x ;;
  r <- ld_root ;; when (is_null r) (update_root t) ;;;
  n <- ld_size ;; st_size (n + 1).
(** The loop of 212-214 (it walks while there is NO left child). *)
Fixpoint bst_down (f : nat) (tmp : ptr) : T ptr :=
  match f with
  | O => diverge
  | S f => l <- ld_left tmp ;; if is_null l then bst_down f l else ret tmp
  end.
(** _delete: 189-200, _try_to_delete: 202-237.  [obj] is passed by reference in
    the code, and 221 passes a member of a node of the tree: it is not read again
    after that node has been changed. *)
Fixpoint bst_delete (f : nat) (root : ptr) (x : A) : T ptr :=
  match f with
  | O => diverge
  | S f =>
      v <- ld_val root ;;
      if cmp x v then
        l <- ld_left root ;; l' <- bst_delete f l x ;; st_left root l' ;;; ret root
      else if cmp v x then
        r <- ld_right root ;; r' <- bst_delete f r x ;; st_right root r' ;;; ret root
      else bst_try_delete f root
  end
with bst_try_delete (f : nat) (link : ptr) : T ptr :=
  match f with
  | O => diverge
  | S f =>
      l <- ld_left link ;; r <- ld_right link ;;
      if negb (is_null l) && negb (is_null r) then
        tmp <- ld_right link ;; g <- fuel ;; tmp <- bst_down g tmp ;;
        v <- ld_val tmp ;; st_val link v ;;;
        r <- ld_right link ;; v <- ld_val tmp ;;
        r' <- bst_delete f r v ;; st_right link r' ;;; ret link
      else
        let sub := if is_null l then r else l in
        when (negb (is_null sub)) (p <- ld_par link ;; st_par sub p) ;;;
        free_node link ;;;
        n <- ld_size ;; st_size (n - 1) ;;; ret sub
  end.
(** Fuel for the mutual recursion: two calls per node. *)
Definition fuel2 : T nat := f <- fuel ;; ret (f + f).
(** pop: 76-83. *)
Definition bst_pop (x : A) : T unit :=
  n <- ld_size ;; if (n =? 0)%Z then ret tt else
  r <- ld_root ;; f <- fuel2 ;; r' <- bst_delete f r x ;;
  r <- ld_root ;; when (negb (ptr_eqb r r')) (update_root r').
(** erase: 95-120, for an iterator with next function [t]. *)
Definition bst_erase (t : ttype) (it : ptr) : T ptr :=
  let target := it in
  parent <- ld_par target ;;
  next <- next_of t it ;;
  f <- fuel2 ;; tree <- bst_try_delete f target ;;
  if negb (ptr_eqb target tree) then
    if is_null parent then update_root tree ;;; ret next
    else
      l <- ld_left parent ;;
      (if ptr_eqb l target then st_left parent tree else st_right parent tree) ;;;
      ret next
  else ret it.

(** ** AVLTree.hpp *)
(** _height: 339-343. *)
Definition avl_h (p : ptr) : T Z := if is_null p then ret 0%Z else ld_h p.
(** _update_height: 345-348. *)
Definition avl_update_height (p : ptr) : T unit :=
  l <- ld_left p ;; hl <- avl_h l ;; r <- ld_right p ;; hr <- avl_h r ;;
  st_h p (Z.max hl hr + 1).
(** _balance_factor: 350-352. *)
Definition avl_bf (p : ptr) : T Z :=
  if is_null p then ret 0%Z
  else l <- ld_left p ;; hl <- avl_h l ;; r <- ld_right p ;; hr <- avl_h r ;; ret (hl - hr)%Z.
(** _left_rotate: 443-450.  Line 448 reads the height of the new root's left
    child twice instead of its right child's. *)
Definition avl_left_rotate (root : ptr) : T ptr :=
  root <- left_rotate root ;;
  ln <- ld_left root ;;
  ll <- ld_left ln ;; hll <- avl_h ll ;; lr <- ld_right ln ;; hlr <- avl_h lr ;;
  st_h ln (Z.max hll hlr + 1) ;;;
  hl <- ld_h ln ;; l <- ld_left root ;; hl' <- avl_h l ;;
  st_h root (Z.max hl hl' + 1) ;;; ret root.
(** _right_rotate: 452-459. *)
Definition avl_right_rotate (root : ptr) : T ptr :=
  root <- right_rotate root ;;
  rn <- ld_right root ;;
  rl <- ld_left rn ;; hrl <- avl_h rl ;; rr <- ld_right rn ;; hrr <- avl_h rr ;;
  st_h rn (Z.max hrl hrr + 1) ;;;
  l <- ld_left root ;; hl <- avl_h l ;; hr <- ld_h rn ;;
  st_h root (Z.max hl hr + 1) ;;; ret root.
(** _check_and_balance: 176-190. *)
Definition avl_check_balance (root : ptr) : T ptr :=
  b <- avl_bf root ;;
  if (1 <? b)%Z then
    l <- ld_left root ;; bl <- avl_bf l ;;
    when (bl <? 0)%Z (l <- ld_left root ;; l' <- avl_left_rotate l ;; st_left root l') ;;;
    avl_right_rotate root
  else if (b <? -1)%Z then
    r <- ld_right root ;; br <- avl_bf r ;;
    when (0 <? br)%Z (r <- ld_right root ;; r' <- avl_right_rotate r ;; st_right root r') ;;;
    avl_left_rotate root
  else ret root.
(** _insert: 213-248. *)
Fixpoint avl_insert (f : nat) (root : ptr) (x : A) (parent : ptr) : T ptr :=
  match f with
  | O => diverge
  | S f =>
      root <- (
        if is_null root then
          n <- new_node x ;; st_par n parent ;;; ret n
        else
          v <- ld_val root ;;
          if cmp x v then
            l <- ld_left root ;; l' <- avl_insert f l x root ;; st_left root l' ;;;
            l <- ld_left root ;; hl <- avl_h l ;; r <- ld_right root ;; hr <- avl_h r ;;
            if (hl - hr =? 2)%Z then
              l <- ld_left root ;; lv <- ld_val l ;;
              when (cmp lv x) (l <- ld_left root ;; l' <- avl_left_rotate l ;; st_left root l') ;;;
              avl_right_rotate root
            else ret root
          else if cmp v x then
            r <- ld_right root ;; r' <- avl_insert f r x root ;; st_right root r' ;;;
            r <- ld_right root ;; hr <- avl_h r ;; l <- ld_left root ;; hl <- avl_h l ;;
            if (hr - hl =? 2)%Z then
              r <- ld_right root ;; rv <- ld_val r ;;
              when (cmp x rv) (r <- ld_right root ;; r' <- avl_right_rotate r ;; st_right root r') ;;;
              avl_left_rotate root
            else ret root
          else abort) ;;
      avl_update_height root ;;; ret root
  end.
(** push: 113-117. *)
Definition avl_push (x : A) : T unit :=
  r <- ld_root ;; f <- fuel ;; r' <- avl_insert f r x None ;;
  update_root r' ;;; n <- ld_size ;; st_size (n + 1).
(** _swap_node: 362-441; the parameters are references, the result is their
    final values. *)
Definition avl_swap_node (a b : ptr) : T (ptr * ptr) :=
  ap <- ld_par a ;;
  let a' := if ptr_eqb ap b then b else a in
  let b' := if ptr_eqb ap b then a else b in
  let a := a' in let b := b' in
  aP <- ld_par a ;; aL <- ld_left a ;; aR <- ld_right a ;;
  bP <- ld_par b ;; bL <- ld_left b ;; bR <- ld_right b ;;
  (if ptr_eqb bP a then
    st_par b aP ;;;
    ar <- ld_right a ;;
    (if ptr_eqb ar b then
      st_left b aL ;;; st_right b a ;;;
      when (negb (is_null aL)) (st_par aL b)
    else
      st_left b a ;;; st_right b aR ;;;
      when (negb (is_null aR)) (st_par aR b)) ;;;
    st_right a bR ;;; st_left a bL ;;; st_par a b ;;;
    when (negb (is_null aP)) (l <- ld_left aP ;; when (ptr_eqb l a) (st_left aP b)) ;;;
    when (negb (is_null aP)) (r <- ld_right aP ;; when (ptr_eqb r a) (st_right aP b)) ;;;
    when (negb (is_null bR)) (st_par bR a) ;;;
    when (negb (is_null bL)) (st_par bL a)
  else
    when (negb (is_null aP)) (l <- ld_left aP ;; when (ptr_eqb l a) (st_left aP b)) ;;;
    when (negb (is_null aP)) (r <- ld_right aP ;; when (ptr_eqb r a) (st_right aP b)) ;;;
    st_par b aP ;;;
    when (negb (is_null bP)) (l <- ld_left bP ;; when (ptr_eqb l b) (st_left bP a)) ;;;
    when (negb (is_null bP)) (r <- ld_right bP ;; when (ptr_eqb r b) (st_right bP a)) ;;;
    st_par a bP ;;;
    when (negb (is_null aL)) (st_par aL b) ;;;
    when (negb (is_null aR)) (st_par aR b) ;;;
    st_left b aL ;;; st_right b aR ;;;
    when (negb (is_null bL)) (st_par bL a) ;;;
    when (negb (is_null bR)) (st_par bR a) ;;;
    st_left a bL ;;; st_right a bR) ;;;
  ha <- ld_h a ;; hb <- ld_h b ;; st_h a hb ;;; st_h b ha ;;;
  let '(a, b) := (b, a) in
  p <- ld_par a ;; when (is_null p) (update_root a) ;;;
  p <- ld_par b ;; when (is_null p) (update_root b) ;;;
  ret (a, b).
(** _real_delete: 354-359. *)
Definition avl_real_delete (p : ptr) : T unit :=
  free_node p ;;; n <- ld_size ;; st_size (n - 1).
(** _delete: 299-336. *)
Fixpoint avl_delete (f : nat) (root : ptr) (x : A) : T ptr :=
  match f with
  | O => diverge
  | S f =>
      v <- ld_val root ;;
      if cmp x v then
        l <- ld_left root ;; l' <- avl_delete f l x ;; st_left root l' ;;;
        avl_update_height root ;;; avl_check_balance root
      else if cmp v x then
        r <- ld_right root ;; r' <- avl_delete f r x ;; st_right root r' ;;;
        avl_update_height root ;;; avl_check_balance root
      else
        l <- ld_left root ;; r <- ld_right root ;;
        if negb (is_null l) && negb (is_null r) then
          target <- first_node r InOrder ;;
          ab <- avl_swap_node root target ;;
          let root := fst ab in
          r <- ld_right root ;; r' <- avl_delete f r x ;; st_right root r' ;;;
          avl_update_height root ;;; avl_check_balance root
        else
          let sub := if is_null l then r else l in
          when (negb (is_null sub)) (p <- ld_par root ;; st_par sub p) ;;;
          avl_real_delete root ;;; ret sub
  end.
(** pop: 119-125. *)
Definition avl_pop (x : A) : T unit :=
  n <- ld_size ;; if (n =? 0)%Z then ret tt else
  r <- ld_root ;; f <- fuel ;; r' <- avl_delete f r x ;;
  r <- ld_root ;; when (negb (ptr_eqb r r')) (update_root r').
(** _rebalance_after_delete: 192-211. *)
Fixpoint avl_rebalance (f : nat) (root : ptr) : T unit :=
  match f with
  | O => diverge
  | S f =>
      if is_null root then ret tt else
      parent <- ld_par root ;;
      newRoot <- avl_check_balance root ;;
      (if negb (is_null parent) then
         l <- ld_left parent ;;
         (if ptr_eqb l root then st_left parent newRoot else st_right parent newRoot) ;;;
         avl_update_height parent
       else when (negb (ptr_eqb newRoot root)) (update_root newRoot)) ;;;
      avl_rebalance f parent
  end.
(** _delete_by_target: 250-297. *)
Fixpoint avl_delete_target (f : nat) (target : ptr) : T ptr :=
  match f with
  | O => diverge
  | S f =>
      if is_null target then ret None else
      parent <- ld_par target ;; l <- ld_left target ;; r <- ld_right target ;;
      if is_null l && is_null r then
        when (negb (is_null parent)) (
          pl <- ld_left parent ;;
          (if ptr_eqb pl target then st_left parent None else st_right parent None) ;;;
          avl_update_height parent ;;;
          g <- fuel ;; avl_rebalance g parent) ;;;
        avl_real_delete target ;;; ret None
      else if negb (is_null l) && negb (is_null r) then
        succ <- first_node r InOrder ;;
        ab <- avl_swap_node target succ ;;
        avl_delete_target f (snd ab)
      else
        let child := if negb (is_null l) then l else r in
        st_par child parent ;;;
        when (negb (is_null parent)) (
          pl <- ld_left parent ;;
          (if ptr_eqb pl target then st_left parent child else st_right parent child) ;;;
          avl_update_height parent ;;;
          g <- fuel ;; avl_rebalance g parent) ;;;
        avl_real_delete target ;;; ret child
  end.
(** erase: 140-155; find's iterators are in-order ones and begin (163-166)
    ignores its argument, so [it] always is. *)
Definition avl_erase (it : ptr) : T ptr :=
  next <- next_inorder it ;;
  if is_null next then
    f <- fuel ;; avl_delete_target f it ;;; ret next
  else
    v <- ld_val next ;;
    f <- fuel ;; avl_delete_target f it ;;;
    bt_find v.
(** height: 157-159. *)
Definition avl_height : T Z := r <- ld_root ;; if is_null r then ret 0%Z else ld_h r.
(** begin 163-166, end 168-171: always in-order. *)
Definition avl_begin (t : ttype) : T ptr := bt_begin InOrder.
Definition avl_iterate (t : ttype) : T (list A) := p <- avl_begin t ;; f <- fuel ;; iter_from InOrder f p.
End Model.

(** ** Map.hpp: over an AVLTree of KeyValue pairs (18-27), compared by their
    keys (30-40).  [dflt] is ValueType(). *)
Section Map.
Context {K V : Type} (lt : K -> K -> bool) (dflt : V).
Notation T := (M (tst (K * V))).
(** KVCMPKey: 30-40. *)
Definition kv_cmp (a b : K * V) : bool := lt (fst a) (fst b).
(** find: 117-119. *)
Definition map_find (k : K) : T (option nat) := bt_find kv_cmp (k, dflt).
(** push: 89-91; pop: 93-95. *)
Definition map_push (k : K) (v : V) : T unit := avl_push kv_cmp (k, v).
Definition map_pop (k : K) : T unit := avl_pop kv_cmp (k, dflt).
(** operator[]: 103-114; the reference returned is the node it refers into. *)
Definition map_index (k : K) : T (option nat) :=
  target <- map_find k ;;
  if is_null target then
    avl_push kv_cmp (k, dflt) ;;; map_find k
  else map_find k.
(** Reading m[k] as a value; m[k] = v. *)
Definition map_get (k : K) : T V := p <- map_index k ;; kv <- ld_val p ;; ret (snd kv).
Definition map_set (k : K) (v : V) : T unit :=
  p <- map_index k ;; kv <- ld_val p ;; st_val p (fst kv, v).
End Map.
