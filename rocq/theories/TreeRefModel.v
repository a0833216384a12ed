(** AVLTree::push and AVLTree::pop called with the element an iterator is at:
    t.push( *it), t.pop( *it).  Both take their argument as a const T&, so the calls
    read the element of a node, of this tree or another, whenever they compare with
    it (AVLTree.hpp 113-125, 213-248, 299-336). *)
From Verif Require Import Base TreeModel TreeWorld TreeIterModel.

(** The calls and iterator operations of TreeIterModel.v, and the two calls. *)
Inductive xop (A : Type) :=
| XK (o : kop A)
| XPushAt (id k : nat) | XPopAt (id k : nat).
Arguments XK {A} o.
Arguments XPushAt {A} id k.
Arguments XPopAt {A} id k.

Section Model.
Context {A : Type} (cmp : A -> A -> bool).
Notation T := (M (tst A)).
Notation ptr := (option nat).

(** _insert: AVLTree.hpp 213-248; [e] is the node [element] refers into.  Line 218
    reads it after 217 has allocated, which changes no node: here it is read first. *)
Fixpoint avl_insert_at (f : nat) (root e parent : ptr) : T ptr :=
  match f with
  | O => diverge
  | S f =>
      root <- (
        if is_null root then
          x <- ld_val e ;; n <- new_node x ;; st_par n parent ;;; ret n
        else
          x <- ld_val e ;; v <- ld_val root ;;
          if cmp x v then
            l <- ld_left root ;; l' <- avl_insert_at f l e root ;; st_left root l' ;;;
            l <- ld_left root ;; hl <- avl_h l ;; r <- ld_right root ;; hr <- avl_h r ;;
            if (hl - hr =? 2)%Z then
              l <- ld_left root ;; lv <- ld_val l ;; x <- ld_val e ;;
              when (cmp lv x) (l <- ld_left root ;; l' <- avl_left_rotate l ;; st_left root l') ;;;
              avl_right_rotate root
            else ret root
          else
            v <- ld_val root ;; x <- ld_val e ;;
            if cmp v x then
              r <- ld_right root ;; r' <- avl_insert_at f r e root ;; st_right root r' ;;;
              r <- ld_right root ;; hr <- avl_h r ;; l <- ld_left root ;; hl <- avl_h l ;;
              if (hr - hl =? 2)%Z then
                x <- ld_val e ;; r <- ld_right root ;; rv <- ld_val r ;;
                when (cmp x rv) (r <- ld_right root ;; r' <- avl_right_rotate r ;; st_right root r') ;;;
                avl_left_rotate root
              else ret root
            else abort) ;;
      avl_update_height root ;;; ret root
  end.
(** push: 113-117. *)
Definition avl_push_at (e : ptr) : T unit :=
  r <- ld_root ;; f <- fuel ;; r' <- avl_insert_at f r e None ;;
  update_root r' ;;; n <- ld_size ;; st_size (n + 1).

(** _delete: 299-336; [e] is the node [obj] refers into, which may be the one that
    is deleted. *)
Fixpoint avl_delete_at (f : nat) (root e : ptr) : T ptr :=
  match f with
  | O => diverge
  | S f =>
      x <- ld_val e ;; v <- ld_val root ;;
      if cmp x v then
        l <- ld_left root ;; l' <- avl_delete_at f l e ;; st_left root l' ;;;
        avl_update_height root ;;; avl_check_balance root
      else
        v <- ld_val root ;; x <- ld_val e ;;
        if cmp v x then
          r <- ld_right root ;; r' <- avl_delete_at f r e ;; st_right root r' ;;;
          avl_update_height root ;;; avl_check_balance root
        else
          l <- ld_left root ;; r <- ld_right root ;;
          if negb (is_null l) && negb (is_null r) then
            target <- first_node r InOrder ;;
            ab <- avl_swap_node root target ;;
            let root := fst ab in
            r <- ld_right root ;; r' <- avl_delete_at f r e ;; st_right root r' ;;;
            avl_update_height root ;;; avl_check_balance root
          else
            let sub := if is_null l then r else l in
            when (negb (is_null sub)) (p <- ld_par root ;; st_par sub p) ;;;
            avl_real_delete root ;;; ret sub
  end.
(** pop: 119-125. *)
Definition avl_pop_at (e : ptr) : T unit :=
  n <- ld_size ;; if (n =? 0)%Z then ret tt else
  r <- ld_root ;; f <- fuel ;; r' <- avl_delete_at f r e ;;
  r <- ld_root ;; when (negb (ptr_eqb r r')) (update_root r').

(** One step.  operator* (spec/DStructSpec.hpp 91) gives a reference to the element
    of the iterator's node; taking it of an iterator at no live element is not
    defined, whether or not the call reads it. *)
Definition x_step (o : xop A) : M (kworld A) (tout A) :=
  match o with
  | XK o => kt_step cmp o
  | XPushAt id k => p <- get_kt k ;; on_trees (on_nodes (ldn p)) ;;; on_trees (on id (avl_push_at p)) ;;; ret OUnit
  | XPopAt id k => p <- get_kt k ;; on_trees (on_nodes (ldn p)) ;;; on_trees (on id (avl_pop_at p)) ;;; ret OUnit
  end.
End Model.
