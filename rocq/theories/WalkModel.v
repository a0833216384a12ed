(** ++ and begin() of tree iterators, counting rounds of their loops: the
    functions of TreeModel.v with each loop allowed a given number of rounds
    (one more and it is stopped, with Diverge).  A round follows at most two
    links and makes at most one comparison. *)
From Verif Require Import Base TreeModel.

Section Walk.
Context {A : Type}.
Notation T := (M (tst A)).

(** next_preorder, next_inorder, next_postorder: EmbeddedBinaryTree.hpp 76-98,
    109-127, 138-160, their one loop running at most [f] rounds. *)
Definition next_within (t : ttype) (f : nat) (link : option nat) : T (option nat) :=
  if is_null link then ret None else
  match t with
  | PreOrder =>
      l <- ld_left link ;;
      if negb (is_null l) then ret l else
      r <- ld_right link ;;
      if negb (is_null r) then ret r else up_pre f link
  | InOrder =>
      r <- ld_right link ;;
      if negb (is_null r) then down_left f r else up_in f link
  | PostOrder =>
      r <- ld_right link ;;
      if negb (is_null r) then down_leaf f r else up_post f link
  end.
(** first_node: BinaryTree.hpp 212-220, likewise. *)
Definition first_within (t : ttype) (f : nat) (root : option nat) : T (option nat) :=
  match t with PreOrder => ret root | _ => down_left f root end.
(** for (it = p; it != end(); ++it): the values used, in order; the numbers
    limit the loops of one ++ after the other, and there are no more of them
    than that (BinaryTree.hpp 70-74, 177-179). *)
Fixpoint walk (t : ttype) (fs : list nat) (p : option nat) : T (list A) :=
  match fs with
  | [] => if is_null p then ret [] else diverge
  | f :: fs =>
      if is_null p then ret [] else
      x <- ld_val p ;; q <- next_within t f p ;; xs <- walk t fs q ;; ret (x :: xs)
  end.
(** range-for from begin(t) (BinaryTree.hpp 173-175) to end(t). *)
Definition walk_all (t : ttype) (f0 : nat) (fs : list nat) : T (list A) :=
  r <- ld_root ;; p <- first_within t f0 r ;; walk t fs p.
End Walk.
