(** C96: how much work iterating over a tree is. *)
From Verif Require Import Base Alloc AllocProofs VectorModel VectorSpec Adapter Hist TreeModel TreeSpec TreeWorld TreeWSpec TreeBase BstWorld BstSpec WalkModel WalkSpec WalkProofs WalkWorld PropTree.

Local Open Scope nat_scope.

(** C96.  In-order iteration over any stored tree of n > 0 elements runs exactly
    2n rounds of the loops of begin() and ++, none of them more than the height
    of the tree: allowed these numbers of rounds it yields all elements, and
    allowed one fewer anywhere, or fewer than n times ++, it does not finish. *)
Theorem C96_inorder : forall (A : Type) (t : atree A) h f z, t <> Lf -> nd t -> linked h None t -> exists d0 ds,
  d0 + list_sum ds = 2 * length (elems t) /\ length ds = length (elems t) /\ Forall (fun d => (Z.of_nat d <= depth t)%Z) (d0 :: ds) /\
  forall f0 fs,
    (Forall2 le (d0 :: ds) (f0 :: firstn (length (elems t)) fs) -> walk_all InOrder f0 fs (TSt h f (rootp t) z) = Ok (elems t, TSt h f (rootp t) z)) /\
    (~ Forall2 le (d0 :: ds) (f0 :: firstn (length (elems t)) fs) -> walk_all InOrder f0 fs (TSt h f (rootp t) z) = Diverge).
Proof. exact @inorder_rounds. Qed.
Print Assumptions C96_inorder.

(** C96.  Pre-order iteration runs exactly n. *)
Theorem C96_preorder : forall (A : Type) (t : atree A) h f z, nd t -> linked h None t -> exists ds,
  list_sum ds = length (elems t) /\ length ds = length (elems t) /\ Forall (fun d => (Z.of_nat d <= depth t)%Z) ds /\
  forall f0 fs,
    (Forall2 le ds (firstn (length (elems t)) fs) -> walk_all PreOrder f0 fs (TSt h f (rootp t) z) = Ok (pre t, TSt h f (rootp t) z)) /\
    (~ Forall2 le ds (firstn (length (elems t)) fs) -> walk_all PreOrder f0 fs (TSt h f (rootp t) z) = Diverge).
Proof. exact @preorder_rounds. Qed.
Print Assumptions C96_preorder.

(** The limited ++ and begin() are the model's own, with another limit. *)
Theorem C96_same_next : forall (A : Type) (o : ttype) p (s : tst A), next_of o p s = next_within o (S (S (size (t_heap s)))) p s.
Proof. exact @next_same. Qed.
Print Assumptions C96_same_next.
Theorem C96_same_first : forall (A : Type) (o : ttype) p (s : tst A), first_node p o s = first_within o (S (S (size (t_heap s)))) p s.
Proof. exact @first_same. Qed.
Print Assumptions C96_same_first.

Example C96_case : exists t : atree nat, t <> Lf /\ nd t /\ linked ex_heap None t /\ elems t = [3; 5; 8] /\ depth t = 2%Z /\
  walk_all InOrder 2 [1; 1; 2] (TSt ex_heap (Alloc bump []) (rootp t) 3%Z) = Ok ([3; 5; 8], TSt ex_heap (Alloc bump []) (rootp t) 3%Z) /\
  walk_all InOrder 2 [1; 1; 1] (TSt ex_heap (Alloc bump []) (rootp t) 3%Z) = Diverge /\
  walk_all PreOrder 0 [0; 1; 2] (TSt ex_heap (Alloc bump []) (rootp t) 3%Z) = Ok ([5; 3; 8], TSt ex_heap (Alloc bump []) (rootp t) 3%Z) /\
  walk_all PreOrder 0 [0; 0; 2] (TSt ex_heap (Alloc bump []) (rootp t) 3%Z) = Diverge /\
  walk_all InOrder 2 [1; 1] (TSt ex_heap (Alloc bump []) (rootp t) 3%Z) = Diverge.
Proof.
  exists ex_tree. split; [discriminate|]. split; [apply ex_nd|]. split; [apply ex_linked|]. repeat split.
Qed.

(** C96.  After every specified history, range-for over an AVL tree of n > 0
    keys (or, as maps are such trees, over a map) runs 2n rounds in all, and a
    single ++ at most d of them, where 2^d <= (n+1)^2. *)
Theorem C96_avl : forall (A : Type) (cmp : A -> A -> bool), swo cmp -> forall (pol : policy), sound pol -> grants pol -> forall (ops : list (top A)) rs s id l,
  srun (ts_step cmp) ops ∅ = SVal (rs, s) -> s !! id = Some l -> l <> [] -> exists n d0 ds w w',
  mrun (t_step cmp) ops (tw_init pol) = Ok (rs, w) /\ 2 ^ n <= (length l + 1) * (length l + 1) /\
  d0 + list_sum ds = 2 * length l /\ length ds = length l /\ Forall (fun d => d <= n) (d0 :: ds) /\
  on id (walk_all InOrder d0 ds) w = Ok (l, w') /\ t_step cmp (TIter id) w = Ok (OList l, w').
Proof. exact @avl_rounds. Qed.
Print Assumptions C96_avl.

Example C96_avl_case : exists rs s, srun (ts_step Nat.ltb)
  [TNew 0; TPush 0 1; TPush 0 2; TPush 0 3; TPush 0 4; TPush 0 5; TPush 0 6; TPush 0 7; TPop 0 4] ∅ = SVal (rs, s) /\ s !! 0 = Some [1; 2; 3; 5; 6; 7].
Proof. do 2 eexists. split; [vm_compute; reflexivity|]. vm_compute. reflexivity. Qed.

(** C96.  The same for unbalanced search trees, where a single ++ takes at most
    as many rounds as the tree has levels. *)
Theorem C96_bst : forall (A : Type) (cmp : A -> A -> bool), swo cmp -> forall (pol : policy), sound pol -> grants pol -> forall ops rs s id (t : bt A),
  srun (bs_step cmp) ops ∅ = SVal (rs, s) -> s !! id = Some t -> t <> BE -> exists d0 ds w w',
  mrun (b_step cmp) ops (tw_init pol) = Ok (rs, w) /\
  d0 + list_sum ds = 2 * length (inorder t) /\ length ds = length (inorder t) /\ Forall (fun d => d <= levels t) (d0 :: ds) /\
  on id (walk_all InOrder d0 ds) w = Ok (inorder t, w') /\ b_step cmp (BIter id InOrder) w = Ok (OList (inorder t), w').
Proof. exact @bst_rounds. Qed.
Print Assumptions C96_bst.
Theorem C96_bst_preorder : forall (A : Type) (cmp : A -> A -> bool), swo cmp -> forall (pol : policy), sound pol -> grants pol -> forall ops rs s id (t : bt A),
  srun (bs_step cmp) ops ∅ = SVal (rs, s) -> s !! id = Some t -> exists ds w w',
  mrun (b_step cmp) ops (tw_init pol) = Ok (rs, w) /\
  list_sum ds = length (inorder t) /\ length ds = length (inorder t) /\ Forall (fun d => d <= levels t) ds /\
  on id (walk_all PreOrder 0 ds) w = Ok (preorder t, w') /\ b_step cmp (BIter id PreOrder) w = Ok (OList (preorder t), w').
Proof. exact @bst_rounds_pre. Qed.
Print Assumptions C96_bst_preorder.

Example C96_bst_case : exists rs s, srun (bs_step Nat.ltb) [BNew 0; BPush 0 1; BPush 0 4; BPush 0 3; BPush 0 6; BPush 0 5; BPop 0 3] ∅ = SVal (rs, s) /\
  exists t, s !! 0 = Some t /\ inorder t = [1; 4; 5; 6] /\ levels t = 4.
Proof. do 2 eexists. split; [vm_compute; reflexivity|]. eexists. split; [vm_compute; reflexivity|]. split; reflexivity. Qed.
