(** Properties C39, C43, C44 and C46 for BinarySearchTree. *)
From Verif Require Import Base Alloc AllocProofs VectorModel VectorSpec Adapter Hist TreeModel TreeSpec TreeWorld BstWorld BstSpec BstHist BstRefute.

Local Open Scope nat_scope.

(** C39 and C46, the part that holds.  Every history over any number of objects
    that pushes absent keys only and removes keys with at most one child only
    answers like textbook search trees (find, sizes, iteration, the successor
    erase returns, moves, clear), with as many nodes allocated as there are
    elements. *)
Theorem C46_bst_history_partial : forall (A : Type) (cmp : A -> A -> bool), swo cmp -> forall (pol : policy) (ops : list (bop A)) rs s, sound pol -> grants pol ->
  srun (bs_step cmp) ops ∅ = SVal (rs, s) ->
  exists w, mrun (b_step cmp) ops (tw_init pol) = Ok (rs, w) /\ size (tw_heap w) = btotal s.
Proof. exact @b_history. Qed.
Print Assumptions C46_bst_history_partial.

Example C46_case : exists s, srun (bs_step Nat.ltb)
  [BNew 0; BPush 0 5; BPush 0 3; BPush 0 8; BPush 0 1; BPush 0 9; BIter 0 InOrder; BIter 0 PreOrder; BFind 0 8; BFind 0 7; BPop 0 3; BErase 0 8; BSize 0; BIter 0 InOrder;
   BFrom 1 [4; 2; 6]; BErase 1 2; BMoveAssign 1 0; BIter 1 InOrder; BIter 0 PreOrder; BPop 0 3; BMoveNew 2 1; BEmpty 1; BPop 2 1; BPop 2 5; BErase 2 9; BEmpty 2; BPush 2 7; BTraverse 2 PreOrder;
   BDestroy 0; BClear 1; BCapacity 2] ∅
  = SVal ([OUnit; OUnit; OUnit; OUnit; OUnit; OUnit; OList [1; 3; 5; 8; 9]; OList [5; 3; 1; 8; 9]; OOpt (Some 8); OOpt None; OUnit; OOpt (Some 9); OZ 3; OList [1; 5; 9];
   OUnit; OOpt (Some 4); OUnit; OList [1; 5; 9]; OList []; OUnit; OUnit; OBool true; OUnit; OUnit; OOpt None; OBool true; OUnit; OList [7];
   OUnit; OUnit; OZ 1], s) /\ btotal s = 1.
Proof. eexists. split; [vm_compute; reflexivity|]. vm_compute. reflexivity. Qed.

(** C46.  In those histories in-order iteration is sorted, and pushing and
    removing add and remove exactly the key. *)
Theorem C46_bst_sets_partial : forall (A : Type) (cmp : A -> A -> bool), swo cmp -> forall (ops : list (bop A)) rs s id t x,
  srun (bs_step cmp) ops ∅ = SVal (rs, s) -> s !! id = Some t ->
  ascending cmp (inorder t) /\
  (lookup_set cmp x (inorder t) = None -> inorder (bins cmp x t) = add_set cmp x (inorder t)) /\
  (forall t', bdel1 cmp x t = Some t' -> inorder t' = remove_set cmp x (inorder t) /\ is_Some (lookup_set cmp x (inorder t))).
Proof. exact @b_sets. Qed.
Print Assumptions C46_bst_sets_partial.

Example C46_sets_case : exists rs s t, srun (bs_step Nat.ltb) [BFrom 0 [5; 3; 8; 1; 9]] ∅ = SVal (rs, s) /\ s !! 0 = Some t /\
  lookup_set Nat.ltb 4 (inorder t) = None /\ exists t', bdel1 Nat.ltb 3 t = Some t'.
Proof. do 3 eexists. split; [vm_compute; reflexivity|]. split; [vm_compute; reflexivity|]. split; [vm_compute; reflexivity|]. eexists. vm_compute. reflexivity. Qed.

(** C46, refuted.  Pushing a key that is already there is counted again. *)
Theorem C46_dup_push_refuted : forall (A : Type) (cmp : A -> A -> bool), swo cmp -> forall (pol : policy), sound pol -> grants pol -> forall (ops : list (bop A)) rs s id t x y,
  srun (bs_step cmp) ops ∅ = SVal (rs, s) -> s !! id = Some t -> lookup_set cmp x (inorder t) = Some y ->
  exists w, mrun (b_step cmp) (ops ++ [BPush id x; BSize id; BIter id InOrder]) (tw_init pol) =
    Ok (rs ++ [OUnit; OZ (Z.of_nat (length (inorder t)) + 1); OList (inorder t)], w).
Proof. exact @dup_push. Qed.
Print Assumptions C46_dup_push_refuted.

(** C46, refuted.  A lone element pushed twice and popped once leaves an "element"
    that is not there: the tree is not empty() and iterating or popping again is
    undefined behaviour. *)
Theorem C46_dup_pop_refuted : forall (A : Type) (cmp : A -> A -> bool), swo cmp -> forall (pol : policy), sound pol -> grants pol -> forall (ops : list (bop A)) rs s id x y,
  srun (bs_step cmp) ops ∅ = SVal (rs, s) -> s !! id = Some (BN BE y BE) -> equiv cmp x y ->
  (exists w, mrun (b_step cmp) (ops ++ [BPush id x; BPop id x; BSize id; BEmpty id]) (tw_init pol) = Ok (rs ++ [OUnit; OUnit; OZ 1; OBool false], w)) /\
  mrun (b_step cmp) (ops ++ [BPush id x; BPop id x; BIter id InOrder]) (tw_init pol) = UB /\
  mrun (b_step cmp) (ops ++ [BPush id x; BPop id x; BPop id x]) (tw_init pol) = UB.
Proof. exact @dup_pop. Qed.
Print Assumptions C46_dup_pop_refuted.

Example C46_dup_case : exists rs s, srun (bs_step Nat.ltb) [BFrom 0 [5; 3; 8]; BFrom 1 [7]] ∅ = SVal (rs, s) /\
  (exists t, s !! 0 = Some t /\ lookup_set Nat.ltb 8 (inorder t) = Some 8) /\ s !! 1 = Some (BN BE 7 BE) /\ equiv Nat.ltb 7 7.
Proof.
  do 2 eexists. split; [vm_compute; reflexivity|]. split; [eexists; split; vm_compute; reflexivity|]. split; [vm_compute; reflexivity|]. split; reflexivity.
Qed.

(** C46, refuted.  Popping a key whose node has two children is undefined
    behaviour, or in-order iteration afterwards has a later element smaller than
    an earlier one. *)
Theorem C46_pop_two_refuted : forall (A : Type) (cmp : A -> A -> bool), swo cmp -> forall (pol : policy), sound pol -> grants pol -> forall (ops : list (bop A)) rs s id t x y,
  srun (bs_step cmp) ops ∅ = SVal (rs, s) -> s !! id = Some t -> lookup_set cmp x (inorder t) = Some y -> bdel1 cmp x t = None ->
  mrun (b_step cmp) (ops ++ [BPop id x]) (tw_init pol) = UB \/
  exists l w, mrun (b_step cmp) (ops ++ [BPop id x; BIter id InOrder]) (tw_init pol) = Ok (rs ++ [OUnit; OList l], w) /\ inverted cmp l.
Proof. exact @pop_two. Qed.
Print Assumptions C46_pop_two_refuted.
(** The same for erase. *)
Theorem C46_erase_two_refuted : forall (A : Type) (cmp : A -> A -> bool), swo cmp -> forall (pol : policy), sound pol -> grants pol -> forall (ops : list (bop A)) rs s id t x y,
  srun (bs_step cmp) ops ∅ = SVal (rs, s) -> s !! id = Some t -> lookup_set cmp x (inorder t) = Some y -> bdel1 cmp x t = None ->
  mrun (b_step cmp) (ops ++ [BErase id x]) (tw_init pol) = UB \/
  exists e l w, mrun (b_step cmp) (ops ++ [BErase id x; BIter id InOrder]) (tw_init pol) = Ok (rs ++ [OOpt e; OList l], w) /\ inverted cmp l.
Proof. exact @erase_two. Qed.
Print Assumptions C46_erase_two_refuted.
Theorem C46_inverted : forall (A : Type) (cmp : A -> A -> bool), swo cmp -> forall l : list A, inverted cmp l -> ~ ascending cmp l.
Proof. exact @inverted_not_sorted. Qed.
Print Assumptions C46_inverted.

Example C46_two_case : exists rs s t, srun (bs_step Nat.ltb) [BFrom 0 [5; 3; 8; 7; 9]] ∅ = SVal (rs, s) /\ s !! 0 = Some t /\
  lookup_set Nat.ltb 5 (inorder t) = Some 5 /\ bdel1 Nat.ltb 5 t = None.
Proof. do 3 eexists. split; [vm_compute; reflexivity|]. split; [vm_compute; reflexivity|]. split; vm_compute; reflexivity. Qed.
(** Both outcomes happen. *)
Example C46_two_ub : mrun (b_step Nat.ltb) [BFrom 0 [5; 3; 8]; BPop 0 5] (tw_init bump) = UB.
Proof. vm_compute. reflexivity. Qed.
Example C46_two_order : exists w, mrun (b_step Nat.ltb) [BFrom 0 [5; 3; 8; 7]; BPop 0 5; BIter 0 InOrder] (tw_init bump) = Ok ([OUnit; OUnit; OList [3; 8; 7]], w).
Proof. eexists. vm_compute. reflexivity. Qed.

(** C44, refuted for BinarySearchTree: popping an absent key of a non-empty tree
    dereferences null. *)
Theorem C44_bst_pop_absent_refuted : forall (A : Type) (cmp : A -> A -> bool), swo cmp -> forall (pol : policy), sound pol -> grants pol -> forall (ops : list (bop A)) rs s id t x,
  srun (bs_step cmp) ops ∅ = SVal (rs, s) -> s !! id = Some t -> t <> BE -> lookup_set cmp x (inorder t) = None ->
  mrun (b_step cmp) (ops ++ [BPop id x]) (tw_init pol) = UB.
Proof. exact @pop_absent. Qed.
Print Assumptions C44_bst_pop_absent_refuted.

Example C44_bst_case : exists rs s t, srun (bs_step Nat.ltb) [BFrom 0 [5; 3; 8]] ∅ = SVal (rs, s) /\ s !! 0 = Some t /\ t <> BE /\ lookup_set Nat.ltb 4 (inorder t) = None.
Proof. do 3 eexists. split; [vm_compute; reflexivity|]. split; [vm_compute; reflexivity|]. split; [discriminate|vm_compute; reflexivity]. Qed.

(** C43, refuted for BinarySearchTree: begin() on an empty tree, however it became
    empty, dereferences null unless pre-order is asked for. *)
Theorem C43_bst_empty_iter_refuted : forall (A : Type) (cmp : A -> A -> bool), swo cmp -> forall (pol : policy), sound pol -> grants pol -> forall (ops : list (bop A)) rs s id o,
  srun (bs_step cmp) ops ∅ = SVal (rs, s) -> s !! id = Some BE -> o <> PreOrder ->
  mrun (b_step cmp) (ops ++ [BIter id o]) (tw_init pol) = UB.
Proof. exact @empty_iter. Qed.
Print Assumptions C43_bst_empty_iter_refuted.

Example C43_bst_case : exists rs s, srun (bs_step Nat.ltb) [BFrom 0 [5]; BPop 0 5; BFrom 1 [2; 1]; BClear 1] ∅ = SVal (rs, s) /\ s !! 0 = Some BE /\ s !! 1 = Some BE.
Proof. do 2 eexists. split; [vm_compute; reflexivity|]. split; vm_compute; reflexivity. Qed.
