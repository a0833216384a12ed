(** Property C77: keys pushed into a BinarySearchTree again. *)
From Verif Require Import Base Alloc AllocProofs VectorModel VectorSpec Adapter Hist TreeModel TreeSpec TreeWorld BstWorld BstSpec BstDupSpec BstDup.

Local Open Scope nat_scope.

(** C77.  Every history over any number of trees, with any keys pushed as often
    as one likes, answers as the specification says: a key that is there stays as
    it is and only size(), capacity() and empty() see the push.  As many nodes
    are allocated as there are elements. *)
Theorem C77_history : forall (A : Type) (cmp : A -> A -> bool), swo cmp -> forall (pol : policy) (ops : list (bop A)) rs s, sound pol -> grants pol ->
  srun (bd_step cmp) ops ∅ = SVal (rs, s) ->
  exists w, mrun (b_step cmp) ops (tw_init pol) = Ok (rs, w) /\ size (tw_heap w) = dtotal s.
Proof. exact @d_history. Qed.
Print Assumptions C77_history.

Example C77_case : exists s, srun (bd_step Nat.ltb)
  [BFrom 0 [5; 3; 8; 3; 5; 5]; BSize 0; BIter 0 InOrder; BIter 0 PreOrder; BPush 0 8; BSize 0; BPop 0 3; BFind 0 3; BSize 0; BErase 0 8; BEmpty 0; BIter 0 InOrder;
   BMoveNew 1 0; BSize 0; BSize 1; BPop 1 5; BSize 1; BEmpty 1; BPush 1 4; BSize 1; BIter 1 InOrder; BClear 1; BSize 1; BPop 1 4; BDestroy 0] ∅
  = SVal ([OUnit; OZ 6; OList [3; 5; 8]; OList [5; 3; 8]; OUnit; OZ 7; OUnit; OOpt None; OZ 6; OOpt None; OBool false; OList [5];
   OUnit; OZ 0; OZ 5; OUnit; OZ 4; OBool false; OUnit; OZ 5; OList [4]; OUnit; OZ 0; OUnit; OUnit], s) /\ dtotal s = 0.
Proof. eexists. split; [vm_compute; reflexivity|]. vm_compute. reflexivity. Qed.

(** C77.  In those histories in-order iteration is sorted; pushing adds the key
    unless it is there, and is counted either way. *)
Theorem C77_sets : forall (A : Type) (cmp : A -> A -> bool), swo cmp -> forall (ops : list (bop A)) rs s id t x,
  srun (bd_step cmp) ops ∅ = SVal (rs, s) -> s !! id = Some t ->
  ascending cmp (inorder (fst t)) /\
  inorder (fst (dpush cmp x t)) = (match lookup_set cmp x (inorder (fst t)) with Some _ => inorder (fst t) | None => add_set cmp x (inorder (fst t)) end) /\
  counted (dpush cmp x t) = S (counted t).
Proof. exact @d_sets. Qed.
Print Assumptions C77_sets.

Example C77_sets_case : exists rs s t, srun (bd_step Nat.ltb) [BFrom 0 [5; 3; 5]] ∅ = SVal (rs, s) /\ s !! 0 = Some t /\ counted t = 3.
Proof. do 3 eexists. split; [vm_compute; reflexivity|]. split; [vm_compute; reflexivity|]. vm_compute. reflexivity. Qed.

(** C77, in one statement for a tree made from any keys: iteration is sorted, has
    the first pushed of equivalent keys and nothing else, there is a node for
    each, and size() is the number of pushes. *)
Theorem C77_keys : forall (A : Type) (cmp : A -> A -> bool), swo cmp -> forall (pol : policy) (id : nat) (xs : list A), sound pol -> grants pol -> xs <> [] -> exists l w,
  mrun (b_step cmp) [BFrom id xs; BIter id InOrder; BSize id] (tw_init pol) = Ok ([OUnit; OList l; OZ (Z.of_nat (length xs))], w) /\
  size (tw_heap w) = length l /\ ascending cmp l /\ (forall x, lookup_set cmp x l = lookup_set cmp x xs).
Proof. exact @d_keys. Qed.
Print Assumptions C77_keys.

Example C77_keys_case : exists w, mrun (b_step Nat.ltb) [BFrom 3 [5; 3; 8; 3; 5; 5]; BIter 3 InOrder; BSize 3] (tw_init bump) = Ok ([OUnit; OList [3; 5; 8]; OZ 6], w).
Proof. eexists. vm_compute. reflexivity. Qed.

(** C77, with an allocator that may refuse requests: the program answers the
    same, or crashes when the elements did not all fit. *)
Theorem C77_limited : forall (A : Type) (cmp : A -> A -> bool), swo cmp -> forall (pol : policy) (ops : list (bop A)), sound pol ->
  match srun (bd_step cmp) ops ∅ with
  | SVal (rs, s) => (exists w, mrun (b_step cmp) ops (tw_init pol) = Ok (rs, w) /\ size (tw_heap w) = dtotal s) \/
      (mrun (b_step cmp) ops (tw_init pol) = Abort /\
       exists ops1 ops2 rs1 s1, ops = ops1 ++ ops2 /\ srun (bd_step cmp) ops1 ∅ = SVal (rs1, s1) /\ refuses pol (dtotal s1))
  | SAbort => mrun (b_step cmp) ops (tw_init pol) = Abort
  | SUnspec => True
  end.
Proof. exact @d_history_or. Qed.
Print Assumptions C77_limited.
