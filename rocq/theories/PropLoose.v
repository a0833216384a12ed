(** Property C79 (comparison functions that are not orders). *)
From Coq Require Import Permutation.
From Verif Require Import Base Alloc AllocProofs VectorModel VectorSpec VecProg Adapter Hist HeapModel HeapSpec HeapProofs.
From Verif Require Import TreeModel TreeSpec TreeWorld BstWorld LooseOrder.
Local Open Scope nat_scope.

(** C79.  REFUTED for AVLTree.  With any comparison function that holds between an
    element and itself, such as <=, the third push of that element rotates around a
    missing child: undefined behaviour, where the first two pushes were accepted. *)
Theorem C79_reflexive_refuted : forall (A : Type) (cmp : A -> A -> bool) (pol : policy) (id : nat) (a : A), sound pol -> grants pol -> cmp a a = true ->
  mrun (t_step cmp) [TNew id; TPush id a; TPush id a; TPush id a] (tw_init pol) = UB /\
  exists w, mrun (t_step cmp) [TNew id; TPush id a; TPush id a] (tw_init pol) = Ok ([OUnit; OUnit; OUnit], w).
Proof. exact @avl_reflexive. Qed.
Print Assumptions C79_reflexive_refuted.
Example C79_case_reflexive : Nat.leb 7 7 = true /\ sound bump /\ grants bump.
Proof. split; [reflexivity|]. split; [apply bump_sound|apply bump_grants]. Qed.

(** What does hold.  AVLTree: asymmetry is enough.  Without transitivity, pushes give a
    well-linked, balanced tree of exactly the elements pushed, unless one meets an
    equivalent element and asserts; search gives an equivalent element of the tree or
    nothing; destruction frees every node. *)
Theorem C79_avl_partial : forall (A : Type) (cmp : A -> A -> bool) (pol : policy) (id : nat) (xs : list A),
  (forall a b, cmp a b = true -> cmp b a = false) -> sound pol -> grants pol ->
  (mrun (t_step cmp) (TNew id :: map (TPush id) xs) (tw_init pol) = Abort /\
   exists xs1 x xs2 y, xs = xs1 ++ x :: xs2 /\ In y xs1 /\ equiv cmp x y) \/
  exists w t, mrun (t_step cmp) (TNew id :: map (TPush id) xs) (tw_init pol) = Ok (OUnit :: repeat OUnit (length xs), w) /\
  linked (tw_heap w) None t /\ nd t /\ size (tw_heap w) = length xs /\ tw_objs w = {[id := (rootp t, Z.of_nat (length xs))]} /\
  heights_ok t /\ balanced t /\ Permutation xs (elems t) /\
  (xs <> [] -> t_step cmp (TIter id) w = Ok (OList (elems t), w)) /\
  (forall x, exists o, t_step cmp (TFind id x) w = Ok (OOpt o, w) /\ match o with Some y => In y (elems t) /\ equiv cmp x y | None => True end) /\
  exists w', t_step cmp (TDestroy id) w = Ok (OUnit, w') /\ tw_heap w' = ∅ /\ tw_objs w' = ∅.
Proof. exact @avl_any. Qed.
Print Assumptions C79_avl_partial.

(** Rock, paper, scissors: 0 before 1 before 2 before 0, and so on modulo 3. *)
Definition beats (a b : nat) : bool := Nat.eqb (Nat.modulo (a + 1) 3) (Nat.modulo b 3).
Example C79_case_avl : (beats 0 1 = true /\ beats 1 2 = true /\ beats 2 0 = true) /\ (forall a b, beats a b = true -> beats b a = false) /\
  exists w, mrun (t_step beats) [TNew 0; TPush 0 0; TPush 0 1; TPush 0 2; TIter 0; TFind 0 4] (tw_init bump) =
    Ok ([OUnit; OUnit; OUnit; OUnit; OList [2; 0; 1]; OOpt (Some 1)], w).
Proof.
  split; [repeat split|]. split.
  - unfold beats. intros a b E. apply Nat.eqb_eq in E. apply Nat.eqb_neq. intros E'.
    rewrite (Nat.add_mod b 1 3), <- E, (Nat.add_mod a 1 3) in E' by lia.
    pose proof (Nat.mod_upper_bound a 3 ltac:(lia)). destruct (Nat.modulo a 3) as [|[|[|m]]]; try lia; vm_compute in E'; lia.
  - eexists. vm_compute. reflexivity.
Qed.

(** BinarySearchTree: any function will do.  Pushes never fail; what is not in the tree
    has an equivalent element there; search gives an equivalent element or nothing. *)
Theorem C79_bst_partial : forall (A : Type) (cmp : A -> A -> bool) (pol : policy) (id : nat) (xs : list A), sound pol -> grants pol -> exists w t rest,
  mrun (b_step cmp) (BNew id :: map (BPush id) xs) (tw_init pol) = Ok (OUnit :: repeat OUnit (length xs), w) /\
  linked (tw_heap w) None t /\ nd t /\ size (tw_heap w) = length (elems t) /\ tw_objs w = {[id := (rootp t, Z.of_nat (length xs))]} /\
  Permutation xs (elems t ++ rest) /\ (forall x, In x rest -> exists y, In y (elems t) /\ equiv cmp x y) /\
  (xs <> [] -> b_step cmp (BIter id InOrder) w = Ok (OList (elems t), w)) /\
  (forall x, exists o, b_step cmp (BFind id x) w = Ok (OOpt o, w) /\ match o with Some y => In y (elems t) /\ equiv cmp x y | None => True end) /\
  exists w', b_step cmp (BDestroy id) w = Ok (OUnit, w') /\ tw_heap w' = ∅ /\ tw_objs w' = ∅.
Proof. exact @bst_any. Qed.
Print Assumptions C79_bst_partial.
Example C79_case_bst : exists w, mrun (b_step Nat.leb) [BNew 0; BPush 0 5; BPush 0 5; BPush 0 5; BPush 0 3; BIter 0 InOrder; BFind 0 5] (tw_init bump) =
  Ok ([OUnit; OUnit; OUnit; OUnit; OUnit; OList [3; 5; 5; 5]; OOpt None], w).
Proof. eexists. vm_compute. reflexivity. Qed.

(** Heap: any function will do.  Every history is a right history of bags: nothing is
    lost or made up, sort leaves a permutation, all storage is accounted for; only which
    element is on top is anybody's guess. *)
Theorem C79_heap_partial : forall (A : Type) (triv : bool) (cmp : A -> A -> bool) (ops : list (@hop A)),
  exists r, h_run triv (fun _ _ => True) ops ∅ r /\
    match r with
    | SVal (rs, s) => exists w, wrun triv (arun (hp_step cmp) ops) world_init = Ok (rs, w) /\ storage_ok w
    | SAbort => wrun triv (arun (hp_step cmp) ops) world_init = Abort
    | SUnspec => True
    end.
Proof. exact @heap_any. Qed.
Print Assumptions C79_heap_partial.
Example C79_case_heap : exists w, wrun true (arun (hp_step beats)
  [HNew 0 0; HPush 0 0; HPush 0 1; HPush 0 2; HSize 0; HTop 0; HPop 0; HSize 0; HPop 0; HPop 0; HEmpty 0]) world_init =
  Ok ([RUnit; RUnit; RUnit; RUnit; RNat 3; RVal 2; RUnit; RNat 2; RUnit; RUnit; RBool true], w).
Proof. eexists. vm_compute. reflexivity. Qed.
