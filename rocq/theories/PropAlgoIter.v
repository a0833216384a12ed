(** C83: for_each and find over list and tree iterators. *)
From Verif Require Import Base Alloc AllocProofs VectorModel VectorSpec Adapter Hist ListModel ListSpec ListIterModel ListIterSpec TreeModel TreeSpec TreeWorld TreeWSpec TreeIterModel TreeIterSpec AlgoIterModel AlgoIterSpec AlgoIter AlgoIterTree PropTreeIter.
Local Open Scope nat_scope.

(** C83.  Any history of list calls, iterator operations, finds and for_eaches,
    the latter also replacing the elements they visit, goes as the specification says. *)
Theorem C83_lists : forall (A : Type) (junk : A) (eqb : A -> A -> bool) (dbl : bool) (pol : policy) (ops : list (aop A)), sound pol -> grants pol ->
  match srun (as_step eqb dbl) ops ispec0 with
  | SVal (rs, _) => exists w, mrun (a_step junk eqb dbl) ops (lst_init pol, ∅) = Ok (rs, w)
  | SAbort => mrun (a_step junk eqb dbl) ops (lst_init pol, ∅) = Abort
  | SUnspec => True
  end.
Proof. exact @algo_lists. Qed.
Print Assumptions C83_lists.

(** With an allocator that may refuse, it does so or stops at a refused request. *)
Theorem C83_lists_limited : forall (A : Type) (junk : A) (eqb : A -> A -> bool) (dbl : bool) (pol : policy) (ops : list (aop A)), sound pol ->
  match srun (as_step eqb dbl) ops ispec0 with
  | SVal (rs, _) => (exists w, mrun (a_step junk eqb dbl) ops (lst_init pol, ∅) = Ok (rs, w)) \/
      (mrun (a_step junk eqb dbl) ops (lst_init pol, ∅) = Abort /\
       exists ops1 ops2 rs1 s1, ops = ops1 ++ ops2 /\ srun (as_step eqb dbl) ops1 ispec0 = SVal (rs1, s1) /\ refuses pol (ListSpec.elements_total (strip (s_lists s1))))
  | SAbort => mrun (a_step junk eqb dbl) ops (lst_init pol, ∅) = Abort
  | SUnspec => True
  end.
Proof. exact @algo_lists_or. Qed.
Print Assumptions C83_lists_limited.

(** The same for AVL trees, read only. *)
Theorem C83_trees : forall (A : Type) (cmp eqb : A -> A -> bool), swo cmp -> forall pol, sound pol -> grants pol -> forall ops : list (bop A),
  match srun (bs_step cmp eqb) ops kspec0 with
  | SVal (rs, _) => exists w, mrun (b_step cmp eqb) ops (tw_init pol, ∅) = Ok (rs, w)
  | SAbort => mrun (b_step cmp eqb) ops (tw_init pol, ∅) = Abort
  | SUnspec => True
  end.
Proof. exact @algo_trees. Qed.
Print Assumptions C83_trees.

Theorem C83_trees_limited : forall (A : Type) (cmp eqb : A -> A -> bool), swo cmp -> forall pol, sound pol -> forall ops : list (bop A),
  match srun (bs_step cmp eqb) ops kspec0 with
  | SVal (rs, _) => (exists w, mrun (b_step cmp eqb) ops (tw_init pol, ∅) = Ok (rs, w)) \/
      (mrun (b_step cmp eqb) ops (tw_init pol, ∅) = Abort /\
       exists ops1 ops2 rs1 s1, ops = ops1 ++ ops2 /\ srun (bs_step cmp eqb) ops1 kspec0 = SVal (rs1, s1) /\ refuses pol (total (strip (k_sets s1))))
  | SAbort => mrun (b_step cmp eqb) ops (tw_init pol, ∅) = Abort
  | SUnspec => True
  end.
Proof. exact @algo_trees_or. Qed.
Print Assumptions C83_trees_limited.

(** Over a whole tree, algorithm::find is the tree's own find if == and the order agree. *)
Theorem C83_same_find : forall (A : Type) (cmp eqb : A -> A -> bool), swo cmp -> (forall x y, eqb x y = equivb cmp y x) ->
  forall ops rs (s : kspec) b e k id a l, srun (bs_step cmp eqb) ops kspec0 = SVal (rs, s) -> k_sets s !! id = Some l -> l <> [] -> b <> e ->
  srun (bs_step cmp eqb) (ops ++ [BIt (KBegin b id); BIt (KEnd e id); BFind k b e a]) kspec0 =
  srun (bs_step cmp eqb) (ops ++ [BIt (KBegin b id); BIt (KEnd e id); BIt (KFind k id a)]) kspec0.
Proof. exact @algo_find_tree. Qed.
Print Assumptions C83_same_find.

(** Finding the second 20 from the place after the first, then adding 1 to all from
    there on, while another list is there. *)
Definition C83_ops : list (aop nat) :=
  [AIt (IList (LNew 0)); AIt (IList (LFill 1 2 7)); AIt (IList (LPushBack 0 10)); AIt (IList (LPushBack 0 20)); AIt (IList (LPushBack 0 30)); AIt (IList (LPushBack 0 20));
   AIt (IBegin 0 0); AIt (IEnd 1 0); AFind 2 0 1 20; AEach 0 2 (fun x => x); AIt (INext 2); AFind 3 2 1 20; AEach 2 3 S; AFind 4 0 1 99; AIt (IEq 4 1); AEach 3 1 S;
   AEach 1 1 S; AIt (IList (LIter 0)); AIt (IList (LIter 1))].
Example C83_case : forall dbl, exists s w, let rs := [RUnit; RUnit; RUnit; RUnit; RUnit; RUnit; RUnit; RUnit; RUnit; RList [10]; RUnit; RUnit; RList [30]; RUnit; RBool true; RList [20];
   RList []; RList [10; 20; 31; 21]; RList [7; 7]] in
  srun (as_step Nat.eqb dbl) C83_ops ispec0 = SVal (rs, s) /\ mrun (a_step 0 Nat.eqb dbl) C83_ops (lst_init bump, ∅) = Ok (rs, w).
Proof. intros []; do 2 eexists; split; vm_compute; reflexivity. Qed.
(** An end before the beginning: nothing is claimed; for_each goes round through the
    head of the ring, which holds a copy of the element pushed last. *)
Example C83_case_reversed : forall dbl, let ops := [AIt (IList (LNew 0)); AIt (IList (LPushBack 0 7)); AIt (IList (LPushBack 0 8)); AIt (IBegin 0 0); AIt (ICopy 1 0); AIt (INext 1); AEach 1 0 S] in
  srun (as_step Nat.eqb dbl) ops ispec0 = SUnspec /\ exists w, mrun (a_step 99 Nat.eqb dbl) ops (lst_init bump, ∅) = Ok ([RUnit; RUnit; RUnit; RUnit; RUnit; RUnit; RList [8; 8]], w).
Proof. intros []; split; [vm_compute; reflexivity|eexists; vm_compute; reflexivity|vm_compute; reflexivity|eexists; vm_compute; reflexivity]. Qed.

Definition C83_tree : list (bop nat) :=
  [BIt (KTree (TNew 0)); BIt (KTree (TPush 0 5)); BIt (KTree (TPush 0 3)); BIt (KTree (TPush 0 8)); BIt (KTree (TPush 0 4))].
Example C83_case_tree : exists s w, let ops := C83_tree ++ [BIt (KBegin 0 0); BIt (KEnd 1 0); BFind 2 0 1 5; BIt (KRead 2); BEach 0 2; BEach 2 1; BFind 3 2 1 3; BIt (KEq 3 1)] in
  let rs := [OUnit; OUnit; OUnit; OUnit; OUnit; OUnit; OUnit; OUnit; OOpt (Some 5); OList [3; 4]; OList [5; 8]; OUnit; OBool true] in
  srun (bs_step Nat.ltb Nat.eqb) ops kspec0 = SVal (rs, s) /\ mrun (b_step Nat.ltb Nat.eqb) ops (tw_init bump, ∅) = Ok (rs, w).
Proof. do 2 eexists; split; vm_compute; reflexivity. Qed.
Example C83_case_same : (forall x y, Nat.eqb x y = equivb Nat.ltb y x) /\ swo Nat.ltb /\ exists s l, srun (bs_step Nat.ltb Nat.eqb) C83_tree kspec0 = SVal ([OUnit; OUnit; OUnit; OUnit; OUnit], s) /\ k_sets s !! 0 = Some l /\ l <> [].
Proof.
  split; [|split; [exact C71_order|do 2 eexists; split; [vm_compute; reflexivity|split; [vm_compute; reflexivity|discriminate]]]].
  intros x y. unfold equivb. destruct (Nat.eqb_spec x y), (Nat.ltb_spec x y), (Nat.ltb_spec y x); try reflexivity; lia.
Qed.
