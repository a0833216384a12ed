(** Property C81 (Stack over containers other than Vector). *)
From Verif Require Import Base Alloc AllocProofs VectorModel VectorSpec VecProg Adapter Hist ListModel ListSpec DequeModel DequeSpec StackModel StackOtherModel StackOtherSpec StackOther.
Local Open Scope nat_scope.

(** C81.  Every history over any number of stacks is last in, first out: over
    DoubleEndedQueue with any block size ... *)
Theorem C81_deque : forall (A : Type) (N : nat) (ops : list (kop A)), 0 < N ->
  match srun (ko_step OnDeque) ops ∅ with
  | SVal (rs, s) => exists w, mrun (kd_step N) ops dst_init = Ok (rs, w) /\ blocks_allocated w * N = capacity_total w /\ elements_live w = DequeSpec.elements_total s
  | SAbort => mrun (kd_step N) ops dst_init = Abort
  | SUnspec => True
  end.
Proof. exact @stack_deque_history. Qed.
Print Assumptions C81_deque.

(** ... over DLinkedList, with an allocator that puts the nodes anywhere and may
    refuse (then the code stops, at a call that needed more than was there) ... *)
Theorem C81_dlist : forall (A : Type) (junk : A) (pol : policy) (ops : list (kop A)), sound pol ->
  match srun (ko_step OnDList) ops ∅ with
  | SVal (rs, s) =>
      (exists w, mrun (kl_step (dl_step junk)) ops (lst_init pol) = Ok (rs, w) /\ nodes_allocated w = DequeSpec.elements_total s) \/
      (mrun (kl_step (dl_step junk)) ops (lst_init pol) = Abort /\
       exists ops1 ops2 rs1 s1, ops = ops1 ++ ops2 /\ srun (ko_step OnDList) ops1 ∅ = SVal (rs1, s1) /\ refuses pol (DequeSpec.elements_total s1))
  | SAbort => mrun (kl_step (dl_step junk)) ops (lst_init pol) = Abort
  | SUnspec => True
  end.
Proof. exact @stack_dlist_history. Qed.
Print Assumptions C81_dlist.

(** ... and over SLinkedList. *)
Theorem C81_slist : forall (A : Type) (junk : A) (pol : policy) (ops : list (kop A)), sound pol ->
  match srun (ko_step OnSList) ops ∅ with
  | SVal (rs, s) =>
      (exists w, mrun (kl_step (sl_step junk)) ops (lst_init pol) = Ok (rs, w) /\ nodes_allocated w = DequeSpec.elements_total s) \/
      (mrun (kl_step (sl_step junk)) ops (lst_init pol) = Abort /\
       exists ops1 ops2 rs1 s1, ops = ops1 ++ ops2 /\ srun (ko_step OnSList) ops1 ∅ = SVal (rs1, s1) /\ refuses pol (DequeSpec.elements_total s1))
  | SAbort => mrun (kl_step (sl_step junk)) ops (lst_init pol) = Abort
  | SUnspec => True
  end.
Proof. exact @stack_slist_history. Qed.
Print Assumptions C81_slist.

(** With an allocator that always serves, the lists never stop short. *)
Theorem C81_granted : forall (A : Type) (junk : A) (pol : policy) (ops : list (kop A)), sound pol -> grants pol ->
  (forall rs s, srun (ko_step OnDList) ops ∅ = SVal (rs, s) -> exists w, mrun (kl_step (dl_step junk)) ops (lst_init pol) = Ok (rs, w) /\ nodes_allocated w = DequeSpec.elements_total s) /\
  (forall rs s, srun (ko_step OnSList) ops ∅ = SVal (rs, s) -> exists w, mrun (kl_step (sl_step junk)) ops (lst_init pol) = Ok (rs, w) /\ nodes_allocated w = DequeSpec.elements_total s).
Proof. exact @stack_lists_granted. Qed.
Print Assumptions C81_granted.

(** A history that the claim covers over some container answers the same over
    Vector: the choice of container cannot be observed. *)
Theorem C81_same : forall (A : Type) (u : under) (ops : list (kop A)) rs s, srun (ko_step u) ops ∅ = SVal (rs, s) ->
  exists w : world A, wrun true (arun st_step ops) world_init = Ok (rs, w) /\ forall id, contents w id = (fun p => rev (fst p)) <$> s !! id.
Proof. exact @stack_same. Qed.
Print Assumptions C81_same.

(** A history covered over every container ... *)
Definition all_three : list (kop nat) :=
  [KNew 0; KEmpty 0; KPush 0 1; KPush 0 2; KPush 0 3; KTop 0; KPop 0; KTop 0; KIter 0; KSize 0; KNew 1; KPush 1 9; KClear 0; KEmpty 0; KPush 0 4; KTop 0; KDestroy 0; KTop 1].
Example C81_case : forall u, exists s, srun (ko_step u) all_three ∅ = SVal
  ([RUnit; RBool true; RUnit; RUnit; RUnit; RVal 3; RUnit; RVal 2; RList [1; 2]; RNat 2; RUnit; RUnit; RUnit; RBool true; RUnit; RVal 4; RUnit; RVal 9], s).
Proof. intros [| |]; eexists; vm_compute; reflexivity. Qed.
(** ... copies and moves, and an assertion. *)
Example C81_case_copy : exists s, srun (ko_step OnDeque) [KNew 0; KPush 0 1; KPush 0 2; KCopyNew 1 0; KPop 0; KTop 1; KAssign 0 1; KIter 0] ∅ =
  SVal ([RUnit; RUnit; RUnit; RUnit; RUnit; RVal 2; RUnit; RList [1; 2]], s).
Proof. eexists. vm_compute. reflexivity. Qed.
Example C81_case_move : exists s, srun (ko_step OnSList) [KNew 0; KPush 0 1; KPush 0 2; KMoveNew 1 0; KTop 1; KEmpty 0; KPush 0 5; KMoveAssign 1 0; KIter 1] ∅ =
  SVal ([RUnit; RUnit; RUnit; RUnit; RVal 2; RBool true; RUnit; RUnit; RList [5]], s).
Proof. eexists. vm_compute. reflexivity. Qed.
Example C81_case_abort : srun (ko_step OnDList) [KNew 0; KPush 0 1; KPop 0; KPop 0] ∅ = SAbort.
Proof. reflexivity. Qed.
(** [bump] and [limit 2 bump] are allocators the theorems speak about. *)
Example C81_case_alloc : sound bump /\ grants bump /\ sound (limit 2 bump) /\
  mrun (kl_step (dl_step 0)) [KNew 0; KPush 0 1; KPush 0 2; KPush 0 3] (lst_init (limit 2 bump)) = Abort.
Proof. split; [exact bump_sound|]. split; [exact bump_grants|]. split; [apply limit_sound, bump_sound|vm_compute; reflexivity]. Qed.
