(** Properties C30-C35 (DoubleEndedQueue and Queue). *)
From Verif Require Import Base Alloc VectorModel VectorSpec Adapter Hist ListModel ListSpec DequeModel DequeSpec QueueModel QueueSpec DequeHist2 QueueProofs DequeRefute.

(** C30.  For every block size, every history over any number of deques answers
    like the same history over sequences; in particular it never leaves the
    allocated blocks and never releases a block with an element in it (both would be
    UB), and the elements alive in the blocks are those the sequences hold. *)
Theorem C30_deque_history : forall (A : Type) (N : nat), 0 < N -> forall ops : list (dop A),
  match srun ds_step ops ∅ with
  | SVal (rs, s) => exists w, mrun (dq_step N) ops dst_init = Ok (rs, w) /\ blocks_allocated w * N = capacity_total w /\ elements_live w = elements_total s
  | SAbort => mrun (dq_step N) ops dst_init = Abort
  | SUnspec => True
  end.
Proof. exact @deque_history. Qed.
Print Assumptions C30_deque_history.

Example C30_case : exists s, srun ds_step
  [DNew 0; DPushBack 0 1; DPushFront 0 2; DPush 0 3; DIter 0; DFront 0; DBack 0; DAt 0 1; DAt 0 (-1); DSize 0; DCopyNew 1 0; DPopBack 0; DPopFront 0; DIter 0; DPop 1;
   DIter 1; DAssign 0 1; DClear 1; DEmpty 1; DPushFront 1 9; DIter 1; DMoveAssign 1 1; DDestroy 1; DIter 0] ∅
  = SVal ([RUnit; RUnit; RUnit; RUnit; RList [2; 1; 3]; RVal 2; RVal 3; RVal 1; RVal 3; RNat 3; RUnit; RUnit; RUnit; RList [1]; RUnit;
   RList [1; 3]; RUnit; RUnit; RBool true; RUnit; RList [9]; RUnit; RUnit; RList [1; 3]], s).
Proof. eexists. vm_compute. reflexivity. Qed.

(** C31.  After every history capacity() is at least size(); a push leaves it
    alone or doubles it (from 0 it becomes two blocks), a pop leaves it alone and
    clear makes it 0. *)
Theorem C31_capacity : forall (A : Type) (N : nat), 0 < N -> forall (ops : list (dop A)) rs s id l r o,
  srun ds_step ops ∅ = SVal (rs, s) -> s !! id = Some (l, r) ->
  (exists x, o = DPushBack id x \/ o = DPushFront id x \/ o = DPush id x) \/
  (l <> [] /\ (o = DPopBack id \/ o = DPopFront id \/ o = DPop id)) \/ o = DClear id ->
  exists c c' w, mrun (dq_step N) (ops ++ [DCapacity id; o; DCapacity id]) dst_init = Ok (rs ++ [RNat c; RUnit; RNat c'], w) /\
    length l <= c /\
    match o with
    | DPush _ _ | DPushBack _ _ | DPushFront _ _ => (c = 0 /\ c' = 2 * N) \/ (0 < c /\ (c' = c \/ c' = 2 * c))
    | DPop _ | DPopBack _ | DPopFront _ => c' = c
    | DClear _ => c' = 0
    | _ => False
    end.
Proof. exact @capacity_ok. Qed.
Print Assumptions C31_capacity.

(** Once every deque is destroyed every block has been given back. *)
Theorem C31_all_freed : forall (A : Type) (N : nat), 0 < N -> forall (ops : list (dop A)) rs,
  srun ds_step ops ∅ = SVal (rs, ∅) ->
  exists w, mrun (dq_step N) ops dst_init = Ok (rs, w) /\ blocks_allocated w = 0.
Proof. exact @all_freed. Qed.
Print Assumptions C31_all_freed.

Example C31_case : exists rs s, srun ds_step [DNew 0; DPushBack 0 1; DPushFront 0 2; DPopBack 0]%nat ∅ = SVal (rs, s) /\ s !! 0 = Some ([2], true).
Proof. do 2 eexists. split; [vm_compute; reflexivity|]. vm_compute. reflexivity. Qed.
Example C31_case_doubles : exists w, mrun (dq_step 1) [DNew 0; DCapacity 0; DPushBack 0 7; DCapacity 0; DPushBack 0 8; DCapacity 0] dst_init
  = Ok ([RUnit; RNat 0; RUnit; RNat 2; RUnit; RNat 4], w).
Proof. eexists. vm_compute. reflexivity. Qed.
Example C31_case_freed : exists rs, srun ds_step [DNew 0; DPushBack 0 true; DDestroy 0] ∅ = SVal (rs, ∅).
Proof.
  assert (H : exists rs s, srun ds_step [DNew 0; DPushBack 0 true; DDestroy 0] ∅ = SVal (rs, s) /\ map_to_list s = []) by (do 2 eexists; split; vm_compute; reflexivity).
  destruct H as (rs & s & -> & Hs). apply map_to_list_empty_iff in Hs. subst s. eauto.
Qed.

(** C32.  A copy of a deque that holds elements equals it, and as long as the
    continuation does not call a mutator on the copy (or on the source), that one
    keeps its contents, whatever happens to the other and to further deques. *)
Theorem C32_copy_independent : forall (A : Type) (N : nat), 0 < N -> forall (ops ops2 : list (dop A)) rs s s' rs2 id src l o k,
  srun ds_step ops ∅ = SVal (rs, s) -> s !! src = Some (l, true) -> l <> [] -> id <> src ->
  (o = DCopyNew id src /\ s !! id = None) \/ (o = DAssign id src /\ is_Some (s !! id)) ->
  srun ds_step (ops ++ o :: ops2) ∅ = SVal (rs2, s') -> (k = id \/ k = src) -> Forall (fun o => k ∉ dop_writes o) ops2 ->
  exists w, mrun (dq_step N) (ops ++ o :: ops2 ++ [DIter k; DSize k]) dst_init = Ok (rs2 ++ [RList l; RNat (length l)], w).
Proof. exact @copy_independent. Qed.
Print Assumptions C32_copy_independent.

Example C32_case : let ops := [DNew 0; DPushBack 0 1; DPushFront 0 2]%nat in let ops2 := [DPopBack 0; DPushBack 0 5; DDestroy 0]%nat in
  exists rs s rs2 s', srun ds_step ops ∅ = SVal (rs, s) /\ s !! 0 = Some ([2; 1], true) /\ s !! 1 = None /\
    srun ds_step (ops ++ DCopyNew 1 0 :: ops2) ∅ = SVal (rs2, s') /\ Forall (fun o => 1 ∉ dop_writes o) ops2.
Proof.
  do 4 eexists. split; [vm_compute; reflexivity|]. split; [vm_compute; reflexivity|]. split; [vm_compute; reflexivity|]. split; [vm_compute; reflexivity|].
  repeat constructor; cbn [dop_writes]; rewrite elem_of_list_singleton; discriminate.
Qed.

(** C33 is false: after every history, moving a non-empty deque hands over the
    elements (size and front() are right and the source reports 0), but the next
    iteration, push, pop, back(), clear or destruction of the target fails an
    assertion. *)
Theorem C33_move_refuted : forall (A : Type) (N : nat), 0 < N -> forall (ops : list (dop A)) rs s id src x l o o2,
  srun ds_step ops ∅ = SVal (rs, s) -> s !! src = Some (x :: l, true) -> id <> src ->
  (o = DMoveNew id src /\ s !! id = None) \/ (o = DMoveAssign id src /\ is_Some (s !! id)) ->
  (exists w, mrun (dq_step N) (ops ++ [o; DSize id; DFront id; DSize src]) dst_init = Ok (rs ++ [RUnit; RNat (S (length l)); RVal x; RNat 0], w)) /\
  (o2 ∈ [DIter id; DClear id; DDestroy id; DPopFront id; DPop id; DPopBack id; DBack id] \/
   (exists x, o2 = DPushBack id x \/ o2 = DPush id x \/ o2 = DPushFront id x) ->
   mrun (dq_step N) (ops ++ [o; o2]) dst_init = Abort).
Proof. exact @move_refuted. Qed.
Print Assumptions C33_move_refuted.

Example C33_case : exists rs s, srun ds_step [DNew 0; DPushBack 0 1; DPushFront 0 2; DNew 3]%nat ∅ = SVal (rs, s) /\ s !! 0 = Some ([2; 1], true) /\
  s !! 1 = None /\ is_Some (s !! 3).
Proof. do 2 eexists. split; [vm_compute; reflexivity|]. vm_compute. eauto. Qed.

(** C34 is false: after every history, iterating over or copying a deque just
    constructed is undefined behaviour (its iterators are uninitialised) ... *)
Theorem C34_fresh_refuted : forall (A : Type) (N : nat), 0 < N -> forall (ops : list (dop A)) rs s id id2,
  srun ds_step ops ∅ = SVal (rs, s) -> s !! id = None -> s !! id2 = None -> id <> id2 ->
  mrun (dq_step N) (ops ++ [DNew id; DIter id]) dst_init = UB /\ mrun (dq_step N) (ops ++ [DNew id; DCopyNew id2 id]) dst_init = UB.
Proof. exact @fresh_refuted. Qed.
Print Assumptions C34_fresh_refuted.
(** ... and so is iterating over or copying one that held elements and was just
    cleared (its iterators still range over the released blocks). *)
Theorem C34_cleared_refuted : forall (A : Type) (N : nat), 0 < N -> forall (ops : list (dop A)) rs s id id2 x l,
  srun ds_step ops ∅ = SVal (rs, s) -> s !! id = Some (x :: l, true) -> s !! id2 = None ->
  mrun (dq_step N) (ops ++ [DClear id; DIter id]) dst_init = UB /\ mrun (dq_step N) (ops ++ [DClear id; DCopyNew id2 id]) dst_init = UB.
Proof. exact @cleared_refuted. Qed.
Print Assumptions C34_cleared_refuted.
(** What holds: a deque emptied by pops can be iterated and copied. *)
Theorem C34_emptied_partial : forall (A : Type) (N : nat), 0 < N -> forall (ops : list (dop A)) rs s id id2,
  srun ds_step ops ∅ = SVal (rs, s) -> s !! id = Some ([], true) -> s !! id2 = None ->
  exists w, mrun (dq_step N) (ops ++ [DIter id; DCopyNew id2 id; DSize id2; DEmpty id2]) dst_init = Ok (rs ++ [RList []; RUnit; RNat 0; RBool true], w).
Proof. exact @emptied_ok. Qed.
Print Assumptions C34_emptied_partial.

Example C34_case : exists rs s, srun ds_step [DNew 0; DPushBack 0 1; DNew 1; DPushFront 1 2; DPopBack 1]%nat ∅ = SVal (rs, s) /\ s !! 0 = Some ([1], true) /\
  s !! 1 = Some ([], true) /\ s !! 2 = None /\ s !! 3 = None.
Proof. do 2 eexists. split; [vm_compute; reflexivity|]. vm_compute. auto. Qed.

(** C35.  Every history over any number of queues is first in, first out: over
    DoubleEndedQueue ... *)
Theorem C35_queue_deque : forall (A : Type) (N : nat) (ops : list (qop A)), 0 < N ->
  match srun (qs_step true) ops ∅ with
  | SVal (rs, s) => exists w, mrun (qd_step N) ops dst_init = Ok (rs, w) /\ blocks_allocated w * N = capacity_total w /\ elements_live w = elements_total s
  | SAbort => mrun (qd_step N) ops dst_init = Abort
  | SUnspec => True
  end.
Proof. exact @queue_deque_history. Qed.
Print Assumptions C35_queue_deque.
(** ... and over DLinkedList, wherever the allocator puts the nodes (see C72). *)
Theorem C35_queue_list : forall (A : Type) (junk : A) (pol : policy) (ops : list (qop A)), sound pol -> grants pol ->
  match srun (qs_step false) ops ∅ with
  | SVal (rs, s) => exists w, mrun (ql_step junk) ops (lst_init pol) = Ok (rs, w) /\ nodes_allocated w = elements_total s
  | SAbort => mrun (ql_step junk) ops (lst_init pol) = Abort
  | SUnspec => True
  end.
Proof. exact @queue_list_history. Qed.
Print Assumptions C35_queue_list.

Example C35_case : exists s, srun (qs_step true) [QNew 0; QPush 0 1; QPush 0 2; QFront 0; QBack 0; QCopyNew 1 0; QPop 0; QFront 0; QAt 1 (-1); QIter 1; QDestroy 0; QSize 1; QEmpty 1] ∅
  = SVal ([RUnit; RUnit; RUnit; RVal 1; RVal 2; RUnit; RUnit; RVal 2; RVal 2; RList [1; 2]; RUnit; RNat 2; RBool false], s).
Proof. eexists. vm_compute. reflexivity. Qed.
Example C35_case_list : exists s, srun (qs_step false) [QNew 0; QIter 0; QPush 0 1; QPush 0 2; QFront 0; QMoveNew 1 0; QPop 1; QBack 1; QAssign 0 1; QIter 0]%nat ∅
  = SVal ([RUnit; RList []; RUnit; RUnit; RVal 1; RUnit; RUnit; RVal 2; RUnit; RList [2]], s).
Proof. eexists. vm_compute. reflexivity. Qed.
