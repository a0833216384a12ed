(** Property C78 (constructor and destructor calls of deques). *)
From Verif Require Import Base VectorModel VectorSpec Adapter Hist ListModel DequeModel DequeSpec DequeLifeSpec DequeLife.

(** C78.  REFUTED.  Once a deque has held an element, then however the history goes on,
    when all deques are destroyed and all storage is given back, constructors of T have
    been called more often than ~T(), by ARR_SIZE for every block ever allocated, of
    which there were at least two. *)
Theorem C78_leak_refuted : forall (A : Type) (N : nat), 0 < N -> forall (ops1 ops2 : list (dop A)) rs1 rs2 s s2 id l r,
  srun ds_step ops1 ∅ = SVal (rs1, s) -> s !! id = Some (l, r) -> l <> [] -> srun ds_step ops2 s = SVal (rs2, s2) -> size s2 = 0 ->
  exists w, mrun (dq_step N) (ops1 ++ ops2) dst_init = Ok (rs1 ++ rs2, w) /\ d_blk w = ∅ /\ d_obj w = ∅ /\
    t_ctor (d_cnt w) = t_dtor (d_cnt w) + d_fresh w * N /\ 2 <= d_fresh w.
Proof. exact @leak. Qed.
Print Assumptions C78_leak_refuted.

(** What does hold: after every history, apart from the calls that preparing a block
    makes (2 * ARR_SIZE constructions and ARR_SIZE destructions), every element put into
    a deque has been constructed once, and destroyed once unless a deque still holds it. *)
Theorem C78_lifetimes_partial : forall (A : Type) (N : nat), 0 < N -> forall (ops : list (dop A)) rs s,
  srun ds_step ops ∅ = SVal (rs, s) ->
  exists w, mrun (dq_step N) ops dst_init = Ok (rs, w) /\
    t_ctor (d_cnt w) = d_fresh w * (2 * N) + puts_all ops ∅ /\ t_dtor (d_cnt w) + elements_total s = d_fresh w * N + puts_all ops ∅.
Proof. exact @lifetimes. Qed.
Print Assumptions C78_lifetimes_partial.

Example C78_case_leak : exists rs1 s rs2 s2, srun ds_step [DNew 0; DPushBack 0 1; DPushFront 0 2; DNew 1; DAssign 1 0]%nat ∅ = SVal (rs1, s) /\
  s !! 1 = Some ([2; 1], true) /\ srun ds_step [DPop 1; DDestroy 0; DDestroy 1] s = SVal (rs2, s2) /\ size s2 = 0.
Proof. do 4 eexists. split; [vm_compute; reflexivity|]. split; [vm_compute; reflexivity|]. split; [vm_compute; reflexivity|]. vm_compute. reflexivity. Qed.
Example C78_case_counts : exists rs w, mrun (dq_step 4) [DNew 0; DPushBack 0 true; DPushFront 0 false; DDestroy 0] dst_init = Ok (rs, w) /\
  t_ctor (d_cnt w) = 18 /\ t_dtor (d_cnt w) = 10.
Proof. do 2 eexists. split; [vm_compute; reflexivity|]. split; vm_compute; reflexivity. Qed.
