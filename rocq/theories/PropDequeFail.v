(** Property C82 (deques when the allocator refuses requests). *)
From Verif Require Import Base VectorModel VectorSpec VecProg Adapter Hist DequeModel DequeSpec QueueModel QueueSpec StackModel StackOtherSpec VecFailModel DequeFailModel DequeFail.
Local Open Scope nat_scope.

(** C82.  A history over any number of deques makes some number [n] of requests.
    If none of them is refused it answers as sequences do and has its storage
    accounted for; if any of them is refused, whichever it is, it crashes. *)
Theorem C82_deque : forall (A : Type) (N : nat), 0 < N -> forall ops : list (dop A),
  match srun ds_step ops ∅ with
  | SVal (rs, s) => exists w n, blocks_allocated w * N = capacity_total w /\ elements_live w = elements_total s /\ forall fail,
      ((forall k, k < n -> fail k = false) -> mrun (fd_step N fail) ops fd_start = Ok (rs, (w, n))) /\
      (forall k, k < n -> fail k = true -> mrun (fd_step N fail) ops fd_start = Abort)
  | SAbort => forall fail, mrun (fd_step N fail) ops fd_start = Abort
  | SUnspec => True
  end.
Proof. exact @deque_fail. Qed.
Print Assumptions C82_deque.

(** The same for queues ... *)
Theorem C82_queue : forall (A : Type) (N : nat), 0 < N -> forall ops : list (qop A),
  match srun (qs_step true) ops ∅ with
  | SVal (rs, s) => exists w n, blocks_allocated w * N = capacity_total w /\ elements_live w = elements_total s /\ forall fail,
      ((forall k, k < n -> fail k = false) -> mrun (fq_step N fail) ops fd_start = Ok (rs, (w, n))) /\
      (forall k, k < n -> fail k = true -> mrun (fq_step N fail) ops fd_start = Abort)
  | SAbort => forall fail, mrun (fq_step N fail) ops fd_start = Abort
  | SUnspec => True
  end.
Proof. exact @queue_fail. Qed.
Print Assumptions C82_queue.

(** ... and for stacks over deques. *)
Theorem C82_stack : forall (A : Type) (N : nat), 0 < N -> forall ops : list (kop A),
  match srun (ko_step OnDeque) ops ∅ with
  | SVal (rs, s) => exists w n, blocks_allocated w * N = capacity_total w /\ elements_live w = elements_total s /\ forall fail,
      ((forall k, k < n -> fail k = false) -> mrun (fk_step N fail) ops fd_start = Ok (rs, (w, n))) /\
      (forall k, k < n -> fail k = true -> mrun (fk_step N fail) ops fd_start = Abort)
  | SAbort => forall fail, mrun (fk_step N fail) ops fd_start = Abort
  | SUnspec => True
  end.
Proof. exact @stack_fail. Qed.
Print Assumptions C82_stack.

(** Any history of calls at all, specified or not, either crashes or does what it
    does with an allocator that refuses nothing. *)
Theorem C82_any : forall (A : Type) (N : nat) (fail : nat -> bool) (ops : list (dop A)),
  mrun (fd_step N fail) ops fd_start = Abort \/
  match mrun (dq_step N) ops dst_init with
  | Ok (rs, w) => exists n, mrun (fd_step N fail) ops fd_start = Ok (rs, (w, n))
  | Abort => False
  | UB => mrun (fd_step N fail) ops fd_start = UB
  | Diverge => mrun (fd_step N fail) ops fd_start = Diverge
  end.
Proof. exact @deque_fail_any. Qed.
Print Assumptions C82_any.

(** Only pushing and copying request memory: after any history, any other call
    succeeds even when every request is refused.  In particular popping does. *)
Theorem C82_calm : forall (A : Type) (N : nat), 0 < N -> forall fail (ops : list (dop A)) o rs r s s' w n,
  srun ds_step ops ∅ = SVal (rs, s) -> ds_step o s = SVal (r, s') ->
  match o with DPushBack _ _ | DPushFront _ _ | DPush _ _ | DCopyNew _ _ | DAssign _ _ => False | _ => True end ->
  mrun (fd_step N fail) ops fd_start = Ok (rs, (w, n)) ->
  exists w', fd_step N fail o (w, n) = Ok (r, (w', n)).
Proof. exact @calm_history. Qed.
Print Assumptions C82_calm.

(** And pushing requests memory only when it changes capacity(). *)
Theorem C82_push : forall (A : Type) (N : nat), 0 < N -> forall fail (ops : list (dop A)) id x o rs s l b w n c w2,
  srun ds_step ops ∅ = SVal (rs, s) -> s !! id = Some (l, b) ->
  o = DPushBack id x \/ o = DPushFront id x \/ o = DPush id x ->
  mrun (dq_step N) (ops ++ [DCapacity id; o; DCapacity id]) dst_init = Ok (rs ++ [RNat c; RUnit; RNat c], w2) ->
  mrun (fd_step N fail) ops fd_start = Ok (rs, (w, n)) ->
  exists w', fd_step N fail o (w, n) = Ok (RUnit, (w', n)).
Proof. exact @push_history. Qed.
Print Assumptions C82_push.

(** The map table is a vector.  Filling a new table and enlarging one crash when
    their request is refused, and so does copying one. *)
Theorem C82_table : forall (A : Type) (triv : bool) (fail : nat -> bool) (n : nat) (a : A) v m, 0 < n -> fail (m_next m) = true ->
  (v = v_empty \/ 0 < v_size v /\ v_size v <= n /\ exists p, load (v_ptr v) 0 m = Ok (p, m)) -> f_resize_fill triv fail n (AVal a) v m = Abort.
Proof. exact @table_fill. Qed.
Print Assumptions C82_table.
Theorem C82_table_copy : forall (A : Type) (triv : bool) (fail : nat -> bool) v (m : mem A), 0 < v_size v -> 0 < v_cap v -> fail (m_next m) = true ->
  f_copy_assign triv fail v_empty v m = Abort.
Proof. exact @table_copy. Qed.
Print Assumptions C82_table_copy.

(** Non-trivial cases.  With blocks of 2 the first push makes three requests (the
    table and two blocks) and the third, when the last block is full, five more
    (two tables, three blocks).  The fifth of these eight, refused, crashes the third
    push; with every further request refused the elements can still be taken out. *)
Definition c82_two : list (dop nat) := [DNew 0; DPushBack 0 1; DPushBack 0 2].
Definition c82_full : list (dop nat) := c82_two ++ [DPushBack 0 3].
Example C82_case :
  (exists w, mrun (fd_step 2 (fun _ => false)) c82_two fd_start = Ok ([RUnit; RUnit; RUnit], (w, 3))) /\
  (exists w n, mrun (fd_step 2 (fun _ => false)) c82_full fd_start = Ok ([RUnit; RUnit; RUnit; RUnit], (w, n)) /\ n = 8) /\
  (exists s, srun ds_step c82_full ∅ = SVal ([RUnit; RUnit; RUnit; RUnit], s)) /\
  mrun (fd_step 2 (fun k => k =? 4)) c82_full fd_start = Abort /\
  (exists w, mrun (fd_step 2 (fun k => 8 <=? k)) (c82_full ++ [DPopFront 0; DPopBack 0; DIter 0; DClear 0; DDestroy 0]) fd_start =
    Ok ([RUnit; RUnit; RUnit; RUnit; RUnit; RUnit; RList [2]; RUnit; RUnit], (w, 8))).
Proof.
  split; [eexists; vm_compute; reflexivity|]. split; [do 2 eexists; split; [vm_compute; reflexivity|reflexivity]|]. split; [eexists; vm_compute; reflexivity|].
  split; [vm_compute; reflexivity|]. eexists. vm_compute. reflexivity.
Qed.
(** A push that leaves capacity() as it is, with every further request refused. *)
Example C82_case_push :
  (exists w2, mrun (dq_step 2) ([DNew 0; DPushBack 0 1] ++ [DCapacity 0; DPushFront 0 9; DCapacity 0]) dst_init = Ok ([RUnit; RUnit] ++ [RNat 4; RUnit; RNat 4], w2)) /\
  (exists w, mrun (fd_step 2 (fun k => 3 <=? k)) ([DNew 0; DPushBack 0 1; DPushFront 0 9; DIter 0]) fd_start = Ok ([RUnit; RUnit; RUnit; RList [9; 1]], (w, 3))).
Proof. split; eexists; vm_compute; reflexivity. Qed.
Example C82_case_queue : exists s w, srun (qs_step true) [QNew 0; QPush 0 5; QPush 0 6; QPop 0; QFront 0] ∅ = SVal ([RUnit; RUnit; RUnit; RUnit; RVal 6], s) /\
  mrun (fq_step 4 (fun _ => false)) [QNew 0; QPush 0 5; QPush 0 6; QPop 0; QFront 0] fd_start = Ok ([RUnit; RUnit; RUnit; RUnit; RVal 6], (w, 3)) /\
  mrun (fq_step 4 (fun k => k =? 2)) [QNew 0; QPush 0 5; QPush 0 6; QPop 0; QFront 0] fd_start = Abort.
Proof. do 2 eexists. split; [vm_compute; reflexivity|]. split; vm_compute; reflexivity. Qed.
Example C82_case_stack : exists s w, srun (ko_step OnDeque) [KNew 0; KPush 0 5; KPush 0 6; KPop 0; KTop 0] ∅ = SVal ([RUnit; RUnit; RUnit; RUnit; RVal 5], s) /\
  mrun (fk_step 4 (fun _ => false)) [KNew 0; KPush 0 5; KPush 0 6; KPop 0; KTop 0] fd_start = Ok ([RUnit; RUnit; RUnit; RUnit; RVal 5], (w, 3)) /\
  mrun (fk_step 4 (fun k => k =? 0)) [KNew 0; KPush 0 5; KPush 0 6; KPop 0; KTop 0] fd_start = Abort.
Proof. do 2 eexists. split; [vm_compute; reflexivity|]. split; vm_compute; reflexivity. Qed.
(** A table of two entries that is to grow, its request (number 1) refused. *)
Example C82_case_table : exists (m : mem nat) v, mrun (v_step true) [OFill 0 2 7] (world_init (A := nat)) = Ok ([RUnit], World m (<[0 := v]> ∅)) /\
  v_size v = 2 /\ load (v_ptr v) 0 m = Ok (7, m) /\ m_next m = 1 /\ f_resize_fill true (fun k => k =? 1) 4 (AVal 7) v m = Abort /\ f_copy_assign true (fun k => k =? 1) v_empty v m = Abort.
Proof. do 2 eexists. split; [vm_compute; reflexivity|]. repeat (split; [vm_compute; reflexivity|]). vm_compute. reflexivity. Qed.
