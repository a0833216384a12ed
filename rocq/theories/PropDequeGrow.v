(** Property C75 (storage of a deque against its content). *)
From Verif Require Import Base VectorModel VectorSpec Adapter Hist ListModel DequeModel DequeSpec DequeDrift.

(** C75.  REFUTED.  Whatever happened before, pushing and popping one element n times
    over leaves size() as it was and makes capacity() at least n / 2: the storage of
    a deque used as a queue has no bound in terms of how many elements it holds. *)
Theorem C75_drift_refuted : forall (A : Type) (N : nat), 0 < N -> forall (ops : list (dop A)) rs s id l r x n,
  srun ds_step ops ∅ = SVal (rs, s) -> s !! id = Some (l, r) ->
  exists c w, mrun (dq_step N) (ops ++ mjoin (replicate n [DPush id x; DPop id]) ++ [DSize id; DCapacity id]) dst_init
    = Ok (rs ++ replicate (2 * n) RUnit ++ [RNat (length l); RNat c], w) /\ n <= 2 * c.
Proof. exact @drift. Qed.
Print Assumptions C75_drift_refuted.

(** No bound in terms of the content holds. *)
Theorem C75_no_bound_refuted : forall (A : Type) (N : nat), 0 < N -> A -> forall f : nat -> nat,
  ~ (forall (ops : list (dop A)) rs s id l r c w, srun ds_step ops ∅ = SVal (rs, s) -> s !! id = Some (l, r) ->
     mrun (dq_step N) (ops ++ [DCapacity id]) dst_init = Ok (rs ++ [RNat c], w) -> c <= f (length l)).
Proof. exact @no_bound. Qed.
Print Assumptions C75_no_bound_refuted.

(** What does hold: after every history capacity() is at most 8 times the number of
    elements ever put into the deque, plus 8 blocks. *)
Theorem C75_bound_partial : forall (A : Type) (N : nat), 0 < N -> forall (ops : list (dop A)) rs s id,
  srun ds_step ops ∅ = SVal (rs, s) -> is_Some (s !! id) ->
  exists c w, mrun (dq_step N) (ops ++ [DCapacity id]) dst_init = Ok (rs ++ [RNat c], w) /\ c <= 8 * (puts id ops ∅ + N).
Proof. exact @capacity_bound. Qed.
Print Assumptions C75_bound_partial.

Example C75_case : exists rs s, srun ds_step [DNew 0; DPushBack 0 1; DPushFront 0 2; DCopyNew 1 0; DPop 1]%nat ∅ = SVal (rs, s) /\ s !! 1 = Some ([1], true) /\
  puts 1 [DNew 0; DPushBack 0 1; DPushFront 0 2; DCopyNew 1 0; DPop 1]%nat ∅ = 2.
Proof. do 2 eexists. split; [vm_compute; reflexivity|]. split; vm_compute; reflexivity. Qed.
Example C75_case_drift : exists w, mrun (dq_step 2) (DNew 0 :: mjoin (replicate 20 [DPush 0 true; DPop 0]) ++ [DSize 0; DCapacity 0]) dst_init
  = Ok (replicate 41 RUnit ++ [RNat 0; RNat 32], w).
Proof. apply ran. vm_compute. reflexivity. Qed.
