(** C73: lists and queues in a static pool (dstruct::smemory, dstruct-static.hpp):
    a pool of MEM bytes holds as many nodes of n bytes as fit, n rounded up to a
    multiple of 8, however they were pushed and popped before. *)
From Verif Require Import Base Alloc AllocProofs VectorModel VectorSpec Adapter Hist ListModel ListSpec ListIterModel ListIterSpec DequeSpec QueueModel QueueSpec SMAModel SMASpec SMANodes SMANodesProofs StaticLists.
Local Open Scope nat_scope.

(** While all the lists together fit the calls answer as specified; when they do
    not the program crashes. *)
Theorem C73_dll : forall (A : Type) (junk : A) (MEM MAX n : Z), params MEM MAX -> (0 < n)%Z -> (n + 8 <= INT_MAX)%Z ->
  forall (ops : list (lop A)) rs s, srun (ls_step true) ops ∅ = SVal (rs, s) ->
  ((forall ops1 ops2 rs1 s1, ops = ops1 ++ ops2 -> srun (ls_step true) ops1 ∅ = SVal (rs1, s1) -> (Z.of_nat (ListSpec.elements_total s1) * rounded n <= MEM)%Z) ->
     exists w, mrun (dl_step junk) ops (lst_init (sma_nodes MEM MAX n)) = Ok (rs, w)) /\
  ((exists ops1 ops2 rs1 s1, ops = ops1 ++ ops2 /\ srun (ls_step true) ops1 ∅ = SVal (rs1, s1) /\ (MEM < Z.of_nat (ListSpec.elements_total s1) * rounded n)%Z) ->
     mrun (dl_step junk) ops (lst_init (sma_nodes MEM MAX n)) = Abort).
Proof. exact @dl_static. Qed.
Print Assumptions C73_dll.

Theorem C73_sll : forall (A : Type) (junk : A) (MEM MAX n : Z), params MEM MAX -> (0 < n)%Z -> (n + 8 <= INT_MAX)%Z ->
  forall (ops : list (lop A)) rs s, srun (ls_step false) ops ∅ = SVal (rs, s) ->
  ((forall ops1 ops2 rs1 s1, ops = ops1 ++ ops2 -> srun (ls_step false) ops1 ∅ = SVal (rs1, s1) -> (Z.of_nat (ListSpec.elements_total s1) * rounded n <= MEM)%Z) ->
     exists w, mrun (sl_step junk) ops (lst_init (sma_nodes MEM MAX n)) = Ok (rs, w)) /\
  ((exists ops1 ops2 rs1 s1, ops = ops1 ++ ops2 /\ srun (ls_step false) ops1 ∅ = SVal (rs1, s1) /\ (MEM < Z.of_nat (ListSpec.elements_total s1) * rounded n)%Z) ->
     mrun (sl_step junk) ops (lst_init (sma_nodes MEM MAX n)) = Abort).
Proof. exact @sl_static. Qed.
Print Assumptions C73_sll.

Theorem C73_queue : forall (A : Type) (junk : A) (MEM MAX n : Z), params MEM MAX -> (0 < n)%Z -> (n + 8 <= INT_MAX)%Z ->
  forall (ops : list (qop A)) rs s, srun (qs_step false) ops ∅ = SVal (rs, s) ->
  ((forall ops1 ops2 rs1 s1, ops = ops1 ++ ops2 -> srun (qs_step false) ops1 ∅ = SVal (rs1, s1) -> (Z.of_nat (elements_total s1) * rounded n <= MEM)%Z) ->
     exists w, mrun (ql_step junk) ops (lst_init (sma_nodes MEM MAX n)) = Ok (rs, w)) /\
  ((exists ops1 ops2 rs1 s1, ops = ops1 ++ ops2 /\ srun (qs_step false) ops1 ∅ = SVal (rs1, s1) /\ (MEM < Z.of_nat (elements_total s1) * rounded n)%Z) ->
     mrun (ql_step junk) ops (lst_init (sma_nodes MEM MAX n)) = Abort).
Proof. exact @ql_static. Qed.
Print Assumptions C73_queue.

Theorem C73_iterators : forall (A : Type) (junk : A) (MEM MAX n : Z), params MEM MAX -> (0 < n)%Z -> (n + 8 <= INT_MAX)%Z ->
  forall (dbl : bool) (ops : list (iop A)) rs s, srun (is_step dbl) ops ispec0 = SVal (rs, s) ->
  ((forall ops1 ops2 rs1 s1, ops = ops1 ++ ops2 -> srun (is_step dbl) ops1 ispec0 = SVal (rs1, s1) -> (Z.of_nat (ListSpec.elements_total (strip (s_lists s1))) * rounded n <= MEM)%Z) ->
     exists w, mrun (it_step junk dbl) ops (lst_init (sma_nodes MEM MAX n), ∅) = Ok (rs, w)) /\
  ((exists ops1 ops2 rs1 s1, ops = ops1 ++ ops2 /\ srun (is_step dbl) ops1 ispec0 = SVal (rs1, s1) /\ (MEM < Z.of_nat (ListSpec.elements_total (strip (s_lists s1))) * rounded n)%Z) ->
     mrun (it_step junk dbl) ops (lst_init (sma_nodes MEM MAX n), ∅) = Abort).
Proof. exact @it_static. Qed.
Print Assumptions C73_iterators.

(** What the allocator does for nodes of one size: it hands out no node in use,
    and it refuses exactly when one more node does not fit ... *)
Theorem C73_policy : forall (MEM MAX n : Z), params MEM MAX -> (0 < n)%Z -> (n + 8 <= INT_MAX)%Z ->
  sound (sma_nodes MEM MAX n) /\
  forall log, served (sma_nodes MEM MAX n) log ->
    (is_Some (sma_nodes MEM MAX n log) <-> (Z.of_nat (S (size (al_live log))) * rounded n <= MEM)%Z).
Proof. exact nodes_policy. Qed.
Print Assumptions C73_policy.
(** ... nodes in use do not overlap ... *)
Theorem C73_apart : forall (MEM MAX n : Z), params MEM MAX -> (0 < n)%Z -> (n + 8 <= INT_MAX)%Z ->
  forall log, served (sma_nodes MEM MAX n) log ->
    (forall a, a ∈ al_live log -> (Z.of_nat a mod 8 = 0 /\ Z.of_nat a + n <= MEM)%Z) /\
    (forall a b, a ∈ al_live log -> b ∈ al_live log -> a <> b -> disjoint_ranges (Z.of_nat a) n (Z.of_nat b) n).
Proof. exact nodes_apart. Qed.
Print Assumptions C73_apart.
(** ... and what is written into nodes in use does not change what it answers. *)
Theorem C73_writes : forall (MEM MAX n : Z), params MEM MAX -> (0 < n)%Z -> (n + 8 <= INT_MAX)%Z ->
  forall log st, sma_runs MEM MAX n log st -> served (sma_nodes MEM MAX n) log /\
    exists p st', allocate MEM MAX n st = Ok (p, st') /\ Z.to_nat <$> p = sma_nodes MEM MAX n log.
Proof. exact runs_answers. Qed.
Print Assumptions C73_writes.
(** In a pool shared with others the answers are those of a sound allocator, so
    that C72 applies. *)
Theorem C73_shared : forall (MEM MAX n : Z), params MEM MAX -> (0 < n)%Z -> (n + 8 <= INT_MAX)%Z ->
  forall log st led p st', sma_shared MEM MAX n log st led -> allocate MEM MAX n st = Ok (p, st') ->
    exists pol, sound pol /\ served pol log /\ pol log = Z.to_nat <$> p.
Proof. exact shared_policy. Qed.
Print Assumptions C73_shared.

(** The pool of dstruct::smemory and the nodes of a DLinkedList<int>: 426 of them. *)
Example C73_case_smemory : params 10240 128 /\ (0 < 24)%Z /\ (24 + 8 <= INT_MAX)%Z /\ (Z.of_nat 426 * rounded 24 <= 10240)%Z /\ (10240 < Z.of_nat 427 * rounded 24)%Z.
Proof. unfold params, INT_MAX. change (rounded 24) with 24%Z. repeat split; lia. Qed.
(** A pool of 80 bytes: three nodes fit, a node popped makes room for another,
    and the fourth does not fit. *)
Definition C73_ops : list (lop nat) := [LNew 0; LPushBack 0 1; LPushBack 0 2; LPushFront 0 0; LPopBack 0; LNew 1; LPushFront 1 9; LIter 0; LIter 1].
Definition C73_out : list (out nat) := [RUnit; RUnit; RUnit; RUnit; RUnit; RUnit; RUnit; RList [0; 1]; RList [9]].
Example C73_case_fits : params 80 16 /\ (exists s, srun (ls_step true) C73_ops ∅ = SVal (C73_out, s)) /\
  match mrun (dl_step 0) C73_ops (lst_init (sma_nodes 80 16 24)) with
  | Ok (rs, w) => Some (rs, map (fun a => bool_decide (a ∈ al_live (al_log (l_al w)))) [0; 24; 48])
  | _ => None
  end = Some (C73_out, [true; true; true]).
Proof. split; [unfold params, INT_MAX; repeat split; lia|]. split; [eexists|]; vm_compute; reflexivity. Qed.
Example C73_case_full : exists s, srun (ls_step true) (C73_ops ++ [LPushBack 1 8]) ∅ = SVal (C73_out ++ [RUnit], s) /\
  (80 < Z.of_nat (ListSpec.elements_total s) * rounded 24)%Z /\
  mrun (dl_step 0) (C73_ops ++ [LPushBack 1 8]) (lst_init (sma_nodes 80 16 24)) = Abort.
Proof. eexists. split; [vm_compute; reflexivity|]. split; vm_compute; reflexivity. Qed.
(** A run with a write into a node, and a shared pool with a block of another size. *)
Example C73_case_runs : exists st, sma_runs 80 16 24 [Got 0; Gave 0; Got 24; Got 0] st.
Proof.
  eexists. eapply (runs_got _ _ _ _ _ 0%Z).
  - eapply runs_gave with (a := 0).
    + eapply runs_write with (a := 0) (x := 8%Z) (w := 77%Z).
      * eapply (runs_got _ _ _ _ _ 24%Z); [eapply (runs_got _ _ _ _ _ 0%Z); [apply runs_init|vm_compute; reflexivity]|vm_compute; reflexivity].
      * apply elem_of_union. right. apply elem_of_union. left. apply elem_of_singleton. reflexivity.
      * unfold within. change (rounded 24) with 24%Z. lia.
      * reflexivity.
      * vm_compute. reflexivity.
    + apply elem_of_union. right. apply elem_of_union. left. apply elem_of_singleton. reflexivity.
    + vm_compute. reflexivity.
  - vm_compute. reflexivity.
Qed.
Example C73_case_shared : exists st led st', sma_shared 80 16 24 [Got 32; Got 0] st led /\ led !! 24%Z = Some 5%Z /\ allocate 80 16 24 st = Ok (Some 56%Z, st').
Proof.
  do 3 eexists. split; [|split].
  - eapply (shared_got _ _ _ _ _ _ 32%Z); [eapply (shared_other_got _ _ _ _ _ _ 5%Z (Some 24%Z)); [eapply (shared_got _ _ _ _ _ _ 0%Z); [apply shared_init|vm_compute; reflexivity]|lia|unfold INT_MAX; lia|vm_compute; reflexivity]|vm_compute; reflexivity].
  - reflexivity.
  - vm_compute. reflexivity.
Qed.
