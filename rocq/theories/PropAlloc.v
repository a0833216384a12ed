(** C72: lists do not depend on where the allocator puts their nodes, and crash
    for want of memory only when the allocator refuses.  [sound] asks of the
    allocator only that it hands out no address in use; addresses of freed nodes
    may be used again. *)
From Verif Require Import Base Alloc AllocProofs VectorModel VectorSpec Adapter Hist ListModel ListSpec ListHist2 ListHist3 ListIterModel ListIterSpec ListIterProofs QueueModel QueueSpec QueueProofs ListAlloc.

(** The calls answer as specified, with one node per element, or there is a crash
    and at some call of the history the allocator refuses with fewer nodes in use
    than there are elements after the call. *)
Theorem C72_dll : forall (A : Type) (junk : A) (pol : policy) (ops : list (lop A)), sound pol ->
  match srun (ls_step true) ops ∅ with
  | SVal (rs, s) =>
      (exists w, mrun (dl_step junk) ops (lst_init pol) = Ok (rs, w) /\ nodes_allocated w = elements_total s) \/
      (mrun (dl_step junk) ops (lst_init pol) = Abort /\
       exists ops1 ops2 rs1 s1, ops = ops1 ++ ops2 /\ srun (ls_step true) ops1 ∅ = SVal (rs1, s1) /\ refuses pol (elements_total s1))
  | SAbort => mrun (dl_step junk) ops (lst_init pol) = Abort
  | SUnspec => True
  end.
Proof. exact @dl_history_or. Qed.
Print Assumptions C72_dll.

Theorem C72_sll : forall (A : Type) (junk : A) (pol : policy) (ops : list (lop A)), sound pol ->
  match srun (ls_step false) ops ∅ with
  | SVal (rs, s) =>
      (exists w, mrun (sl_step junk) ops (lst_init pol) = Ok (rs, w) /\ nodes_allocated w = elements_total s) \/
      (mrun (sl_step junk) ops (lst_init pol) = Abort /\
       exists ops1 ops2 rs1 s1, ops = ops1 ++ ops2 /\ srun (ls_step false) ops1 ∅ = SVal (rs1, s1) /\ refuses pol (elements_total s1))
  | SAbort => mrun (sl_step junk) ops (lst_init pol) = Abort
  | SUnspec => True
  end.
Proof. exact @sl_history_or. Qed.
Print Assumptions C72_sll.

(** The same for queues over lists ... *)
Theorem C72_queue : forall (A : Type) (junk : A) (pol : policy) (ops : list (qop A)), sound pol ->
  match srun (qs_step false) ops ∅ with
  | SVal (rs, s) =>
      (exists w, mrun (ql_step junk) ops (lst_init pol) = Ok (rs, w) /\ nodes_allocated w = DequeSpec.elements_total s) \/
      (mrun (ql_step junk) ops (lst_init pol) = Abort /\
       exists ops1 ops2 rs1 s1, ops = ops1 ++ ops2 /\ srun (qs_step false) ops1 ∅ = SVal (rs1, s1) /\ refuses pol (DequeSpec.elements_total s1))
  | SAbort => mrun (ql_step junk) ops (lst_init pol) = Abort
  | SUnspec => True
  end.
Proof. exact @queue_list_history_or. Qed.
Print Assumptions C72_queue.

(** ... and for lists with iterators. *)
Theorem C72_iterators : forall (A : Type) (junk : A) (dbl : bool) (pol : policy) (ops : list (iop A)), sound pol ->
  match srun (is_step dbl) ops ispec0 with
  | SVal (rs, _) => (exists w, mrun (it_step junk dbl) ops (lst_init pol, ∅) = Ok (rs, w)) \/
      (mrun (it_step junk dbl) ops (lst_init pol, ∅) = Abort /\
       exists ops1 ops2 rs1 s1, ops = ops1 ++ ops2 /\ srun (is_step dbl) ops1 ispec0 = SVal (rs1, s1) /\ refuses pol (elements_total (strip (s_lists s1))))
  | SAbort => mrun (it_step junk dbl) ops (lst_init pol, ∅) = Abort
  | SUnspec => True
  end.
Proof. exact @iter_history_or. Qed.
Print Assumptions C72_iterators.

(** With room for [n] nodes the history runs if there are never more than [n]
    elements, and crashes if there are. *)
Theorem C72_dll_limited : forall (A : Type) (junk : A) (pol : policy) (n : nat), sound pol -> grants pol -> forall (ops : list (lop A)) rs s,
  srun (ls_step true) ops ∅ = SVal (rs, s) ->
  ((forall ops1 ops2 rs1 s1, ops = ops1 ++ ops2 -> srun (ls_step true) ops1 ∅ = SVal (rs1, s1) -> elements_total s1 <= n) ->
     exists w, mrun (dl_step junk) ops (lst_init (limit n pol)) = Ok (rs, w)) /\
  ((exists ops1 ops2 rs1 s1, ops = ops1 ++ ops2 /\ srun (ls_step true) ops1 ∅ = SVal (rs1, s1) /\ n < elements_total s1) ->
     mrun (dl_step junk) ops (lst_init (limit n pol)) = Abort).
Proof. exact @dl_limited. Qed.
Print Assumptions C72_dll_limited.

Theorem C72_sll_limited : forall (A : Type) (junk : A) (pol : policy) (n : nat), sound pol -> grants pol -> forall (ops : list (lop A)) rs s,
  srun (ls_step false) ops ∅ = SVal (rs, s) ->
  ((forall ops1 ops2 rs1 s1, ops = ops1 ++ ops2 -> srun (ls_step false) ops1 ∅ = SVal (rs1, s1) -> elements_total s1 <= n) ->
     exists w, mrun (sl_step junk) ops (lst_init (limit n pol)) = Ok (rs, w)) /\
  ((exists ops1 ops2 rs1 s1, ops = ops1 ++ ops2 /\ srun (ls_step false) ops1 ∅ = SVal (rs1, s1) /\ n < elements_total s1) ->
     mrun (sl_step junk) ops (lst_init (limit n pol)) = Abort).
Proof. exact @sl_limited. Qed.
Print Assumptions C72_sll_limited.

Theorem C72_queue_limited : forall (A : Type) (junk : A) (pol : policy) (n : nat), sound pol -> grants pol -> forall (ops : list (qop A)) rs s,
  srun (qs_step false) ops ∅ = SVal (rs, s) ->
  ((forall ops1 ops2 rs1 s1, ops = ops1 ++ ops2 -> srun (qs_step false) ops1 ∅ = SVal (rs1, s1) -> DequeSpec.elements_total s1 <= n) ->
     exists w, mrun (ql_step junk) ops (lst_init (limit n pol)) = Ok (rs, w)) /\
  ((exists ops1 ops2 rs1 s1, ops = ops1 ++ ops2 /\ srun (qs_step false) ops1 ∅ = SVal (rs1, s1) /\ n < DequeSpec.elements_total s1) ->
     mrun (ql_step junk) ops (lst_init (limit n pol)) = Abort).
Proof. exact @ql_limited. Qed.
Print Assumptions C72_queue_limited.

(** There are such allocators: always a new address, the lowest free address, the
    address given back last, and each of these with room for [n] nodes only. *)
Example C72_case_policies : sound bump /\ grants bump /\ sound lowest /\ grants lowest /\ sound last_back /\ grants last_back /\
  (forall n, sound (limit n lowest)) /\ sound (limit 3 last_back).
Proof.
  split; [apply bump_sound|]. split; [apply bump_grants|]. split; [apply lowest_sound|]. split; [apply lowest_grants|].
  split; [apply last_back_sound|]. split; [apply last_back_grants|]. split; [intros n|]; apply limit_sound; [apply lowest_sound|apply last_back_sound].
Qed.
(** Addresses are used again, and the answers are the same. *)
Definition C72_ops : list (lop nat) :=
  [LNew 0; LPushBack 0 10; LPushBack 0 20; LPushFront 0 5; LPopFront 0; LPopBack 0; LPushBack 0 30; LNew 1; LPushFront 1 7; LPopFront 0; LAssign 1 1; LPushBack 1 8; LIter 0; LIter 1].
Definition C72_out : list (out nat) :=
  [RUnit; RUnit; RUnit; RUnit; RUnit; RUnit; RUnit; RUnit; RUnit; RUnit; RUnit; RUnit; RList [30]; RList [7; 8]].
Example C72_case_reuse : forall dbl, exists s, srun (ls_step dbl) C72_ops ∅ = SVal (C72_out, s).
Proof. intros []; eexists; vm_compute; reflexivity. Qed.
Definition C72_used (w : lst nat) : list bool := map (fun a => bool_decide (a ∈ al_live (al_log (l_al w)))) [0; 1; 2; 3; 4; 5].
Example C72_case_places :
  (exists w, mrun (dl_step 0) C72_ops (lst_init bump) = Ok (C72_out, w) /\ C72_used w = [false; false; false; true; true; true]) /\
  (exists w, mrun (dl_step 0) C72_ops (lst_init lowest) = Ok (C72_out, w) /\ C72_used w = [true; true; true; false; false; false]) /\
  (exists w, mrun (sl_step 0) C72_ops (lst_init last_back) = Ok (C72_out, w) /\ C72_used w = [true; true; false; true; false; false]) /\
  (exists w, mrun (sl_step 0) C72_ops (lst_init (limit 3 lowest)) = Ok (C72_out, w)) /\
  mrun (sl_step 0) C72_ops (lst_init (limit 2 lowest)) = Abort.
Proof.
  split; [apply (ran_with C72_used); vm_compute; reflexivity|]. split; [apply (ran_with C72_used); vm_compute; reflexivity|].
  split; [apply (ran_with C72_used); vm_compute; reflexivity|]. split; [apply ran|]; vm_compute; reflexivity.
Qed.
(** Three elements at most, at the fourth call and at the end. *)
Example C72_case_limited : exists rs1 s1, srun (ls_step true) (take 4 C72_ops) ∅ = SVal (rs1, s1) /\ elements_total s1 = 3 /\
  C72_ops = take 4 C72_ops ++ drop 4 C72_ops.
Proof. do 2 eexists. split; [vm_compute; reflexivity|]. split; vm_compute; reflexivity. Qed.
