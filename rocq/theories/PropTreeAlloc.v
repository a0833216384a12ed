(** C74: trees and maps do not depend on where the allocator puts their nodes, and
    crash for want of memory only when the allocator refuses; how many elements a
    bounded allocator and a static pool hold. *)
From Verif Require Import Base Alloc AllocProofs VectorModel VectorSpec Adapter Hist TreeModel TreeSpec TreeWorld TreeWSpec TreeHist MapHist ListIterSpec TreeIterModel TreeIterSpec TreeIterProofs BstWorld BstSpec BstHist SMAModel SMASpec SMANodes TreeRoom PropTreeIter.
Local Open Scope nat_scope.

(** The calls answer as specified, with one node per element, or there is a crash
    and at some call of the history the allocator refuses with fewer nodes in use
    than there are elements after the call. *)
Theorem C74_avl : forall (A : Type) (cmp : A -> A -> bool), swo cmp -> forall (pol : policy) (ops : list (top A)), sound pol ->
  match srun (ts_step cmp) ops ∅ with
  | SVal (rs, s) => (exists w, mrun (t_step cmp) ops (tw_init pol) = Ok (rs, w) /\ size (tw_heap w) = total s) \/
      (mrun (t_step cmp) ops (tw_init pol) = Abort /\
       exists ops1 ops2 rs1 s1, ops = ops1 ++ ops2 /\ srun (ts_step cmp) ops1 ∅ = SVal (rs1, s1) /\ refuses pol (total s1))
  | SAbort => mrun (t_step cmp) ops (tw_init pol) = Abort
  | SUnspec => True
  end.
Proof. exact @t_history_or. Qed.
Print Assumptions C74_avl.

Theorem C74_map : forall (K V : Type) (lt : K -> K -> bool) (dflt : V), swo lt -> forall (pol : policy) (ops : list (mop K V)), sound pol ->
  match srun (ms_step lt dflt) ops ∅ with
  | SVal (rs, s) => (exists w, mrun (m_step lt dflt) ops (tw_init pol) = Ok (rs, w) /\ size (tw_heap w) = total s) \/
      (mrun (m_step lt dflt) ops (tw_init pol) = Abort /\
       exists ops1 ops2 rs1 s1, ops = ops1 ++ ops2 /\ srun (ms_step lt dflt) ops1 ∅ = SVal (rs1, s1) /\ refuses pol (total s1))
  | SAbort => mrun (m_step lt dflt) ops (tw_init pol) = Abort
  | SUnspec => True
  end.
Proof. exact @m_history_or. Qed.
Print Assumptions C74_map.

Theorem C74_bst : forall (A : Type) (cmp : A -> A -> bool), swo cmp -> forall (pol : policy) (ops : list (bop A)), sound pol ->
  match srun (bs_step cmp) ops ∅ with
  | SVal (rs, s) => (exists w, mrun (b_step cmp) ops (tw_init pol) = Ok (rs, w) /\ size (tw_heap w) = btotal s) \/
      (mrun (b_step cmp) ops (tw_init pol) = Abort /\
       exists ops1 ops2 rs1 s1, ops = ops1 ++ ops2 /\ srun (bs_step cmp) ops1 ∅ = SVal (rs1, s1) /\ refuses pol (btotal s1))
  | SAbort => mrun (b_step cmp) ops (tw_init pol) = Abort
  | SUnspec => True
  end.
Proof. exact @b_history_or. Qed.
Print Assumptions C74_bst.

Theorem C74_iterators : forall (A : Type) (cmp : A -> A -> bool), swo cmp -> forall (pol : policy), sound pol -> forall ops : list (kop A),
  match srun (ks_step cmp) ops kspec0 with
  | SVal (rs, _) => (exists w, mrun (kt_step cmp) ops (tw_init pol, ∅) = Ok (rs, w)) \/
      (mrun (kt_step cmp) ops (tw_init pol, ∅) = Abort /\
       exists ops1 ops2 rs1 s1, ops = ops1 ++ ops2 /\ srun (ks_step cmp) ops1 kspec0 = SVal (rs1, s1) /\ refuses pol (total (strip (k_sets s1))))
  | SAbort => mrun (kt_step cmp) ops (tw_init pol, ∅) = Abort
  | SUnspec => True
  end.
Proof. exact @k_history_or. Qed.
Print Assumptions C74_iterators.

(** With room for [n] nodes the history runs if there are never more than [n]
    elements, and crashes if there are. *)
Theorem C74_avl_limited : forall (pol : policy) (n : nat), sound pol -> grants pol -> forall (A : Type) (cmp : A -> A -> bool), swo cmp -> forall (ops : list (top A)) rs s,
  srun (ts_step cmp) ops ∅ = SVal (rs, s) ->
  ((forall ops1 ops2 rs1 s1, ops = ops1 ++ ops2 -> srun (ts_step cmp) ops1 ∅ = SVal (rs1, s1) -> total s1 <= n) ->
     exists w, mrun (t_step cmp) ops (tw_init (limit n pol)) = Ok (rs, w)) /\
  ((exists ops1 ops2 rs1 s1, ops = ops1 ++ ops2 /\ srun (ts_step cmp) ops1 ∅ = SVal (rs1, s1) /\ n < total s1) ->
     mrun (t_step cmp) ops (tw_init (limit n pol)) = Abort).
Proof. exact @t_limited. Qed.
Print Assumptions C74_avl_limited.

Theorem C74_map_limited : forall (pol : policy) (n : nat), sound pol -> grants pol -> forall (K V : Type) (lt : K -> K -> bool) (dflt : V), swo lt -> forall (ops : list (mop K V)) rs s,
  srun (ms_step lt dflt) ops ∅ = SVal (rs, s) ->
  ((forall ops1 ops2 rs1 s1, ops = ops1 ++ ops2 -> srun (ms_step lt dflt) ops1 ∅ = SVal (rs1, s1) -> total s1 <= n) ->
     exists w, mrun (m_step lt dflt) ops (tw_init (limit n pol)) = Ok (rs, w)) /\
  ((exists ops1 ops2 rs1 s1, ops = ops1 ++ ops2 /\ srun (ms_step lt dflt) ops1 ∅ = SVal (rs1, s1) /\ n < total s1) ->
     mrun (m_step lt dflt) ops (tw_init (limit n pol)) = Abort).
Proof. exact @m_limited. Qed.
Print Assumptions C74_map_limited.

Theorem C74_bst_limited : forall (pol : policy) (n : nat), sound pol -> grants pol -> forall (A : Type) (cmp : A -> A -> bool), swo cmp -> forall (ops : list (bop A)) rs s,
  srun (bs_step cmp) ops ∅ = SVal (rs, s) ->
  ((forall ops1 ops2 rs1 s1, ops = ops1 ++ ops2 -> srun (bs_step cmp) ops1 ∅ = SVal (rs1, s1) -> btotal s1 <= n) ->
     exists w, mrun (b_step cmp) ops (tw_init (limit n pol)) = Ok (rs, w)) /\
  ((exists ops1 ops2 rs1 s1, ops = ops1 ++ ops2 /\ srun (bs_step cmp) ops1 ∅ = SVal (rs1, s1) /\ n < btotal s1) ->
     mrun (b_step cmp) ops (tw_init (limit n pol)) = Abort).
Proof. exact @b_limited. Qed.
Print Assumptions C74_bst_limited.

Theorem C74_iterators_limited : forall (pol : policy) (n : nat), sound pol -> grants pol -> forall (A : Type) (cmp : A -> A -> bool), swo cmp -> forall (ops : list (kop A)) rs s,
  srun (ks_step cmp) ops kspec0 = SVal (rs, s) ->
  ((forall ops1 ops2 rs1 s1, ops = ops1 ++ ops2 -> srun (ks_step cmp) ops1 kspec0 = SVal (rs1, s1) -> total (strip (k_sets s1)) <= n) ->
     exists w, mrun (kt_step cmp) ops (tw_init (limit n pol), ∅) = Ok (rs, w)) /\
  ((exists ops1 ops2 rs1 s1, ops = ops1 ++ ops2 /\ srun (ks_step cmp) ops1 kspec0 = SVal (rs1, s1) /\ n < total (strip (k_sets s1))) ->
     mrun (kt_step cmp) ops (tw_init (limit n pol), ∅) = Abort).
Proof. exact @k_limited. Qed.
Print Assumptions C74_iterators_limited.

(** In a static pool of MEM bytes, with nodes of [n] bytes. *)
Theorem C74_avl_static : forall (MEM MAX n : Z), params MEM MAX -> (0 < n)%Z -> (n + 8 <= INT_MAX)%Z -> forall (A : Type) (cmp : A -> A -> bool), swo cmp -> forall (ops : list (top A)) rs s,
  srun (ts_step cmp) ops ∅ = SVal (rs, s) ->
  ((forall ops1 ops2 rs1 s1, ops = ops1 ++ ops2 -> srun (ts_step cmp) ops1 ∅ = SVal (rs1, s1) -> (Z.of_nat (total s1) * rounded n <= MEM)%Z) ->
     exists w, mrun (t_step cmp) ops (tw_init (sma_nodes MEM MAX n)) = Ok (rs, w)) /\
  ((exists ops1 ops2 rs1 s1, ops = ops1 ++ ops2 /\ srun (ts_step cmp) ops1 ∅ = SVal (rs1, s1) /\ (MEM < Z.of_nat (total s1) * rounded n)%Z) ->
     mrun (t_step cmp) ops (tw_init (sma_nodes MEM MAX n)) = Abort).
Proof. exact @t_static. Qed.
Print Assumptions C74_avl_static.

Theorem C74_bst_static : forall (MEM MAX n : Z), params MEM MAX -> (0 < n)%Z -> (n + 8 <= INT_MAX)%Z -> forall (A : Type) (cmp : A -> A -> bool), swo cmp -> forall (ops : list (bop A)) rs s,
  srun (bs_step cmp) ops ∅ = SVal (rs, s) ->
  ((forall ops1 ops2 rs1 s1, ops = ops1 ++ ops2 -> srun (bs_step cmp) ops1 ∅ = SVal (rs1, s1) -> (Z.of_nat (btotal s1) * rounded n <= MEM)%Z) ->
     exists w, mrun (b_step cmp) ops (tw_init (sma_nodes MEM MAX n)) = Ok (rs, w)) /\
  ((exists ops1 ops2 rs1 s1, ops = ops1 ++ ops2 /\ srun (bs_step cmp) ops1 ∅ = SVal (rs1, s1) /\ (MEM < Z.of_nat (btotal s1) * rounded n)%Z) ->
     mrun (b_step cmp) ops (tw_init (sma_nodes MEM MAX n)) = Abort).
Proof. exact @b_static. Qed.
Print Assumptions C74_bst_static.

Theorem C74_iterators_static : forall (MEM MAX n : Z), params MEM MAX -> (0 < n)%Z -> (n + 8 <= INT_MAX)%Z -> forall (A : Type) (cmp : A -> A -> bool), swo cmp -> forall (ops : list (kop A)) rs s,
  srun (ks_step cmp) ops kspec0 = SVal (rs, s) ->
  ((forall ops1 ops2 rs1 s1, ops = ops1 ++ ops2 -> srun (ks_step cmp) ops1 kspec0 = SVal (rs1, s1) -> (Z.of_nat (total (strip (k_sets s1))) * rounded n <= MEM)%Z) ->
     exists w, mrun (kt_step cmp) ops (tw_init (sma_nodes MEM MAX n), ∅) = Ok (rs, w)) /\
  ((exists ops1 ops2 rs1 s1, ops = ops1 ++ ops2 /\ srun (ks_step cmp) ops1 kspec0 = SVal (rs1, s1) /\ (MEM < Z.of_nat (total (strip (k_sets s1))) * rounded n)%Z) ->
     mrun (kt_step cmp) ops (tw_init (sma_nodes MEM MAX n), ∅) = Abort).
Proof. exact @k_static. Qed.
Print Assumptions C74_iterators_static.

(** Addresses are used again, and the answers are the same. *)
Definition C74_ops : list (top nat) :=
  [TNew 0; TPush 0 5; TPush 0 3; TPush 0 8; TPush 0 1; TPop 0 3; TErase 0 8; TPush 0 9; TNew 1; TPush 1 4; TPop 0 5; TPush 1 2; TIter 0; TIter 1].
Definition C74_out : list (tout nat) :=
  [OUnit; OUnit; OUnit; OUnit; OUnit; OUnit; OOpt None; OUnit; OUnit; OUnit; OUnit; OUnit; OList [1; 9]; OList [2; 4]].
Example C74_case : exists s, srun (ts_step Nat.ltb) C74_ops ∅ = SVal (C74_out, s).
Proof. eexists. vm_compute. reflexivity. Qed.
Definition C74_used (w : tworld nat) : list bool := map (fun a => bool_decide (a ∈ al_live (al_log (tw_al w)))) [0; 1; 2; 3; 4; 5; 6].
Example C74_case_places :
  (exists w, mrun (t_step Nat.ltb) C74_ops (tw_init bump) = Ok (C74_out, w) /\ C74_used w = [false; false; false; true; true; true; true]) /\
  (exists w, mrun (t_step Nat.ltb) C74_ops (tw_init lowest) = Ok (C74_out, w) /\ C74_used w = [true; true; true; true; false; false; false]) /\
  (exists w, mrun (t_step Nat.ltb) C74_ops (tw_init (limit 4 last_back)) = Ok (C74_out, w)) /\
  mrun (t_step Nat.ltb) C74_ops (tw_init (limit 3 lowest)) = Abort.
Proof.
  split; [apply (ran_with C74_used); vm_compute; reflexivity|]. split; [apply (ran_with C74_used); vm_compute; reflexivity|].
  split; [apply ran|]; vm_compute; reflexivity.
Qed.
Example C74_case_limited : sound (limit 3 lowest) /\ exists rs1 s1, srun (ts_step Nat.ltb) (take 5 C74_ops) ∅ = SVal (rs1, s1) /\ total s1 = 4 /\
  C74_ops = take 5 C74_ops ++ drop 5 C74_ops.
Proof. split; [apply limit_sound, lowest_sound|]. do 2 eexists. split; [vm_compute; reflexivity|]. split; vm_compute; reflexivity. Qed.
(** Iterators: the history of C71 with the lowest free address and with the address
    given back last. *)
Example C74_case_iterators : (exists w, mrun (kt_step Nat.ltb) C71_ops (tw_init lowest, ∅) = Ok (C71_out, w)) /\
  (exists w, mrun (kt_step Nat.ltb) C71_ops (tw_init last_back, ∅) = Ok (C71_out, w)).
Proof. split; apply ran; vm_compute; reflexivity. Qed.
(** smemory::BSTree<int>: nodes of 32 bytes, 320 of them; a pool of 104 bytes has
    room for three. *)
Example C74_case_smemory : params 10240 128 /\ (0 < 32)%Z /\ (32 + 8 <= INT_MAX)%Z /\ (Z.of_nat 320 * rounded 32 <= 10240)%Z /\ (10240 < Z.of_nat 321 * rounded 32)%Z.
Proof. unfold params, INT_MAX. change (rounded 32) with 32%Z. repeat split; lia. Qed.
Definition C74_bops : list (bop nat) := [BNew 0; BPush 0 5; BPush 0 3; BPush 0 8; BPop 0 3; BMoveNew 1 0; BPush 0 9; BIter 1 InOrder; BIter 0 InOrder].
Definition C74_bout : list (tout nat) := [OUnit; OUnit; OUnit; OUnit; OUnit; OUnit; OUnit; OList [5; 8]; OList [9]].
Example C74_case_bst : params 104 16 /\ (exists s, srun (bs_step Nat.ltb) C74_bops ∅ = SVal (C74_bout, s)) /\
  match mrun (b_step Nat.ltb) C74_bops (tw_init (sma_nodes 104 16 32)) with
  | Ok (rs, w) => Some (rs, map (fun a => bool_decide (a ∈ al_live (al_log (tw_al w)))) [0; 32; 64])
  | _ => None
  end = Some (C74_bout, [true; true; true]) /\
  mrun (b_step Nat.ltb) (C74_bops ++ [BPush 1 7]) (tw_init (sma_nodes 104 16 32)) = Abort.
Proof. split; [unfold params, INT_MAX; repeat split; lia|]. split; [eexists; vm_compute; reflexivity|]. split; [vm_compute; reflexivity|]. vm_compute. reflexivity. Qed.
Example C74_case_map : exists w, mrun (m_step Nat.ltb false) [MNew 0; MSet 0 5 true; MGet 0 3; MPop 0 5; MSet 0 9 true; MIter 0] (tw_init (limit 2 last_back)) =
  Ok ([MUnit; MUnit; MVal false; MUnit; MUnit; MList [(3, false); (9, true)]], w).
Proof. eexists. vm_compute. reflexivity. Qed.
