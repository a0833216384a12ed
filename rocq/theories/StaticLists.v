(** Lists and queues whose nodes come from a StaticMemAllocator. *)
From Verif Require Import Base Alloc AllocProofs VectorModel VectorSpec Adapter Hist ListModel ListSpec ListIterModel ListIterSpec DequeSpec QueueModel QueueSpec ListAlloc SMAModel SMASpec SMAProofs SMANodes SMANodesProofs.
Local Open Scope nat_scope.

Section Static.
Context {A : Type} (junk : A) (MEM MAX n : Z) (HP : params MEM MAX) (H0 : (0 < n)%Z) (H8 : (n + 8 <= INT_MAX)%Z).
Notation pol := (sma_nodes MEM MAX n).

Lemma fits k : k <= sma_room MEM n <-> (Z.of_nat k * rounded n <= MEM)%Z.
Proof.
  unfold sma_room. pose proof (rounded_bounds n) as Hr. destruct HP as (_ & HM & _).
  assert (Hd : (0 <= MEM / rounded n)%Z) by (apply Z.div_pos; lia). rewrite Nat2Z.inj_le, Z2Nat.id by exact Hd. split.
  - intros H. pose proof (Z.mul_div_le MEM (rounded n) ltac:(lia)). nia.
  - intros H. apply Z.div_le_lower_bound; lia.
Qed.
Definition bytes_of (k : nat) : Z := (Z.of_nat k * rounded n)%Z.
Lemma unfit k : sma_room MEM n < k <-> (MEM < bytes_of k)%Z.
Proof. unfold bytes_of. rewrite Z.lt_nge, <- fits. lia. Qed.

Theorem dl_static ops rs s : srun (ls_step true) ops ∅ = SVal (rs, s) ->
  ((forall ops1 ops2 rs1 s1, ops = ops1 ++ ops2 -> srun (ls_step true) ops1 ∅ = SVal (rs1, s1) -> (Z.of_nat (ListSpec.elements_total s1) * rounded n <= MEM)%Z) ->
     exists w, mrun (dl_step junk) ops (lst_init pol) = Ok (rs, w)) /\
  ((exists ops1 ops2 rs1 s1, ops = ops1 ++ ops2 /\ srun (ls_step true) ops1 ∅ = SVal (rs1, s1) /\ (MEM < Z.of_nat (ListSpec.elements_total s1) * rounded n)%Z) ->
     mrun (dl_step junk) ops (lst_init pol) = Abort).
Proof.
  intros E. destruct (dl_room junk pol (sma_room MEM n) (nodes_sound _ _ _ HP H0 H8) (nodes_room _ _ _ HP H0 H8) ops rs s E) as [H1 H2]. split.
  - intros H. apply H1. intros. apply fits. eauto.
  - intros (ops1 & ops2 & rs1 & s1 & Eo & E1 & H). apply H2. exists ops1, ops2, rs1, s1. split; [exact Eo|]. split; [exact E1|]. apply unfit, H.
Qed.
Theorem sl_static ops rs s : srun (ls_step false) ops ∅ = SVal (rs, s) ->
  ((forall ops1 ops2 rs1 s1, ops = ops1 ++ ops2 -> srun (ls_step false) ops1 ∅ = SVal (rs1, s1) -> (Z.of_nat (ListSpec.elements_total s1) * rounded n <= MEM)%Z) ->
     exists w, mrun (sl_step junk) ops (lst_init pol) = Ok (rs, w)) /\
  ((exists ops1 ops2 rs1 s1, ops = ops1 ++ ops2 /\ srun (ls_step false) ops1 ∅ = SVal (rs1, s1) /\ (MEM < Z.of_nat (ListSpec.elements_total s1) * rounded n)%Z) ->
     mrun (sl_step junk) ops (lst_init pol) = Abort).
Proof.
  intros E. destruct (sl_room junk pol (sma_room MEM n) (nodes_sound _ _ _ HP H0 H8) (nodes_room _ _ _ HP H0 H8) ops rs s E) as [H1 H2]. split.
  - intros H. apply H1. intros. apply fits. eauto.
  - intros (ops1 & ops2 & rs1 & s1 & Eo & E1 & H). apply H2. exists ops1, ops2, rs1, s1. split; [exact Eo|]. split; [exact E1|]. apply unfit, H.
Qed.
Theorem ql_static ops rs s : srun (qs_step false) ops ∅ = SVal (rs, s) ->
  ((forall ops1 ops2 rs1 s1, ops = ops1 ++ ops2 -> srun (qs_step false) ops1 ∅ = SVal (rs1, s1) -> (Z.of_nat (elements_total s1) * rounded n <= MEM)%Z) ->
     exists w, mrun (ql_step junk) ops (lst_init pol) = Ok (rs, w)) /\
  ((exists ops1 ops2 rs1 s1, ops = ops1 ++ ops2 /\ srun (qs_step false) ops1 ∅ = SVal (rs1, s1) /\ (MEM < Z.of_nat (elements_total s1) * rounded n)%Z) ->
     mrun (ql_step junk) ops (lst_init pol) = Abort).
Proof.
  intros E. destruct (ql_room junk pol (sma_room MEM n) (nodes_sound _ _ _ HP H0 H8) (nodes_room _ _ _ HP H0 H8) ops rs s E) as [H1 H2]. split.
  - intros H. apply H1. intros. apply fits. eauto.
  - intros (ops1 & ops2 & rs1 & s1 & Eo & E1 & H). apply H2. exists ops1, ops2, rs1, s1. split; [exact Eo|]. split; [exact E1|]. apply unfit, H.
Qed.
Theorem it_static dbl ops rs s : srun (is_step dbl) ops ispec0 = SVal (rs, s) ->
  ((forall ops1 ops2 rs1 s1, ops = ops1 ++ ops2 -> srun (is_step dbl) ops1 ispec0 = SVal (rs1, s1) -> (Z.of_nat (ListSpec.elements_total (strip (s_lists s1))) * rounded n <= MEM)%Z) ->
     exists w, mrun (it_step junk dbl) ops (lst_init pol, ∅) = Ok (rs, w)) /\
  ((exists ops1 ops2 rs1 s1, ops = ops1 ++ ops2 /\ srun (is_step dbl) ops1 ispec0 = SVal (rs1, s1) /\ (MEM < Z.of_nat (ListSpec.elements_total (strip (s_lists s1))) * rounded n)%Z) ->
     mrun (it_step junk dbl) ops (lst_init pol, ∅) = Abort).
Proof.
  intros E. destruct (it_room junk pol (sma_room MEM n) (nodes_sound _ _ _ HP H0 H8) (nodes_room _ _ _ HP H0 H8) dbl ops rs s E) as [H1 H2]. split.
  - intros H. apply H1. intros. apply fits. eauto.
  - intros (ops1 & ops2 & rs1 & s1 & Eo & E1 & H). apply H2. exists ops1, ops2, rs1, s1. split; [exact Eo|]. split; [exact E1|]. apply unfit, H.
Qed.
Theorem nodes_policy : sound pol /\ forall log, served pol log -> (is_Some (pol log) <-> (Z.of_nat (S (size (al_live log))) * rounded n <= MEM)%Z).
Proof.
  split; [exact (nodes_sound _ _ _ HP H0 H8)|]. intros log Hs. rewrite <- fits. rewrite (nodes_room _ _ _ HP H0 H8 log Hs). lia.
Qed.
End Static.
