(** Trees over an allocator with room for [n] nodes, and in a static pool. *)
From Verif Require Import Base Alloc AllocProofs VectorModel VectorSpec Adapter Hist ListAlloc TreeModel TreeSpec TreeAlloc TreeBase TreeObj TreeWorld TreeWSpec TreeHist MapHist ListIterSpec TreeIterModel TreeIterSpec TreeIterProofs BstWorld BstSpec BstObj BstHist SMAModel SMASpec SMANodes SMANodesProofs StaticLists.
Local Open Scope nat_scope.

Section Room.
Context (pol : policy) (n : nat) (Hs : sound pol) (Hr : room pol n).

Lemma RT_room {A} (cmp : A -> A -> bool) T w : RT cmp pol T w -> total (elems <$> T) <= n.
Proof.
  intros H. rewrite <- (TreeHist.heap_count _ _ _ _ H), <- (alok_size _ _ (rt_al _ _ _ _ H)). eapply room_live; [exact Hr|].
  rewrite <- (rt_pol _ _ _ _ H). apply (ak_served _ _ (rt_al _ _ _ _ H)).
Qed.
Theorem t_room {A} (cmp : A -> A -> bool) (Hc : swo cmp) ops rs s : srun (ts_step cmp) ops ∅ = SVal (rs, s) ->
  ((forall ops1 ops2 rs1 s1, ops = ops1 ++ ops2 -> srun (ts_step cmp) ops1 ∅ = SVal (rs1, s1) -> total s1 <= n) ->
     exists w, mrun (t_step cmp) ops (tw_init pol) = Ok (rs, w)) /\
  ((exists ops1 ops2 rs1 s1, ops = ops1 ++ ops2 /\ srun (ts_step cmp) ops1 ∅ = SVal (rs1, s1) /\ n < total s1) ->
     mrun (t_step cmp) ops (tw_init pol) = Abort).
Proof.
  apply (limited _ _ (RW cmp pol) (fun s => refuses pol (total s)) total n (t_step_or cmp Hc pol)).
  - intros s' w (T & -> & H). exact (RT_room _ _ _ H).
  - intros s'. apply room_over. exact Hr.
  - apply RW_init, Hs.
Qed.
Theorem m_room {K V} (lt : K -> K -> bool) (dflt : V) (Hlt : swo lt) ops rs s : srun (ms_step lt dflt) ops ∅ = SVal (rs, s) ->
  ((forall ops1 ops2 rs1 s1, ops = ops1 ++ ops2 -> srun (ms_step lt dflt) ops1 ∅ = SVal (rs1, s1) -> total s1 <= n) ->
     exists w, mrun (m_step lt dflt) ops (tw_init pol) = Ok (rs, w)) /\
  ((exists ops1 ops2 rs1 s1, ops = ops1 ++ ops2 /\ srun (ms_step lt dflt) ops1 ∅ = SVal (rs1, s1) /\ n < total s1) ->
     mrun (m_step lt dflt) ops (tw_init pol) = Abort).
Proof.
  apply (limited _ _ (RW _ pol) (fun s => refuses pol (total s)) total n (m_step_or lt dflt Hlt pol)).
  - intros s' w (T & -> & H). exact (RT_room _ _ _ H).
  - intros s'. apply room_over. exact Hr.
  - apply RW_init, Hs.
Qed.
Theorem b_room {A} (cmp : A -> A -> bool) (Hc : swo cmp) ops rs s : srun (bs_step cmp) ops ∅ = SVal (rs, s) ->
  ((forall ops1 ops2 rs1 s1, ops = ops1 ++ ops2 -> srun (bs_step cmp) ops1 ∅ = SVal (rs1, s1) -> btotal s1 <= n) ->
     exists w, mrun (b_step cmp) ops (tw_init pol) = Ok (rs, w)) /\
  ((exists ops1 ops2 rs1 s1, ops = ops1 ++ ops2 /\ srun (bs_step cmp) ops1 ∅ = SVal (rs1, s1) /\ n < btotal s1) ->
     mrun (b_step cmp) ops (tw_init pol) = Abort).
Proof.
  apply (limited _ _ (RWB cmp pol) (fun s => refuses pol (btotal s)) btotal n (b_step_or cmp Hc pol)).
  - intros s' w (T & -> & H). rewrite <- (BstHist.heap_count _ _ _ _ H), <- (alok_size _ _ (rb_al _ _ _ _ H)). eapply room_live; [exact Hr|].
    rewrite <- (rb_pol _ _ _ _ H). apply (ak_served _ _ (rb_al _ _ _ _ H)).
  - intros s'. apply room_over. exact Hr.
  - apply RWB_init, Hs.
Qed.
Theorem k_room {A} (cmp : A -> A -> bool) (Hc : swo cmp) ops rs s : srun (ks_step cmp) ops kspec0 = SVal (rs, s) ->
  ((forall ops1 ops2 rs1 s1, ops = ops1 ++ ops2 -> srun (ks_step cmp) ops1 kspec0 = SVal (rs1, s1) -> total (strip (k_sets s1)) <= n) ->
     exists w, mrun (kt_step cmp) ops (tw_init pol, ∅) = Ok (rs, w)) /\
  ((exists ops1 ops2 rs1 s1, ops = ops1 ++ ops2 /\ srun (ks_step cmp) ops1 kspec0 = SVal (rs1, s1) /\ n < total (strip (k_sets s1))) ->
     mrun (kt_step cmp) ops (tw_init pol, ∅) = Abort).
Proof.
  apply (limited _ _ (kR cmp pol) (fun s => refuses pol (total (strip (k_sets s)))) (fun s => total (strip (k_sets s))) n (kt_step_or cmp Hc pol)).
  - intros s' w (f & T & H & E & _). rewrite (ren_strip _ _ _ E). exact (RT_room _ _ _ H).
  - intros s'. apply room_over. exact Hr.
  - apply kR_init, Hs.
Qed.
End Room.

Section Limit.
Context (pol : policy) (n : nat) (Hs : sound pol) (Hg : grants pol).
Theorem t_limited {A} (cmp : A -> A -> bool) (Hc : swo cmp) ops rs s : srun (ts_step cmp) ops ∅ = SVal (rs, s) ->
  ((forall ops1 ops2 rs1 s1, ops = ops1 ++ ops2 -> srun (ts_step cmp) ops1 ∅ = SVal (rs1, s1) -> total s1 <= n) ->
     exists w, mrun (t_step cmp) ops (tw_init (limit n pol)) = Ok (rs, w)) /\
  ((exists ops1 ops2 rs1 s1, ops = ops1 ++ ops2 /\ srun (ts_step cmp) ops1 ∅ = SVal (rs1, s1) /\ n < total s1) ->
     mrun (t_step cmp) ops (tw_init (limit n pol)) = Abort).
Proof. apply (t_room (limit n pol) n (limit_sound n pol Hs) (limit_room n pol Hg) cmp Hc). Qed.
Theorem m_limited {K V} (lt : K -> K -> bool) (dflt : V) (Hlt : swo lt) ops rs s : srun (ms_step lt dflt) ops ∅ = SVal (rs, s) ->
  ((forall ops1 ops2 rs1 s1, ops = ops1 ++ ops2 -> srun (ms_step lt dflt) ops1 ∅ = SVal (rs1, s1) -> total s1 <= n) ->
     exists w, mrun (m_step lt dflt) ops (tw_init (limit n pol)) = Ok (rs, w)) /\
  ((exists ops1 ops2 rs1 s1, ops = ops1 ++ ops2 /\ srun (ms_step lt dflt) ops1 ∅ = SVal (rs1, s1) /\ n < total s1) ->
     mrun (m_step lt dflt) ops (tw_init (limit n pol)) = Abort).
Proof. apply (m_room (limit n pol) n (limit_sound n pol Hs) (limit_room n pol Hg) lt dflt Hlt). Qed.
Theorem b_limited {A} (cmp : A -> A -> bool) (Hc : swo cmp) ops rs s : srun (bs_step cmp) ops ∅ = SVal (rs, s) ->
  ((forall ops1 ops2 rs1 s1, ops = ops1 ++ ops2 -> srun (bs_step cmp) ops1 ∅ = SVal (rs1, s1) -> btotal s1 <= n) ->
     exists w, mrun (b_step cmp) ops (tw_init (limit n pol)) = Ok (rs, w)) /\
  ((exists ops1 ops2 rs1 s1, ops = ops1 ++ ops2 /\ srun (bs_step cmp) ops1 ∅ = SVal (rs1, s1) /\ n < btotal s1) ->
     mrun (b_step cmp) ops (tw_init (limit n pol)) = Abort).
Proof. apply (b_room (limit n pol) n (limit_sound n pol Hs) (limit_room n pol Hg) cmp Hc). Qed.
Theorem k_limited {A} (cmp : A -> A -> bool) (Hc : swo cmp) ops rs s : srun (ks_step cmp) ops kspec0 = SVal (rs, s) ->
  ((forall ops1 ops2 rs1 s1, ops = ops1 ++ ops2 -> srun (ks_step cmp) ops1 kspec0 = SVal (rs1, s1) -> total (strip (k_sets s1)) <= n) ->
     exists w, mrun (kt_step cmp) ops (tw_init (limit n pol), ∅) = Ok (rs, w)) /\
  ((exists ops1 ops2 rs1 s1, ops = ops1 ++ ops2 /\ srun (ks_step cmp) ops1 kspec0 = SVal (rs1, s1) /\ n < total (strip (k_sets s1))) ->
     mrun (kt_step cmp) ops (tw_init (limit n pol), ∅) = Abort).
Proof. apply (k_room (limit n pol) n (limit_sound n pol Hs) (limit_room n pol Hg) cmp Hc). Qed.
End Limit.

Section Static.
Context (MEM MAX n : Z) (HP : params MEM MAX) (H0 : (0 < n)%Z) (H8 : (n + 8 <= INT_MAX)%Z).
Notation pol := (sma_nodes MEM MAX n).
Theorem t_static {A} (cmp : A -> A -> bool) (Hc : swo cmp) ops rs s : srun (ts_step cmp) ops ∅ = SVal (rs, s) ->
  ((forall ops1 ops2 rs1 s1, ops = ops1 ++ ops2 -> srun (ts_step cmp) ops1 ∅ = SVal (rs1, s1) -> (Z.of_nat (total s1) * rounded n <= MEM)%Z) ->
     exists w, mrun (t_step cmp) ops (tw_init pol) = Ok (rs, w)) /\
  ((exists ops1 ops2 rs1 s1, ops = ops1 ++ ops2 /\ srun (ts_step cmp) ops1 ∅ = SVal (rs1, s1) /\ (MEM < Z.of_nat (total s1) * rounded n)%Z) ->
     mrun (t_step cmp) ops (tw_init pol) = Abort).
Proof.
  intros E. destruct (t_room pol (sma_room MEM n) (nodes_sound _ _ _ HP H0 H8) (nodes_room _ _ _ HP H0 H8) cmp Hc ops rs s E) as [H1 H2]. split.
  - intros H. apply H1. intros ops1 ops2 rs1 s1 Eo E1. apply (fits _ _ _ HP H0). exact (H _ _ _ _ Eo E1).
  - intros (ops1 & ops2 & rs1 & s1 & Eo & E1 & H). apply H2. exists ops1, ops2, rs1, s1. split; [exact Eo|]. split; [exact E1|]. apply (unfit _ _ _ HP H0), H.
Qed.
Theorem m_static {K V} (lt : K -> K -> bool) (dflt : V) (Hlt : swo lt) ops rs s : srun (ms_step lt dflt) ops ∅ = SVal (rs, s) ->
  ((forall ops1 ops2 rs1 s1, ops = ops1 ++ ops2 -> srun (ms_step lt dflt) ops1 ∅ = SVal (rs1, s1) -> (Z.of_nat (total s1) * rounded n <= MEM)%Z) ->
     exists w, mrun (m_step lt dflt) ops (tw_init pol) = Ok (rs, w)) /\
  ((exists ops1 ops2 rs1 s1, ops = ops1 ++ ops2 /\ srun (ms_step lt dflt) ops1 ∅ = SVal (rs1, s1) /\ (MEM < Z.of_nat (total s1) * rounded n)%Z) ->
     mrun (m_step lt dflt) ops (tw_init pol) = Abort).
Proof.
  intros E. destruct (m_room pol (sma_room MEM n) (nodes_sound _ _ _ HP H0 H8) (nodes_room _ _ _ HP H0 H8) lt dflt Hlt ops rs s E) as [H1 H2]. split.
  - intros H. apply H1. intros ops1 ops2 rs1 s1 Eo E1. apply (fits _ _ _ HP H0). exact (H _ _ _ _ Eo E1).
  - intros (ops1 & ops2 & rs1 & s1 & Eo & E1 & H). apply H2. exists ops1, ops2, rs1, s1. split; [exact Eo|]. split; [exact E1|]. apply (unfit _ _ _ HP H0), H.
Qed.
Theorem b_static {A} (cmp : A -> A -> bool) (Hc : swo cmp) ops rs s : srun (bs_step cmp) ops ∅ = SVal (rs, s) ->
  ((forall ops1 ops2 rs1 s1, ops = ops1 ++ ops2 -> srun (bs_step cmp) ops1 ∅ = SVal (rs1, s1) -> (Z.of_nat (btotal s1) * rounded n <= MEM)%Z) ->
     exists w, mrun (b_step cmp) ops (tw_init pol) = Ok (rs, w)) /\
  ((exists ops1 ops2 rs1 s1, ops = ops1 ++ ops2 /\ srun (bs_step cmp) ops1 ∅ = SVal (rs1, s1) /\ (MEM < Z.of_nat (btotal s1) * rounded n)%Z) ->
     mrun (b_step cmp) ops (tw_init pol) = Abort).
Proof.
  intros E. destruct (b_room pol (sma_room MEM n) (nodes_sound _ _ _ HP H0 H8) (nodes_room _ _ _ HP H0 H8) cmp Hc ops rs s E) as [H1 H2]. split.
  - intros H. apply H1. intros ops1 ops2 rs1 s1 Eo E1. apply (fits _ _ _ HP H0). exact (H _ _ _ _ Eo E1).
  - intros (ops1 & ops2 & rs1 & s1 & Eo & E1 & H). apply H2. exists ops1, ops2, rs1, s1. split; [exact Eo|]. split; [exact E1|]. apply (unfit _ _ _ HP H0), H.
Qed.
Theorem k_static {A} (cmp : A -> A -> bool) (Hc : swo cmp) ops rs s : srun (ks_step cmp) ops kspec0 = SVal (rs, s) ->
  ((forall ops1 ops2 rs1 s1, ops = ops1 ++ ops2 -> srun (ks_step cmp) ops1 kspec0 = SVal (rs1, s1) -> (Z.of_nat (total (strip (k_sets s1))) * rounded n <= MEM)%Z) ->
     exists w, mrun (kt_step cmp) ops (tw_init pol, ∅) = Ok (rs, w)) /\
  ((exists ops1 ops2 rs1 s1, ops = ops1 ++ ops2 /\ srun (ks_step cmp) ops1 kspec0 = SVal (rs1, s1) /\ (MEM < Z.of_nat (total (strip (k_sets s1))) * rounded n)%Z) ->
     mrun (kt_step cmp) ops (tw_init pol, ∅) = Abort).
Proof.
  intros E. destruct (k_room pol (sma_room MEM n) (nodes_sound _ _ _ HP H0 H8) (nodes_room _ _ _ HP H0 H8) cmp Hc ops rs s E) as [H1 H2]. split.
  - intros H. apply H1. intros ops1 ops2 rs1 s1 Eo E1. apply (fits _ _ _ HP H0). exact (H _ _ _ _ Eo E1).
  - intros (ops1 & ops2 & rs1 & s1 & Eo & E1 & H). apply H2. exists ops1, ops2, rs1, s1. split; [exact Eo|]. split; [exact E1|]. apply (unfit _ _ _ HP H0), H.
Qed.
End Static.
