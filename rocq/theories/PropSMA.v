(** C50-C58, C62: StaticMemAllocator. *)
From Verif Require Import Base SMAModel SMASpec SMAProofs SMAInv SMAOps SMAAlloc SMAMerge SMAHist SMAMain SMARefute.
Open Scope Z_scope.

(** The template parameters of the port and of the repository's test meet [params]. *)
Example params_port : params 1048576 128.
Proof. repeat split; unfold INT_MAX; lia. Qed.
Example params_test : params 1024 1024.
Proof. repeat split; unfold INT_MAX; lia. Qed.
(** A reachable state with a live block the user has written into, and free blocks. *)
Example reach_case : exists st led, params 64 16 /\ reach 64 16 st led /\ led !! 8 = Some 20 /\ led !! 0 = None /\ m_free st = 40 /\ free_block 16 st 0 8.
Proof.
  eexists _, _. split; [repeat split; unfold INT_MAX; lia|]. split.
  - eapply reach_merge.
    + eapply (reach_dealloc 64 16 _ _ 0 8).
      * eapply reach_write with (a := 16) (x := 7).
        -- eapply (reach_alloc 64 16 _ _ 20).
           ++ eapply (reach_alloc 64 16 _ _ 8); [apply reach_init|lia|unfold INT_MAX; lia|vm_compute; reflexivity].
           ++ lia.
           ++ unfold INT_MAX; lia.
           ++ vm_compute; reflexivity.
        -- exists 8, 20. split; [reflexivity|]. unfold within. change (rounded 20) with 24. lia.
        -- reflexivity.
        -- vm_compute. reflexivity.
      * reflexivity.
      * vm_compute. reflexivity.
    + vm_compute. reflexivity.
  - split; [reflexivity|split; [reflexivity|split; [reflexivity|]]]. exists 0%nat. split; [apply linked_first; reflexivity|reflexivity].
Qed.

(** C50.  In every reachable state every legal operation completes and leaves
    the contents of the (other) live blocks alone ... *)
Theorem C50_progress : forall MEM MAX st led, params MEM MAX -> reach MEM MAX st led ->
  (forall n, 0 < n -> n + 8 <= INT_MAX -> exists p st', allocate MEM MAX n st = Ok (p, st') /\ keeps led st st') /\
  (forall a n, led !! a = Some n -> exists st', deallocate MEM MAX (Some a) n st = Ok (true, st') /\ keeps (delete a led) st st') /\
  (exists st', memory_merge MEM MAX st = Ok (tt, st') /\ keeps led st st') /\
  (forall a x, owned led a -> a mod 8 = 0 -> exists st', user_write MEM a x st = Ok (tt, st')).
Proof. intros MEM MAX st led HP. exact (progress MEM MAX HP st led). Qed.
Print Assumptions C50_progress.
(** ... the block handed out lies in the pool, has room for the request and
    overlaps no live block ... *)
Theorem C50_alloc_result : forall MEM MAX st led n a st', params MEM MAX -> reach MEM MAX st led -> 0 < n -> n + 8 <= INT_MAX ->
  allocate MEM MAX n st = Ok (Some a, st') ->
  0 <= a /\ a mod 8 = 0 /\ n <= rounded n /\ a + rounded n <= MEM /\ led !! a = None /\ forall b m, led !! b = Some m -> disjoint_ranges a (rounded n) b (rounded m).
Proof. intros MEM MAX st led n a st' HP. exact (alloc_result MEM MAX HP st led n a st'). Qed.
Print Assumptions C50_alloc_result.
(** ... and all live and free blocks are in the pool and apart from each other. *)
Theorem C50_disjoint : forall MEM MAX st led, params MEM MAX -> reach MEM MAX st led ->
  (forall a n, led !! a = Some n -> 0 <= a /\ a mod 8 = 0 /\ 0 < n <= rounded n /\ a + rounded n <= MEM) /\
  (forall a n b m, led !! a = Some n -> led !! b = Some m -> a <> b -> disjoint_ranges a (rounded n) b (rounded m)) /\
  (forall a n b m, led !! a = Some n -> free_block MAX st b m -> disjoint_ranges a (rounded n) b m).
Proof. intros MEM MAX st led HP. exact (disjoint MEM MAX HP st led). Qed.
Print Assumptions C50_disjoint.

(** C51.  free_mem_size is the pool less the live blocks, is the total of the
    blocks on the free lists, and passes the check dump() makes. *)
Theorem C51_conserved : forall MEM MAX st led, params MEM MAX -> reach MEM MAX st led ->
  m_free st = MEM - live_bytes led /\ dump MEM MAX st = Ok (tt, st) /\
  exists L, NoDup L /\ (forall a n, (a, n) ∈ L <-> free_block MAX st a n) /\ m_free st = foldr Z.add 0 L.*2.
Proof. intros MEM MAX st led HP. exact (conserve MEM MAX HP st led). Qed.
Print Assumptions C51_conserved.
Theorem C51_all_returned : forall MEM MAX st, params MEM MAX -> reach MEM MAX st ∅ -> m_free st = MEM.
Proof. intros MEM MAX st HP. exact (conserve_all MEM MAX HP st). Qed.
Print Assumptions C51_all_returned.
Example C51_case : live_bytes {[ 8 := 20; 40 := 5 ]} = 32.
Proof. reflexivity. Qed.

(** C52.  nullptr exactly when no free block is large enough, and then nothing changes. *)
Theorem C52_null_iff : forall MEM MAX st led n, params MEM MAX -> reach MEM MAX st led -> 0 < n -> n + 8 <= INT_MAX ->
  exists p st', allocate MEM MAX n st = Ok (p, st') /\ (p = None <-> forall a m, free_block MAX st a m -> m < rounded n) /\ (p = None -> st' = st).
Proof. intros MEM MAX st led n HP. exact (alloc_null MEM MAX HP st led n). Qed.
Print Assumptions C52_null_iff.

(** C53. *)
Theorem C53_max_exact : forall MEM MAX st led, params MEM MAX -> reach MEM MAX st led ->
  exists mx, max_free_mblock_size MEM MAX st = Ok (mx, st) /\
    (forall a m, free_block MAX st a m -> m <= mx) /\ ((mx = 0 /\ forall a m, ~ free_block MAX st a m) \/ exists a, free_block MAX st a mx) /\
    (forall n, 0 < n -> n + 8 <= INT_MAX -> (exists a st', allocate MEM MAX n st = Ok (Some a, st')) <-> rounded n <= mx).
Proof. intros MEM MAX st led HP. exact (max_exact MEM MAX HP st led). Qed.
Print Assumptions C53_max_exact.

(** C54. *)
Theorem C54_merge_keeps : forall MEM MAX st led, params MEM MAX -> reach MEM MAX st led ->
  exists st', memory_merge MEM MAX st = Ok (tt, st') /\ m_free st' = m_free st /\ keeps led st st' /\
    (forall x, (exists a n, free_block MAX st a n /\ within x a n) <-> (exists a n, free_block MAX st' a n /\ within x a n)) /\
    (forall a n, free_block MAX st a n -> exists a' n', free_block MAX st' a' n' /\ a' <= a /\ a + n <= a' + n') /\
    (forall mx mx', max_free_mblock_size MEM MAX st = Ok (mx, st) -> max_free_mblock_size MEM MAX st' = Ok (mx', st') -> mx <= mx').
Proof. intros MEM MAX st led HP. exact (merge_keeps MEM MAX HP st led). Qed.
Print Assumptions C54_merge_keeps.

(** C55 is false whenever the pool is somewhat larger than the largest small
    class: with everything freed and merged two adjacent free blocks remain and
    the whole pool cannot be allocated ... *)
Theorem C55_recombine_refuted : forall MEM MAX, params MEM MAX -> 8 * (MAX / 8) + 16 <= MEM ->
  exists st0 st, reach MEM MAX st0 ∅ /\ memory_merge MEM MAX st0 = Ok (tt, st) /\ reach MEM MAX st ∅ /\
    free_block MAX st 0 8 /\ free_block MAX st 8 (MEM - 8) /\ m_free st = MEM /\ allocate MEM MAX MEM st = Ok (None, st).
Proof. exact not_recombined. Qed.
Print Assumptions C55_recombine_refuted.
(** ... what holds: blocks of one size class, and blocks above the largest small
    class, are not adjacent after a merge.  Missing: blocks of different classes. *)
Theorem C55_same_class_partial : forall MEM MAX st led st' a n b m, params MEM MAX -> reach MEM MAX st led ->
  memory_merge MEM MAX st = Ok (tt, st') -> free_block MAX st' a n -> free_block MAX st' b m ->
  n = m \/ (8 * (MAX / 8) < n /\ 8 * (MAX / 8) < m) -> a + n <> b.
Proof. intros MEM MAX st led st' a n b m HP. exact (merge_same_class MEM MAX HP st led st' a n b m). Qed.
Print Assumptions C55_same_class_partial.
Example C55_case : params 1048576 128 /\ 8 * (128 / 8) + 16 <= 1048576.
Proof. split; [exact params_port|vm_compute; discriminate]. Qed.

(** C56 is false for every result: the pool lies 4 bytes into the object, so with
    an 8-aligned object every pointer handed out is 4 modulo 8 ... *)
Theorem C56_misaligned_refuted : forall MEM MAX st led n a st' obj, params MEM MAX -> reach MEM MAX st led -> 0 < n -> n + 8 <= INT_MAX ->
  allocate MEM MAX n st = Ok (Some a, st') -> obj mod 8 = 0 -> pool_address obj a mod 8 = 4.
Proof. intros MEM MAX st led n a st' obj HP. exact (misaligned MEM MAX HP st led n a st' obj). Qed.
Print Assumptions C56_misaligned_refuted.
(** ... but they are aligned to 4. *)
Theorem C56_aligned4_partial : forall MEM MAX st led n a st' obj, params MEM MAX -> reach MEM MAX st led -> 0 < n -> n + 8 <= INT_MAX ->
  allocate MEM MAX n st = Ok (Some a, st') -> obj mod 4 = 0 -> pool_address obj a mod 4 = 0.
Proof. intros MEM MAX st led n a st' obj HP. exact (aligned4 MEM MAX HP st led n a st' obj). Qed.
Print Assumptions C56_aligned4_partial.
Example C56_case : exists st', allocate 64 16 8 (sma_init 64 16) = Ok (Some 0, st') /\ 4096 mod 8 = 0.
Proof. eexists. split; [vm_compute; reflexivity|reflexivity]. Qed.

(** C57 is false in every reachable state: allocate(n) with n <= 0 indexes the
    free lists from the back.  It is undefined behaviour when that list is empty
    or does not exist; otherwise it takes a block off the list without
    accounting for it (or crediting memory), and the dump check fails. *)
Theorem C57_nonpos_refuted : forall MEM MAX st led n, params MEM MAX -> reach MEM MAX st led -> - 2147483648 <= n <= 0 ->
  let j := Z.of_nat (nlists MAX - 1) + rounded n / 8 in
  (j < 0 \/ next st (Head (Z.to_nat j)) = Some None -> allocate MEM MAX n st = UB) /\
  (forall a, 0 <= j -> next st (Head (Z.to_nat j)) = Some (Some a) -> exists st', allocate MEM MAX n st = Ok (Some a, st') /\
     (forall b m, free_block MAX st' b m <-> free_block MAX st b m /\ b <> a) /\ m_free st' = m_free st - rounded n /\ dump MEM MAX st' = Abort).
Proof. intros MEM MAX st led n HP. exact (nonpos MEM MAX HP st led n). Qed.
Print Assumptions C57_nonpos_refuted.
(** In particular allocate(0) on a fresh allocator takes the whole pool. *)
Theorem C57_zero_refuted : forall MEM MAX, params MEM MAX ->
  exists st', allocate MEM MAX 0 (sma_init MEM MAX) = Ok (Some 0, st') /\ (forall b m, ~ free_block MAX st' b m) /\ m_free st' = MEM /\ dump MEM MAX st' = Abort.
Proof. exact zero_takes_all. Qed.
Print Assumptions C57_zero_refuted.
Example C57_case : next (sma_init 64 16) (Head 0) = Some None /\ next (sma_init 64 16) (Head 2) = Some (Some 0) /\ (nlists 16 - 1 = 2)%nat.
Proof. split; [reflexivity|split; reflexivity]. Qed.

(** C58.  Rounding is exact wherever n + 8 fits an int, and the class of n holds
    blocks of at least n bytes ... *)
Theorem C58_round_partial : forall n, n + 8 <= INT_MAX ->
  exists r, round_up n = Some r /\ r mod 8 = 0 /\ n <= r /\ forall m, m mod 8 = 0 -> n <= m -> r <= m.
Proof. exact round_least. Qed.
Print Assumptions C58_round_partial.
Theorem C58_class_partial : forall n i, 0 < n -> n + 8 <= INT_MAX -> size_to_index n = Some i -> 0 <= i /\ n <= index_to_size i < n + 8.
Proof. exact class_back. Qed.
Print Assumptions C58_class_partial.
(** ... but among the n whose n + 7 fits, INT_MAX - 7 overflows although it is
    itself a multiple of 8. *)
Theorem C58_round_refuted : forall n, n + 7 <= INT_MAX -> (round_up n = None <-> n = INT_MAX - 7).
Proof. exact round_overflow. Qed.
Print Assumptions C58_round_refuted.
Example C58_case : round_up 20 = Some 24 /\ size_to_index 20 = Some 2 /\ (INT_MAX - 7) mod 8 = 0 /\ (INT_MAX - 7) + 7 <= INT_MAX.
Proof. repeat split; vm_compute; discriminate. Qed.

(** C62.  The port's allocate hands out a fresh block or aborts, the latter only
    if even after a merge no free block is large enough ... *)
Theorem C62_port_allocate : forall MEM MAX st led n, params MEM MAX -> reach MEM MAX st led -> 0 < n -> n + 8 <= INT_MAX ->
  (port_allocate MEM MAX n st = Abort /\ forall st', memory_merge MEM MAX st = Ok (tt, st') -> forall a m, free_block MAX st' a m -> m < rounded n) \/
  (exists a st', port_allocate MEM MAX n st = Ok (Some a, st') /\ reach MEM MAX st' (<[a := n]> led) /\ led !! a = None).
Proof. intros MEM MAX st led n HP. exact (port_alloc MEM MAX HP st led n). Qed.
Print Assumptions C62_port_allocate.
(** ... and its deallocate of a live block never aborts. *)
Theorem C62_port_deallocate : forall MEM MAX st led a n, params MEM MAX -> reach MEM MAX st led -> led !! a = Some n ->
  exists st', port_deallocate MEM MAX (Some a) n st = Ok (tt, st') /\ reach MEM MAX st' (delete a led).
Proof. intros MEM MAX st led a n HP. exact (port_dealloc MEM MAX HP st led a n). Qed.
Print Assumptions C62_port_deallocate.
