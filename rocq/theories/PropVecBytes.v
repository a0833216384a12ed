(** C103: vectors over malloc, whose byte counts are truncated to int. *)
From Verif Require Import Base VectorModel VectorSpec ArithModel VecBytesModel VecBytesSpec VecBytesProofs.
Local Open Scope nat_scope.

(** While no request exceeds INT_MAX bytes, vectors behave as lists (C01). *)
Theorem C103_history : forall (A : Type) (triv : bool) (s : Z), (1 <= s)%Z -> forall ops : list (vop A),
  (forall pre o post rs w, ops = pre ++ o :: post -> b_run triv s pre world_init = Ok (rs, w) ->
     (Z.of_nat (asks w o) * s <= INT_MAX)%Z) ->
  match s_run triv ops ∅ with
  | SVal (rs, st) => exists w, b_run triv s ops world_init = Ok (rs, w) /\ forall id, contents w id = st !! id
  | SAbort => b_run triv s ops world_init = Abort
  | SUnspec => b_run triv s ops world_init = UB
  end.
Proof. exact @bytes_history. Qed.
Print Assumptions C103_history.
Definition C103_ops : list (vop nat) :=
  [ONew 0; OPush 0 5; OPush 0 6; OPush 0 7; OCopyNew 1 0; OPop 0; OSet 1 (-1) 9; OMoveNew 2 1;
   OAssign 1 0; OResizeFill 0 4 3; OFill 3 2 8; OPop 3; OPop 3; OResize 2 9; OIter 0; OIter 2].
(** With elements of 200 million bytes, up to 10 of which fit in INT_MAX bytes. *)
Example C103_history_case : forall pre o post rs w, C103_ops = pre ++ o :: post ->
  b_run true 200000000 pre world_init = Ok (rs, w) -> (Z.of_nat (asks w o) * 200000000 <= INT_MAX)%Z.
Proof. apply fit_at_ok. vm_compute. reflexivity. Qed.
Example C103_history_answers : exists w, b_run true 200000000 C103_ops world_init =
  Ok ([RUnit; RUnit; RUnit; RUnit; RUnit; RUnit; RUnit; RUnit; RUnit; RUnit; RUnit; RUnit; RUnit; RUnit;
       RList [5; 6; 3; 3]; RList [5; 6; 9]], w).
Proof. eexists. vm_compute. reflexivity. Qed.

(** Vector(n, a) of more bytes than that never gives a vector: it stops the program or
    writes past the end of its block. *)
Theorem C103_fill_refuted : forall (A : Type) (triv : bool) (s : Z), (1 <= s)%Z -> forall id n (a : A) (w : world A),
  w_objs w !! id = None -> (INT_MAX < Z.of_nat n * s)%Z ->
  b_step triv s (OFill id n a) w = if (spec_bytes (Z.of_nat n) s <? 0)%Z then Abort else UB.
Proof. exact @fill_bad. Qed.
Print Assumptions C103_fill_refuted.
Example C103_fill_refuted_case :
  b_step true 200000000 (OFill 0 11 5) world_init = Abort /\ b_step true 200000000 (OFill 0 22 5) world_init = UB.
Proof. vm_compute. auto. Qed.

(** Elements pushed one by one: 2^k go in, where 2^k is the last power of two that
    fits, and the next push stops the program. *)
Theorem C103_push_refuted : forall (A : Type) (triv : bool) (s : Z), (1 <= s)%Z -> forall k (l : list A), 1 <= k ->
  (Z.of_nat (2 ^ k) * s <= INT_MAX)%Z -> (INT_MAX < Z.of_nat (2 ^ S k) * s)%Z ->
  let run := b_run triv s (ONew 0 :: map (OPush 0) l) world_init in
  if length l <=? 2 ^ k then exists rs w, run = Ok (rs, w) /\ contents w 0 = Some l else run = Abort.
Proof. exact @pushes_bytes. Qed.
Print Assumptions C103_push_refuted.
(** Eight-byte elements: at most 2^27 of them. *)
Example C103_push_refuted_case : forall l : list nat, 2 ^ 27 < length l ->
  b_run true 8 (ONew 0 :: map (OPush 0) l) world_init = Abort.
Proof.
  intros l Hl. pose proof (C103_push_refuted nat true 8 ltac:(lia) 27 l) as H.
  rewrite !Nat2Z.inj_pow in H. specialize (H ltac:(lia) ltac:(vm_compute; congruence) ltac:(vm_compute; reflexivity)).
  cbn zeta in H. destruct (Nat.leb_spec (length l) (2 ^ 27)); [lia|exact H].
Qed.
Example C103_push_refuted_runs : exists w, b_run true 1000000000 (ONew 0 :: map (OPush 0) [5; 6]) world_init = Ok ([RUnit; RUnit; RUnit], w) /\
  b_run true 1000000000 (ONew 0 :: map (OPush 0) [5; 6; 7]) world_init = Abort.
Proof. eexists. split; vm_compute; reflexivity. Qed.

(** resize(n) of more bytes than that claims capacity for n elements it does not have:
    the pushes it was to make room for write past the end of the block, or stop the
    program. *)
Theorem C103_reserve_refuted : forall (A : Type) (triv : bool) (s : Z), (1 <= s)%Z -> forall n (l : list A),
  (INT_MAX < Z.of_nat n * s)%Z ->
  let run := b_run triv s (ONew 0 :: OResize 0 n :: map (OPush 0) l) world_init in
  let room := Z.to_nat (spec_bytes (Z.of_nat n) s / s) in
  if (spec_bytes (Z.of_nat n) s <? 0)%Z
  then l <> [] -> run = Abort
  else room < n /\ if length l <=? room then exists rs w, run = Ok (rs, w) else run = UB.
Proof. exact @reserve_bad. Qed.
Print Assumptions C103_reserve_refuted.
(** 2^29 eight-byte elements make 0 bytes: not even one can be pushed. *)
Example C103_reserve_refuted_case : forall a : nat,
  b_run true 8 [ONew 0; OResize 0 (Z.to_nat (2 ^ 29)); OPush 0 a] world_init = UB.
Proof.
  intros a. pose proof (C103_reserve_refuted nat true 8 ltac:(lia) (Z.to_nat (2 ^ 29)) [a]) as H.
  rewrite Z2Nat.id in H by lia. specialize (H ltac:(vm_compute; reflexivity)). apply H.
Qed.
