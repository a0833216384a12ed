(** C102: machine integers in indices, loops and heaps. *)
From stdpp Require Import list_numbers.
From Verif Require Import Base VectorModel VectorSpec VecProg Adapter ArithModel HeapModel HeapSpec IntModel IntSpec IntProofs.
Local Open Scope Z_scope.

(** v[i] designates the element i counts to, from either end, or asserts, or is an
    offset below 0, for vectors of up to INT_MAX elements. *)
Theorem C102_index : forall (n : nat) (i : Z), Z.of_nat n <= INT_MAX -> INT_MIN <= i <= INT_MAX ->
  int_index (Z.of_nat n) i =
    match py_index n i with
    | Some k => Ok (Z.of_nat k)
    | None => if Z.of_nat n <=? i then Abort else Ok (Z.of_nat n + i)
    end.
Proof. exact int_index_spec. Qed.
Print Assumptions C102_index.
Example C102_index_case : int_index 2147483647 (-2) = Ok 2147483645 /\ int_index 5 5 = Abort /\ int_index 5 (-6) = Ok (-1).
Proof. vm_compute. auto. Qed.

(** No element of a larger vector can be reached. *)
Theorem C102_index_refuted : forall n i, INT_MAX < n < 2 ^ 32 -> INT_MIN <= i <= INT_MAX ->
  int_index n i = Abort \/ (i < 0 /\ exists j, int_index n i = Ok j /\ j < 0).
Proof. exact int_index_big. Qed.
Print Assumptions C102_index_refuted.
Example C102_index_refuted_case : int_index 2147483648 0 = Abort /\ int_index 3000000000 (-1) = Ok (-1294967297).
Proof. vm_compute. auto. Qed.

(** [for (int i = start; i < n; i++)] visits start .. n-1 and stops if n is an int, and
    overflows otherwise; from a size that is negative as an int it visits nothing. *)
Theorem C102_loop : forall n i fuel,
  (n <= INT_MAX -> 0 <= i <= INT_MAX -> n - i <= Z.of_nat fuel -> int_for fuel i n = Ok (seqZ i (n - i))) /\
  (INT_MAX < n -> 0 <= i <= INT_MAX -> INT_MAX - i < Z.of_nat fuel -> int_for fuel i n = UB) /\
  (n < 2 ^ 63 -> INT_MIN <= i < 0 -> int_for fuel i n = Ok []).
Proof. exact int_for_spec. Qed.
Print Assumptions C102_loop.
Example C102_loop_case : int_for 3 2 5 = Ok [2; 3; 4] /\ int_for 3 2147483645 2147483648 = UB /\
  int_for 3 (to_int 2147483648) 2147483650 = Ok [].
Proof. vm_compute. auto. Qed.

(** Histories in which no heap and no vector gets more than 2^30 slots. *)
Theorem C102_heap : forall (A : Type) (triv : bool) (cmp : A -> A -> bool) (le : A -> A -> Prop),
  (forall a b c, le a b -> le b c -> le a c) ->
  (forall a b, cmp a b = true -> le a b) ->
  (forall a b, cmp a b = false -> le b a) ->
  forall ops : list (@hop A),
  (forall pre o post rs w, ops = pre ++ o :: post ->
     wrun triv (arun (mi_step cmp) pre) world_init = Ok (rs, w) -> fits (wsizes w) o) ->
  exists r, h_run triv le ops ∅ r /\
    match r with
    | SVal (rs, s) => exists w, wrun triv (arun (mi_step cmp) ops) world_init = Ok (rs, w) /\ storage_ok w
    | SAbort => wrun triv (arun (mi_step cmp) ops) world_init = Abort
    | SUnspec => True
    end.
Proof. exact @int_heap_history. Qed.
Print Assumptions C102_heap.
(** A history that meets the hypothesis, and what it answers. *)
Definition C102_ops : list (@hop nat) :=
  [HVec 0 [4; 9; 2; 7]%nat; HRange 1 0%nat 0 0 4; HPush 1 3%nat; HTop 1; HPop 1; HTop 1; HMoveNew 2 1; HSort 3 0%nat 0 1 3; HVIter 0; HBuild 4 0%nat 0 0 2].
Example C102_heap_case : forall pre o post rs w, C102_ops = pre ++ o :: post ->
  wrun true (arun (mi_step Nat.ltb) pre) world_init = Ok (rs, w) -> fits (wsizes w) o.
Proof.
  intros pre o post rs w Ho Hr. apply fits_small.
  - assert (Hall : forallb (fun k => small_after (arun (mi_step Nat.ltb) (firstn k C102_ops))) (seq 0 11) = true) by (vm_compute; reflexivity).
    rewrite forallb_forall in Hall. specialize (Hall (length pre)).
    rewrite Ho, (firstn_app (length pre)), Nat.sub_diag, firstn_all, firstn_O, app_nil_r in Hall.
    eapply small_after_ok; [apply Hall, in_seq|exact Hr]. apply (f_equal length) in Ho. rewrite app_length in Ho. cbn in Ho. lia.
  - assert (Hin : In o C102_ops) by (rewrite Ho; apply in_or_app; right; left; reflexivity).
    cbn in Hin. repeat destruct Hin as [<-|Hin]; try exact I; try lia.
Qed.
Example C102_heap_answers : exists w, wrun true (arun (mi_step Nat.ltb) C102_ops) world_init =
  Ok ([RUnit; RUnit; RUnit; RVal 2; RUnit; RVal 3; RUnit; RUnit; RList [4; 2; 7; 9]; RUnit]%nat, w).
Proof. eexists. vm_compute. reflexivity. Qed.

(** One slot more is too many: if the last inner node does not precede its left child,
    making a heap of the elements computes an int beyond INT_MAX. *)
Theorem C102_heap_refuted : forall (A : Type) (triv : bool) (cmp : A -> A -> bool) (u : list A) obj x y,
  2 ^ 30 <= Z.of_nat (length u) < INT_MAX ->
  u !! (length u / 2 - 1)%nat = Some x -> u !! (2 * (length u / 2) - 1)%nat = Some y -> cmp x y = false ->
  wrun triv (arun (mi_step cmp) [HVec 0 u; HRange 1 obj 0 0 (length u)]) world_init = UB.
Proof. exact @range_overflow. Qed.
Print Assumptions C102_heap_refuted.
Example C102_heap_refuted_case : let u := repeat 5%nat (Z.to_nat (2 ^ 30)) in
  wrun true (arun (mi_step Nat.ltb) [HVec 0 u; HRange 1 0%nat 0 0 (length u)]) world_init = UB.
Proof.
  intros u. assert (El : length u = Z.to_nat (2 ^ 30)) by apply repeat_length.
  assert (Hd : (Z.to_nat (2 ^ 30) / 2 = Z.to_nat (2 ^ 29))%nat) by (symmetry; apply (Nat.div_unique _ _ _ 0); lia).
  apply (C102_heap_refuted nat true Nat.ltb u _ 5%nat 5%nat); rewrite ?El, ?Hd;
    [unfold INT_MAX; lia|apply repeat_lookup; lia|apply repeat_lookup; lia|reflexivity].
Qed.
