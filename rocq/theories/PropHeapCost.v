(** Property C68 (cost of the heap). *)
From Verif Require Import Base VectorModel VectorSpec VecProg HeapModel CostSpec HeapCost.

(** C68.  Counted in calls on the underlying vectors (each comparison of
    elements takes two), for any comparator at all - a preorder or not - and in
    any state: push and pop on a heap of n elements are logarithmic in n. *)
Theorem C68_push : forall (A : Type) (triv : bool) (cmp : A -> A -> bool) (w : world A) id v sentinel l a,
  reachable triv w -> holds w id v (sentinel :: l) ->
  calls triv (hp_push cmp id a) w <= 2 + 6 * Nat.log2 (length l + 1).
Proof. exact @push_calls. Qed.
Print Assumptions C68_push.

Theorem C68_pop : forall (A : Type) (triv : bool) (cmp : A -> A -> bool) (w : world A) id v sentinel l,
  reachable triv w -> holds w id v (sentinel :: l) ->
  calls triv (hp_pop cmp id) w <= 8 + 8 * Nat.log2 (length l).
Proof. exact @pop_calls. Qed.
Print Assumptions C68_pop.

(** Heap(begin, end) and build are linear in the length of the range, *)
Theorem C68_range : forall (A : Type) (triv : bool) (cmp : A -> A -> bool) (w : world A) id obj src b n,
  reachable triv w -> calls triv (hp_range cmp id obj src b n) w <= 3 + 12 * n.
Proof. exact @range_calls. Qed.
Print Assumptions C68_range.

Theorem C68_build : forall (A : Type) (triv : bool) (cmp : A -> A -> bool) (w : world A) id obj src b n,
  reachable triv w -> calls triv (hp_build cmp id obj src b n) w <= 3 + 14 * n.
Proof. exact @build_calls. Qed.
Print Assumptions C68_build.

(** and sort is n log n. *)
Theorem C68_sort : forall (A : Type) (triv : bool) (cmp : A -> A -> bool) (w : world A) id obj src b n,
  reachable triv w -> id <> src ->
  calls triv (hp_sort cmp id obj src b n) w <= 4 + n * (22 + 8 * Nat.log2 n).
Proof. exact @sort_calls. Qed.
Print Assumptions C68_sort.

(** A heap of seven elements, in order [1;2;3;4;5;6;7]: pushing 0 climbs to the
    top (the bound is met with equality: 2 + 6 * 3), popping sinks two levels. *)
Example C68_case : exists (w : world nat) v, reachable true w /\ holds w 0 v [0; 1; 2; 3; 4; 5; 6; 7] /\
  calls true (hp_push Nat.ltb 0 0) w = 20 /\ calls true (hp_pop Nat.ltb 0) w = 20 /\
  calls true (hp_sort Nat.ltb 1 0 0 1 7) w = 112 /\
  exists w', wrun true (hp_sort Nat.ltb 1 0 0 1 7) w = Ok (tt, w').
Proof.
  do 2 eexists. split; [exists (OFill 0 1 0 :: map (OPush 0) [1; 2; 3; 4; 5; 6; 7]); eexists; vm_compute; reflexivity|].
  split; [split; vm_compute; reflexivity|]. split; [vm_compute; reflexivity|]. split; [vm_compute; reflexivity|].
  split; [vm_compute; reflexivity|]. eexists. vm_compute. reflexivity.
Qed.
