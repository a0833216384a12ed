(** Properties C59, C60 and C61. *)
From Verif Require Import Base TreeSpec ArithModel ArithSpec ArithProofs.

Local Open Scope Z_scope.

(** C59, the part that holds: below 2 GiB the block has exactly the bytes needed. *)
Theorem C59_bytes_partial : forall n s, 0 <= n -> 0 <= s -> n * s <= INT_MAX ->
  spec_bytes n s = n * s /\ malloc_arg (spec_bytes n s) = n * s.
Proof. exact @spec_bytes_ok. Qed.
Print Assumptions C59_bytes_partial.

Example C59_case : spec_bytes 268435455 8 = 2147483640 /\ 268435455 * 8 <= INT_MAX.
Proof. split; [vm_compute; reflexivity|vm_compute; discriminate]. Qed.

(** C59, refuted beyond: every request of more than INT_MAX bytes reaches the
    allocator either at least 4 GiB too small or as a negative number, which
    malloc takes for a size just short of 2^64. *)
Theorem C59_truncated_refuted : forall n s, 0 <= n -> 0 <= s -> INT_MAX < n * s ->
  (0 <= spec_bytes n s /\ malloc_arg (spec_bytes n s) + 2 ^ 32 <= n * s) \/
  (spec_bytes n s < 0 /\ 2 ^ 64 - 2 ^ 31 <= malloc_arg (spec_bytes n s)).
Proof. exact @spec_bytes_bad. Qed.
Print Assumptions C59_truncated_refuted.

Example C59_truncated_case : spec_bytes 536870912 8 = 0 /\ spec_bytes 268435456 8 = INT_MIN /\ INT_MAX < 536870912 * 8.
Proof. split; [vm_compute; reflexivity|]. split; [vm_compute; reflexivity|]. vm_compute. reflexivity. Qed.

(** C59, refuted for every element type: some count makes the block smaller than
    a single element. *)
Theorem C59_short_refuted : forall s, 1 <= s <= INT_MAX ->
  exists n, 0 < n <= 2 ^ 32 /\ 0 <= spec_bytes n s < s /\ spec_bytes n s < n * s.
Proof. exact @spec_bytes_short. Qed.
Print Assumptions C59_short_refuted.

Example C59_short_case : spec_bytes 357913942 12 = 8 /\ 1 <= 12 <= INT_MAX.
Proof. split; [vm_compute; reflexivity|]. split; vm_compute; discriminate. Qed.

(** C60.  The comparators on pointers, whatever the built-in < says about null. *)
Theorem C60_pointer_order : forall (P : Type) (null : P) (eqb raw : P -> P -> bool),
  (forall a b, eqb a b = true <-> a = b) -> address_order null raw ->
  strict_total (less_ptr null eqb raw) /\ strict_total (greater_ptr null eqb raw) /\
  (forall a b, greater_ptr null eqb raw a b = less_ptr null eqb raw b a) /\
  (forall a, a <> null -> less_ptr null eqb raw null a = true /\ less_ptr null eqb raw a null = false) /\
  (forall a b, a <> null -> b <> null -> less_ptr null eqb raw a b = raw a b).
Proof. exact @ptr_order'. Qed.
Print Assumptions C60_pointer_order.

Example C60_case : (forall a b, Z.eqb a b = true <-> a = b) /\ address_order 7 Z.ltb /\
  less_ptr 7 Z.eqb Z.ltb 7 3 = true /\ Z.ltb 7 3 = false /\ less_ptr 7 Z.eqb Z.ltb 3 9 = true.
Proof.
  split; [exact Z.eqb_eq|]. split; [|vm_compute; auto]. split; [intros a _; apply Z.ltb_irrefl|]. split.
  - intros a b c _ _ _ H1 H2. lia.
  - intros a b _ _. destruct (Z.ltb_spec a b); [auto|]. destruct (Z.ltb_spec b a); [auto|left; lia].
Qed.

(** C60.  Hence trees and maps of pointers ordered by them are within reach of the
    theorems about trees, with distinct pointers as distinct keys. *)
Theorem C60_tree_fit : forall (P : Type) (null : P) (eqb raw : P -> P -> bool),
  (forall a b, eqb a b = true <-> a = b) -> address_order null raw ->
  swo (less_ptr null eqb raw) /\ swo (greater_ptr null eqb raw) /\ forall a b, equiv (less_ptr null eqb raw) a b -> a = b.
Proof. exact @ptr_tree_fit. Qed.
Print Assumptions C60_tree_fit.

(** C60.  The comparators on values. *)
Theorem C60_value_order : forall (V : Type) (lt : V -> V -> bool), strict_total lt ->
  strict_total (less_val lt) /\ strict_total (greater_val lt) /\ forall a b, greater_val lt a b = less_val lt b a.
Proof. exact @val_order. Qed.
Print Assumptions C60_value_order.

Example C60_value_case : strict_total Z.ltb /\ greater_val Z.ltb 5 3 = true.
Proof.
  split; [|reflexivity]. split; [apply Z.ltb_irrefl|]. split; [intros a b c H1 H2; lia|].
  intros a b. destruct (Z.ltb_spec a b); [auto|]. destruct (Z.ltb_spec b a); [auto|left; lia].
Qed.

(** C61.  swap exchanges the objects whatever moving leaves behind, also when both
    references are the same object, and touches nothing else. *)
Theorem C61_swap : forall (V : Type) (left : V -> V) (s : gmap nat V) a b x y, s !! a = Some x -> s !! b = Some y ->
  exists s', swap_ref left a b s = Ok (tt, s') /\ s' !! a = Some y /\ s' !! b = Some x /\ forall k, k <> a -> k <> b -> s' !! k = s !! k.
Proof. exact @swap_ok. Qed.
Print Assumptions C61_swap.

Example C61_swap_case : exists s', swap_ref (fun _ => 0) 0%nat 1%nat {[ 0%nat := 5; 1%nat := 7; 2%nat := 9 ]} = Ok (tt, s') /\
  s' !! 0%nat = Some 7 /\ s' !! 1%nat = Some 5 /\ s' !! 2%nat = Some 9.
Proof. eexists. split; [vm_compute; reflexivity|]. vm_compute. auto. Qed.

(** C61.  max and abs on ints; abs of the most negative int overflows. *)
Theorem C61_max_abs_int : forall a b, INT_MIN <= a <= INT_MAX -> INT_MIN <= b <= INT_MAX ->
  max_val Z.gtb a b = Z.max a b /\ abs_int a = (if Z.eqb a INT_MIN then UB else Ok (Z.abs a)).
Proof. exact @utils_int. Qed.
Print Assumptions C61_max_abs_int.

Example C61_int_case : abs_int (-5) = Ok 5 /\ abs_int INT_MIN = UB /\ max_val Z.gtb (-3) 2 = 2 /\ INT_MIN <= -5 <= INT_MAX.
Proof. repeat split; vm_compute; congruence. Qed.

(** C61.  max on any type with an asymmetric order: one of the two, and no smaller
    than either. *)
Theorem C61_max : forall (V : Type) (lt : V -> V -> bool) a b, (forall x y, lt x y = true -> lt y x = false) ->
  let m := max_val (fun x y => lt y x) a b in (m = a \/ m = b) /\ lt m a = false /\ lt m b = false.
Proof. exact @max_gen. Qed.
Print Assumptions C61_max.
