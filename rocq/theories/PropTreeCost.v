(** C64 and C66: the height function, and how far the AVL operations descend. *)
From Verif Require Import Base Alloc AllocProofs VectorModel VectorSpec Adapter Hist TreeModel TreeSpec TreeWorld TreeWSpec TreeBase TreeHeight PropTree.

Local Open Scope nat_scope.

(** C64.  height of the root link of any stored tree is the tree's height; it
    returns exactly when the stack allows one call more than there are levels. *)
Theorem C64_height : forall (A : Type) (t : atree A) h f rt z par, linked h par t ->
  (forall fl, (depth t < Z.of_nat fl)%Z -> height_loop fl (rootp t) (TSt h f rt z) = Ok (depth t, TSt h f rt z)) /\
  (forall fl, (Z.of_nat fl <= depth t)%Z -> height_loop fl (rootp t) (TSt h f rt z) = Diverge) /\
  (depth t <= Z.of_nat (length (elems t)))%Z.
Proof. exact @height_top. Qed.
Print Assumptions C64_height.

Definition c64_heap : gmap nat (node nat) :=
  {[10 := Nd (Some 7) (Some 11) None 0%Z 5; 11 := Nd (Some 10) None (Some 12) 0%Z 9; 12 := Nd (Some 11) None None 0%Z 5]}.
Definition c64_tree : atree nat := Br (Br Lf 11 0%Z 9 (Br Lf 12 0%Z 5 Lf)) 10 0%Z 5 Lf.
Example C64_case : linked c64_heap (Some 7) c64_tree /\ depth c64_tree = 3%Z.
Proof. split; [|reflexivity]. cbn [linked c64_tree rootp]. repeat split; reflexivity. Qed.

(** C66.  After every specified history, finding any key in an AVL tree of n
    keys takes at most d+1 rounds of the search loop, where 2^d <= (n+1)^2. *)
Theorem C66_find : forall (A : Type) (cmp : A -> A -> bool), swo cmp -> forall (pol : policy), sound pol -> grants pol -> forall (ops : list (top A)) rs s id l x,
  srun (ts_step cmp) ops ∅ = SVal (rs, s) -> s !! id = Some l -> exists d w w',
  mrun (t_step cmp) ops (tw_init pol) = Ok (rs, w) /\ 2 ^ d <= (length l + 1) * (length l + 1) /\
  on id (r <- ld_root ;; p <- find_loop cmp (S d) r x ;; deref p) w = Ok (lookup_set cmp x l, w') /\
  t_step cmp (TFind id x) w = Ok (OOpt (lookup_set cmp x l), w').
Proof. exact @find_cost. Qed.
Print Assumptions C66_find.

(** C66.  push likewise nests at most d+1 calls: with that depth it does
    everything the unlimited push does, which always finishes. *)
Theorem C66_push : forall (A : Type) (cmp : A -> A -> bool), swo cmp -> forall (pol : policy), sound pol -> grants pol -> forall (ops : list (top A)) rs s id l x,
  srun (ts_step cmp) ops ∅ = SVal (rs, s) -> s !! id = Some l -> exists d w,
  mrun (t_step cmp) ops (tw_init pol) = Ok (rs, w) /\ 2 ^ d <= (length l + 1) * (length l + 1) /\
  on id (r <- ld_root ;; r' <- avl_insert cmp (S d) r x None ;; update_root r' ;;; k <- ld_size ;; st_size (k + 1)%Z) w = on id (avl_push cmp x) w /\
  on id (avl_push cmp x) w <> Diverge.
Proof. exact @push_cost. Qed.
Print Assumptions C66_push.

(** C66.  pop of any key, present or not, likewise. *)
Theorem C66_pop : forall (A : Type) (cmp : A -> A -> bool), swo cmp -> forall (pol : policy), sound pol -> grants pol -> forall (ops : list (top A)) rs s id l x,
  srun (ts_step cmp) ops ∅ = SVal (rs, s) -> s !! id = Some l -> exists d w,
  mrun (t_step cmp) ops (tw_init pol) = Ok (rs, w) /\ 2 ^ d <= (length l + 1) * (length l + 1) /\
  on id (k <- ld_size ;; if (k =? 0)%Z then ret tt else
         r <- ld_root ;; r' <- avl_delete cmp (S d) r x ;; r <- ld_root ;; when (negb (ptr_eqb r r')) (update_root r')) w = on id (avl_pop cmp x) w /\
  on id (avl_pop cmp x) w <> Diverge.
Proof. exact @pop_cost. Qed.
Print Assumptions C66_pop.

Example C66_case : exists rs s, srun (ts_step Nat.ltb)
  [TNew 0; TPush 0 1; TPush 0 2; TPush 0 3; TPush 0 4; TPush 0 5; TPush 0 6; TPush 0 7; TPop 0 4] ∅ = SVal (rs, s) /\ s !! 0 = Some [1; 2; 3; 5; 6; 7].
Proof. do 2 eexists. split; [vm_compute; reflexivity|]. vm_compute. reflexivity. Qed.
(** Only d <= 5 is allowed for six keys: an unbalanced tree would need 6. *)
Example C66_tight : 2 ^ 6 > (6 + 1) * (6 + 1).
Proof. cbn. lia. Qed.
