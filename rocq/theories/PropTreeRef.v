(** C86: push and pop of an AVL tree accept references to elements of trees. *)
From Verif Require Import Base Alloc AllocProofs VectorSpec Adapter Hist TreeModel TreeSpec TreeWorld TreeWSpec ListIterSpec TreeIterModel TreeIterSpec TreeRefModel TreeRefSpec TreeRefProofs.
Local Open Scope nat_scope.

Theorem C86_history : forall (A : Type) (cmp : A -> A -> bool), swo cmp -> forall (pol : policy), sound pol -> grants pol -> forall ops : list (xop A),
  match srun (xs_step cmp) ops kspec0 with
  | SVal (rs, _) => exists w, mrun (x_step cmp) ops (tw_init pol, ∅) = Ok (rs, w)
  | SAbort => mrun (x_step cmp) ops (tw_init pol, ∅) = Abort
  | SUnspec => True
  end.
Proof. exact @x_history. Qed.
Print Assumptions C86_history.

Theorem C86_limited : forall (A : Type) (cmp : A -> A -> bool), swo cmp -> forall pol, sound pol -> forall ops : list (xop A),
  match srun (xs_step cmp) ops kspec0 with
  | SVal (rs, _) => (exists w, mrun (x_step cmp) ops (tw_init pol, ∅) = Ok (rs, w)) \/
      (mrun (x_step cmp) ops (tw_init pol, ∅) = Abort /\
       exists ops1 ops2 rs1 s1, ops = ops1 ++ ops2 /\ srun (xs_step cmp) ops1 kspec0 = SVal (rs1, s1) /\ refuses pol (total (strip (k_sets s1))))
  | SAbort => mrun (x_step cmp) ops (tw_init pol, ∅) = Abort
  | SUnspec => True
  end.
Proof. exact @x_history_or. Qed.
Print Assumptions C86_limited.

Theorem C86_copy : forall (A : Type) (cmp : A -> A -> bool), swo cmp -> forall pol, sound pol -> forall (ops : list (xop A)) rs s w k x id,
  srun (xs_step cmp) ops kspec0 = SVal (rs, s) -> mrun (x_step cmp) ops (tw_init pol, ∅) = Ok (rs, w) -> value_at s k = Some x ->
  x_step cmp (XPushAt id k) w = x_step cmp (XK (KTree (TPush id x))) w /\ x_step cmp (XPopAt id k) w = x_step cmp (XK (KTree (TPop id x))) w.
Proof. exact @x_copy. Qed.
Print Assumptions C86_copy.

Theorem C86_own : forall (A : Type) (cmp : A -> A -> bool), swo cmp -> forall (ops : list (xop A)) rs s k n id us x vs,
  srun (xs_step cmp) ops kspec0 = SVal (rs, s) -> k_its s !! k = Some (Some n) -> where_is n (k_sets s) = Some (id, (us, x, vs)) ->
  xs_step cmp (XPushAt id k) s = SAbort /\
  xs_step cmp (XPopAt id k) s = SVal (OUnit, KSpec (<[id := us ++ vs]> (k_sets s)) (k_next s) (k_its s)).
Proof. exact @x_own. Qed.
Print Assumptions C86_own.

Example C86_order : swo Nat.ltb.
Proof.
  split; intros; repeat match goal with H : Nat.ltb _ _ = true |- _ => apply Nat.ltb_lt in H end.
  - apply Nat.ltb_ge. lia.
  - rewrite !Nat.ltb_lt. lia.
Qed.
Example C86_allocator : sound bump /\ grants bump.
Proof. split; [exact bump_sound|exact bump_grants]. Qed.
(** Tree 0 gets 1..6, tree 1 a copy of it element by element; then *it is popped,
    first a node with two children, from tree 1, and from tree 0 an element of tree 1. *)
Definition C86_build : list (xop nat) :=
  [XK (KTree (TNew 0)); XK (KTree (TPush 0 1)); XK (KTree (TPush 0 2)); XK (KTree (TPush 0 3)); XK (KTree (TPush 0 4)); XK (KTree (TPush 0 5)); XK (KTree (TPush 0 6));
   XK (KTree (TNew 1)); XK (KBegin 7 0); XPushAt 1 7; XK (KNext 7); XPushAt 1 7; XK (KNext 7); XPushAt 1 7; XK (KNext 7); XPushAt 1 7; XK (KNext 7); XPushAt 1 7; XK (KNext 7); XPushAt 1 7;
   XK (KTree (TIter 1)); XK (KFind 8 1 2); XK (KFind 9 1 4)].
Definition C86_ops : list (xop nat) := C86_build ++ [XPopAt 1 9; XK (KTree (TIter 1)); XPopAt 0 8; XPopAt 1 8; XK (KTree (TIter 1)); XK (KTree (TIter 0))].
Example C86_case : exists s, srun (xs_step Nat.ltb) C86_ops kspec0 = SVal (
  replicate 20 OUnit ++ [OList [1; 2; 3; 4; 5; 6]; OUnit; OUnit; OUnit; OList [1; 2; 3; 5; 6]; OUnit; OUnit; OList [1; 3; 5; 6]; OList [1; 3; 4; 5; 6]], s).
Proof. eexists. vm_compute. reflexivity. Qed.
Example C86_case_own : exists rs s us vs, srun (xs_step Nat.ltb) C86_build kspec0 = SVal (rs, s) /\ k_its s !! 9 = Some (Some 9) /\
  where_is 9 (k_sets s) = Some (1, (us, 4, vs)) /\ us <> [] /\ vs <> [] /\ value_at s 9 = Some 4.
Proof. do 4 eexists. split; [vm_compute; reflexivity|]. split; [vm_compute; reflexivity|]. split; [vm_compute; reflexivity|]. repeat split; discriminate. Qed.
Example C86_case_copy : exists w, mrun (x_step Nat.ltb) C86_build (tw_init bump, ∅) = Ok (replicate 20 OUnit ++ [OList [1; 2; 3; 4; 5; 6]; OUnit; OUnit], w).
Proof. apply ran. vm_compute. reflexivity. Qed.
(** The element popped, its iterator is no good as an argument any more. *)
Example C86_case_gone : srun (xs_step Nat.ltb) (C86_build ++ [XPopAt 1 9; XPopAt 1 9]) kspec0 = SUnspec /\
  mrun (x_step Nat.ltb) (C86_build ++ [XPopAt 1 9; XPopAt 1 9]) (tw_init bump, ∅) = UB.
Proof. split; vm_compute; reflexivity. Qed.
