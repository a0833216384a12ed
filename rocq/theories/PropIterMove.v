(** C98: moving tree iterators. *)
From Verif Require Import Base Alloc AllocProofs VectorSpec Adapter Hist TreeModel TreeSpec TreeWorld BstWorld BstSpec TreeWSpec ListIterSpec TreeIterModel TreeIterSpec BstIterModel BstIterSpec IterMoveModel IterMoveSpec IterMoveTop.
Local Open Scope nat_scope.

Theorem C98_bst_history : forall (A : Type) (cmp : A -> A -> bool), swo cmp -> forall pol : policy, sound pol -> grants pol -> forall ops : list (mop (jop A)),
  match srun (bms_step cmp) ops (jspec0, ∅) with
  | SVal (rs, _) => exists w, mrun (bm_step cmp) ops (tw_init pol, ∅) = Ok (rs, w)
  | SAbort => mrun (bm_step cmp) ops (tw_init pol, ∅) = Abort
  | SUnspec => True
  end.
Proof. exact @bm_history. Qed.
Print Assumptions C98_bst_history.

Theorem C98_avl_history : forall (A : Type) (cmp : A -> A -> bool), swo cmp -> forall pol : policy, sound pol -> grants pol -> forall ops : list (mop (kop A)),
  match srun (ams_step cmp) ops (kspec0, ∅) with
  | SVal (rs, _) => exists w, mrun (am_step cmp) ops (tw_init pol, ∅) = Ok (rs, w)
  | SAbort => mrun (am_step cmp) ops (tw_init pol, ∅) = Abort
  | SUnspec => True
  end.
Proof. exact @am_history. Qed.
Print Assumptions C98_avl_history.

(** Moving instead of copying makes no difference to a program that does not use
    the source again. *)
Theorem C98_bst_taken : forall (A : Type) (cmp : A -> A -> bool), swo cmp -> forall pol : policy, sound pol -> grants pol ->
  forall (ops1 ops2 : list (mop (jop A))) k j rs1 s1 rs s, k <> j ->
  srun (bms_step cmp) ops1 (jspec0, ∅) = SVal (rs1, s1) -> j ∉ snd s1 ->
  (forall o, In o ops2 -> j ∉ j_names o) ->
  srun (bms_step cmp) (ops1 ++ MOp (JCopy k j) :: ops2) (jspec0, ∅) = SVal (rs, s) ->
  exists w, mrun (bm_step cmp) (ops1 ++ MMove k j :: ops2) (tw_init pol, ∅) = Ok (rs, w).
Proof. exact @bm_taken. Qed.
Print Assumptions C98_bst_taken.

Theorem C98_avl_taken : forall (A : Type) (cmp : A -> A -> bool), swo cmp -> forall pol : policy, sound pol -> grants pol ->
  forall (ops1 ops2 : list (mop (kop A))) k j rs1 s1 rs s, k <> j ->
  srun (ams_step cmp) ops1 (kspec0, ∅) = SVal (rs1, s1) -> j ∉ snd s1 ->
  (forall o, In o ops2 -> j ∉ k_names o) ->
  srun (ams_step cmp) (ops1 ++ MOp (KCopy k j) :: ops2) (kspec0, ∅) = SVal (rs, s) ->
  exists w, mrun (am_step cmp) (ops1 ++ MMove k j :: ops2) (tw_init pol, ∅) = Ok (rs, w).
Proof. exact @am_taken. Qed.
Print Assumptions C98_avl_taken.

(** Moving a moved-from iterator on, or erasing at it, is undefined behaviour; [k]
    may be [j] itself. *)
Theorem C98_bst_advance_refuted : forall (A : Type) (cmp : A -> A -> bool), swo cmp -> forall pol : policy, sound pol -> grants pol ->
  forall (ops : list (mop (jop A))) rs s k j o, srun (bms_step cmp) ops (jspec0, ∅) = SVal (rs, s) -> (exists p, j_its (fst s) !! j = Some p) ->
  In j (j_moves o) -> mrun (bm_step cmp) (ops ++ [MMove k j; MOp o]) (tw_init pol, ∅) = UB.
Proof. exact @bm_advance. Qed.
Print Assumptions C98_bst_advance_refuted.

Theorem C98_avl_advance_refuted : forall (A : Type) (cmp : A -> A -> bool), swo cmp -> forall pol : policy, sound pol -> grants pol ->
  forall (ops : list (mop (kop A))) rs s k j o, srun (ams_step cmp) ops (kspec0, ∅) = SVal (rs, s) -> (exists p, k_its (fst s) !! j = Some p) ->
  In j (k_moves o) -> mrun (am_step cmp) (ops ++ [MMove k j; MOp o]) (tw_init pol, ∅) = UB.
Proof. exact @am_advance. Qed.
Print Assumptions C98_avl_advance_refuted.

(** A copy of a moved-from iterator differs from it. *)
Theorem C98_bst_copy_refuted : forall (A : Type) (cmp : A -> A -> bool), swo cmp -> forall pol : policy, sound pol -> grants pol ->
  forall (ops : list (mop (jop A))) rs s k i j o n x, srun (bms_step cmp) ops (jspec0, ∅) = SVal (rs, s) ->
  j_its (fst s) !! j = Some (o, Some n) -> j ∉ snd s -> where_at InOrder n (j_trees (fst s)) = Some x -> k <> j -> i <> j -> i <> k ->
  exists w, mrun (bm_step cmp) (ops ++ [MMove k j; MOp (JCopy i j); MOp (JEq k j); MOp (JEq i j)]) (tw_init pol, ∅) = Ok (rs ++ [OUnit; OUnit; OBool true; OBool false], w).
Proof. exact @bm_copy. Qed.
Print Assumptions C98_bst_copy_refuted.

(** A copy of a moved-from iterator cannot be moved on either. *)
Theorem C98_avl_copy_refuted : forall (A : Type) (cmp : A -> A -> bool), swo cmp -> forall pol : policy, sound pol -> grants pol ->
  forall (ops : list (mop (kop A))) rs s k i j p o, srun (ams_step cmp) ops (kspec0, ∅) = SVal (rs, s) ->
  k_its (fst s) !! j = Some p -> In i (k_moves o) -> i <> j ->
  mrun (am_step cmp) (ops ++ [MMove k j; MOp (KCopy i j); MOp o]) (tw_init pol, ∅) = UB.
Proof. exact @am_copy. Qed.
Print Assumptions C98_avl_copy_refuted.

(** An iterator moved to itself cannot be read. *)
Theorem C98_bst_self_refuted : forall (A : Type) (cmp : A -> A -> bool), swo cmp -> forall pol : policy, sound pol -> grants pol ->
  forall (ops : list (mop (jop A))) rs s j p, srun (bms_step cmp) ops (jspec0, ∅) = SVal (rs, s) -> j_its (fst s) !! j = Some p ->
  mrun (bm_step cmp) (ops ++ [MMove j j; MOp (JRead j)]) (tw_init pol, ∅) = UB.
Proof. exact @bm_self. Qed.
Print Assumptions C98_bst_self_refuted.

Example C98_order : swo Nat.ltb.
Proof.
  split; intros; repeat match goal with H : Nat.ltb _ _ = true |- _ => apply Nat.ltb_lt in H end.
  - apply Nat.ltb_ge. lia.
  - rewrite !Nat.ltb_lt. lia.
Qed.
(** 8 takes the place of 7, which still reads and compares as before; 7 is assigned
    again and walks on. *)
Definition C98_ops : list (mop (jop nat)) :=
  [MOp (JTree (BFrom 0 [40; 20; 60; 10; 30])); MOp (JFind 7 0 20); MMove 8 7; MOp (JRead 7); MOp (JEq 7 8); MOp (JNext 8); MOp (JRead 8); MOp (JEq 7 8);
   MOp (JCopy 7 8); MOp (JNext 7); MOp (JRead 7)].
Example C98_case : exists s, srun (bms_step Nat.ltb) C98_ops (jspec0, ∅) =
  SVal ([OUnit; OUnit; OUnit; OOpt (Some 20); OBool true; OUnit; OOpt (Some 30); OBool false; OUnit; OUnit; OOpt (Some 40)], s).
Proof. eexists. vm_compute. reflexivity. Qed.
Definition C98_avl : list (mop (kop nat)) :=
  [MOp (KTree (TNew 0)); MOp (KTree (TPush 0 20)); MOp (KTree (TPush 0 10)); MOp (KTree (TPush 0 30)); MOp (KTree (TPush 0 40)); MOp (KFind 7 0 20)].
Example C98_avl_case : exists s, srun (ams_step Nat.ltb) (C98_avl ++ [MMove 8 7; MOp (KRead 7); MOp (KEq 7 8); MOp (KCopy 9 7); MOp (KEq 9 7); MOp (KErase 8 0 8); MOp (KRead 8)]) (kspec0, ∅) =
  SVal ([OUnit; OUnit; OUnit; OUnit; OUnit; OUnit; OUnit; OOpt (Some 20); OBool true; OUnit; OBool true; OUnit; OOpt (Some 30)], s).
Proof. eexists. vm_compute. reflexivity. Qed.
(** The hypotheses of [C98_bst_taken] and [C98_avl_taken]. *)
Example C98_case_taken : exists rs1 s1 rs s, srun (bms_step Nat.ltb) (take 2 C98_ops) (jspec0, ∅) = SVal (rs1, s1) /\ 7 ∉ snd s1 /\
  (forall o, In o [MOp (JNext 8); MOp (JRead 8)] -> 7 ∉ j_names (A := nat) o) /\
  srun (bms_step Nat.ltb) (take 2 C98_ops ++ MOp (JCopy 8 7) :: [MOp (JNext 8); MOp (JRead 8)]) (jspec0, ∅) = SVal (rs, s) /\ rs = [OUnit; OUnit; OUnit; OUnit; OOpt (Some 30)].
Proof.
  do 4 eexists. split; [vm_compute; reflexivity|]. split; [vm_compute; intros H; inversion H|]. split; [|split; [vm_compute; reflexivity|reflexivity]].
  intros o [<-|[<-|[]]]; cbn [j_names]; set_solver.
Qed.
Example C98_avl_case_taken : exists rs1 s1 rs s, srun (ams_step Nat.ltb) C98_avl (kspec0, ∅) = SVal (rs1, s1) /\ 7 ∉ snd s1 /\
  (forall o, In o [MOp (KNext 8); MOp (KRead 8)] -> 7 ∉ k_names (A := nat) o) /\
  srun (ams_step Nat.ltb) (C98_avl ++ MOp (KCopy 8 7) :: [MOp (KNext 8); MOp (KRead 8)]) (kspec0, ∅) = SVal (rs, s) /\ last rs = Some (OOpt (Some 30)).
Proof.
  do 4 eexists. split; [vm_compute; reflexivity|]. split; [vm_compute; intros H; inversion H|]. split; [|split; [vm_compute; reflexivity|reflexivity]].
  intros o [<-|[<-|[]]]; cbn [k_names]; set_solver.
Qed.
(** The hypotheses of the refutations, and what the code does. *)
Example C98_case_bad : exists rs s x, srun (bms_step Nat.ltb) (take 2 C98_ops) (jspec0, ∅) = SVal (rs, s) /\ j_its (fst s) !! 7 = Some (InOrder, Some 1) /\ 7 ∉ snd s /\
  where_at InOrder 1 (j_trees (fst s)) = Some x /\ In 7 (j_moves (A := nat) (JNext 7)) /\ In 7 (j_moves (A := nat) (JErase 9 0 7)).
Proof. do 3 eexists. split; [vm_compute; reflexivity|]. split; [vm_compute; reflexivity|]. split; [vm_compute; intros H; inversion H|]. split; [vm_compute; reflexivity|]. split; left; reflexivity. Qed.
Example C98_avl_case_bad : exists rs s, srun (ams_step Nat.ltb) C98_avl (kspec0, ∅) = SVal (rs, s) /\ k_its (fst s) !! 7 = Some (Some 0) /\
  In 7 (k_moves (A := nat) (KPostNext 9 7)) /\ In 9 (k_moves (A := nat) (KNext 9)).
Proof. do 2 eexists. split; [vm_compute; reflexivity|]. split; [vm_compute; reflexivity|]. split; left; reflexivity. Qed.
Example C98_case_code : mrun (bm_step Nat.ltb) (take 2 C98_ops ++ [MMove 8 7; MOp (JNext 7)]) (tw_init bump, ∅) = UB /\
  mrun (am_step Nat.ltb) (C98_avl ++ [MMove 7 7; MOp (KNext 7)]) (tw_init bump, ∅) = UB /\
  match mrun (am_step Nat.ltb) (C98_avl ++ [MMove 7 7; MOp (KRead 7)]) (tw_init bump, ∅) with Ok (rs, _) => last rs = Some (OOpt (Some 20)) | _ => False end.
Proof. split_and!; vm_compute; reflexivity. Qed.
