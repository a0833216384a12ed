(** C101: moving deque iterators. *)
From Verif Require Import Base VectorModel VectorSpec Adapter Hist ListModel DequeModel DequeSpec DequeIterModel DequeIterSpec DqMoveModel DqMoveSpec DqMoveProofs DqMoveTop.
Local Open Scope nat_scope.

Theorem C101_history : forall (A : Type) (N : nat), 0 < N -> forall (eqb : A -> A -> bool) (ops : list (dmop A)),
  match srun (dms_step eqb) ops (jspec0, ∅) with
  | SVal (rs, _) => exists w, mrun (dm_step N eqb) ops dmworld0 = Ok (rs, w)
  | SAbort => mrun (dm_step N eqb) ops dmworld0 = Abort
  | SUnspec => True
  end.
Proof. exact @dm_history. Qed.
Print Assumptions C101_history.

(** Moving instead of copying makes no difference to a program that does not use
    the source again. *)
Theorem C101_taken : forall (A : Type) (N : nat), 0 < N -> forall (eqb : A -> A -> bool) (ops1 ops2 : list (dmop A)) k j rs1 s1 rs s, k <> j ->
  srun (dms_step eqb) ops1 (jspec0, ∅) = SVal (rs1, s1) -> j ∉ snd s1 -> (forall o, In o ops2 -> ~ In j (jd_names o)) ->
  srun (dms_step eqb) (ops1 ++ DMOp (JCopy k j) :: ops2) (jspec0, ∅) = SVal (rs, s) ->
  exists w, mrun (dm_step N eqb) (ops1 ++ DMMove k j :: ops2) dmworld0 = Ok (rs, w).
Proof. exact @dm_taken. Qed.
Print Assumptions C101_taken.

(** Taking a step with a moved-from iterator is undefined behaviour; [k] may be [j]
    itself. *)
Theorem C101_advance_refuted : forall (A : Type) (N : nat), 0 < N -> forall (eqb : A -> A -> bool) (ops : list (dmop A)) rs s k j p o,
  srun (dms_step eqb) ops (jspec0, ∅) = SVal (rs, s) -> j_its (fst s) !! j = Some p -> In j (jd_moves o) ->
  mrun (dm_step N eqb) (ops ++ [DMMove k j; DMOp o]) dmworld0 = UB.
Proof. exact @dm_advance. Qed.
Print Assumptions C101_advance_refuted.

(** A copy of a moved-from iterator differs from it and cannot be read. *)
Theorem C101_copy_refuted : forall (A : Type) (N : nat), 0 < N -> forall (eqb : A -> A -> bool) (ops : list (dmop A)) rs s k i j p,
  srun (dms_step eqb) ops (jspec0, ∅) = SVal (rs, s) -> j_its (fst s) !! j = Some p -> j ∉ snd s -> k <> j -> i <> j -> i <> k ->
  exists w, mrun (dm_step N eqb) (ops ++ [DMMove k j; DMOp (JCopy i j); DMOp (JEq k j); DMOp (JEq i j)]) dmworld0 =
    Ok (rs ++ [RUnit; RUnit; RBool true; RBool false], w) /\ dm_step N eqb (DMOp (JRead i)) w = UB.
Proof. exact @dm_copy. Qed.
Print Assumptions C101_copy_refuted.

(** An iterator moved to itself cannot be read. *)
Theorem C101_self_refuted : forall (A : Type) (N : nat), 0 < N -> forall (eqb : A -> A -> bool) (ops : list (dmop A)) rs s j p,
  srun (dms_step eqb) ops (jspec0, ∅) = SVal (rs, s) -> j_its (fst s) !! j = Some p ->
  mrun (dm_step N eqb) (ops ++ [DMMove j j; DMOp (JRead j)]) dmworld0 = UB.
Proof. exact @dm_self. Qed.
Print Assumptions C101_self_refuted.

(** 8 takes the place of 7, which still reads and compares as before, also as the end
    of a range; 7 is assigned again and walks on. *)
Definition C101_ops : list (dmop nat) :=
  [DMOp (JDeq (DNew 0)); DMOp (JDeq (DPushBack 0 10)); DMOp (JDeq (DPushBack 0 20)); DMOp (JDeq (DPushBack 0 30)); DMOp (JBegin 7 0); DMOp (JNext 7)].
Example C101_case : exists s, srun (dms_step Nat.eqb) (C101_ops ++ [DMMove 8 7; DMOp (JRead 7); DMOp (JEq 7 8); DMOp (JNext 8); DMOp (JRead 8); DMOp (JEq 7 8); DMOp (JBegin 9 0); DMOp (JEach 9 7);
    DMOp (JCopy 7 8); DMOp (JPrev 7); DMOp (JRead 7)]) (jspec0, ∅) =
  SVal (replicate 6 RUnit ++ [RUnit; RVal 20; RBool true; RUnit; RVal 30; RBool false; RUnit; RList [10]; RUnit; RUnit; RVal 20], s).
Proof. eexists. vm_compute. reflexivity. Qed.
(** The hypotheses of [C101_taken]. *)
Example C101_case_taken : exists rs1 s1 rs s, srun (dms_step Nat.eqb) C101_ops (jspec0, ∅) = SVal (rs1, s1) /\ 7 ∉ snd s1 /\
  (forall o, In o [DMOp (JNext 8); DMOp (JRead 8)] -> ~ In 7 (jd_names (A := nat) o)) /\
  srun (dms_step Nat.eqb) (C101_ops ++ DMOp (JCopy 8 7) :: [DMOp (JNext 8); DMOp (JRead 8)]) (jspec0, ∅) = SVal (rs, s) /\ last rs = Some (RVal 30).
Proof.
  do 4 eexists. split; [vm_compute; reflexivity|]. split; [vm_compute; intros H; inversion H|]. split; [|split; [vm_compute; reflexivity|reflexivity]].
  intros o [<-|[<-|[]]]; cbn [jd_names]; intros [H|[]]; discriminate.
Qed.
(** The hypotheses of the refutations, and what the code does. *)
Example C101_case_bad : exists rs s p, srun (dms_step Nat.eqb) C101_ops (jspec0, ∅) = SVal (rs, s) /\ j_its (fst s) !! 7 = Some p /\ 7 ∉ snd s /\
  In 7 (jd_moves (A := nat) (JNext 7)) /\ In 7 (jd_moves (A := nat) (JPlus 9 7 2)).
Proof. do 3 eexists. split; [vm_compute; reflexivity|]. split; [vm_compute; reflexivity|]. split; [vm_compute; intros H; inversion H|]. split; left; reflexivity. Qed.
Example C101_case_code : mrun (dm_step 2 Nat.eqb) (C101_ops ++ [DMMove 8 7; DMOp (JNext 7)]) dmworld0 = UB /\ mrun (dm_step 2 Nat.eqb) (C101_ops ++ [DMMove 7 7; DMOp (JRead 7)]) dmworld0 = UB /\
  match mrun (dm_step 2 Nat.eqb) (C101_ops ++ [DMMove 8 7; DMOp (JRead 7); DMOp (JPlus 9 7 0); DMOp (JEq 9 7)]) dmworld0 with Ok (rs, _) => rs = replicate 7 RUnit ++ [RVal 20; RUnit; RBool false] | _ => False end.
Proof. split_and!; vm_compute; reflexivity. Qed.
