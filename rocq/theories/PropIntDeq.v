(** C108: random access into deques with machine integers. *)
From Verif Require Import Base VectorModel VectorSpec Adapter Hist ListModel DequeModel DequeSpec DequeIterModel DequeIterSpec ArithModel IntVecLimit IntDeqModel IntDeqSpec IntDeqProofs.
Local Open Scope nat_scope.

(** Every history whose indices and distances are ints other than INT_MIN answers as
    the rules of std::deque demand. *)
Theorem C108_history : forall (A : Type) (N : nat) (eqb : A -> A -> bool), 0 < N -> forall ops : list (jop A), Forall proper ops ->
  match srun (js_step eqb) ops jspec0 with
  | SVal (rs, s) => exists w, mrun (int_step N eqb) ops jworld0 = Ok (rs, w)
  | SAbort => mrun (int_step N eqb) ops jworld0 = Abort
  | SUnspec => True
  end.
Proof. exact @int_history. Qed.
Print Assumptions C108_history.
Definition C108_ops : list (jop nat) :=
  [JDeq (DNew 0); JDeq (DPushBack 0 1); JDeq (DPushBack 0 2); JDeq (DPushFront 0 0); JDeq (DAt 0 (-3)); JDeq (DAt 0 1); JEnd 0 0; JPlus 1 0 (-2); JRead 1;
   JMinus 2 1 (-1); JRead 2; JMinus 2 2 2; JRead 2; JPlus 2 2 1; JEq 1 2; JRef 3 0 (-1); JRead 3].
Example C108_history_case : Forall proper C108_ops /\ exists s, srun (js_step Nat.eqb) C108_ops jspec0 =
  SVal ([RUnit; RUnit; RUnit; RUnit; RVal 0; RVal 1; RUnit; RUnit; RVal 1; RUnit; RVal 2; RUnit; RVal 0; RUnit; RBool true; RUnit; RVal 2], s).
Proof.
  split; [|eexists; vm_compute; reflexivity].
  unfold C108_ops. repeat (apply Forall_cons; split); try (apply Forall_nil; exact I); intros n E; try discriminate E; injection E as <-; unfold INT_MIN, INT_MAX; lia.
Qed.

(** INT_MIN is undefined behaviour after every history, for both operators and both
    forms of operator[]. *)
Theorem C108_min : forall (A : Type) (N : nat) (eqb : A -> A -> bool), 0 < N -> forall (ops : list (jop A)) rs s o, Forall proper ops ->
  srun (js_step eqb) ops jspec0 = SVal (rs, s) -> int_of o = Some INT_MIN ->
  mrun (int_step N eqb) (ops ++ [o]) jworld0 = UB.
Proof. exact @min_history. Qed.
Print Assumptions C108_min.
Example C108_min_case : int_of (A := nat) (JPlus 1 0 INT_MIN) = Some INT_MIN /\ int_of (A := nat) (JMinus 1 0 INT_MIN) = Some INT_MIN /\
  mrun (int_step 2 Nat.eqb) [JDeq (DNew 0); JDeq (DPushBack 0 1); JEnd 0 0; JMinus 1 0 INT_MIN] jworld0 = UB.
Proof. repeat split; vm_compute; reflexivity. Qed.

(** In a deque with enough elements d[INT_MIN] would be one of them. *)
Theorem C108_min_refuted : forall (A : Type) (N : nat) (eqb : A -> A -> bool), 0 < N -> forall (ops : list (jop A)) rs s id l r, Forall proper ops ->
  srun (js_step eqb) ops jspec0 = SVal (rs, s) -> j_dqs s !! id = Some (l, r) -> (2 ^ 31 <= Z.of_nat (length l))%Z ->
  (exists x s', l !! Z.to_nat (Z.of_nat (length l) - 2 ^ 31) = Some x /\
    srun (js_step eqb) (ops ++ [JDeq (DAt id INT_MIN)]) jspec0 = SVal (rs ++ [RVal x], s')) /\
  mrun (int_step N eqb) (ops ++ [JDeq (DAt id INT_MIN)]) jworld0 = UB.
Proof. exact @min_refuted. Qed.
Print Assumptions C108_min_refuted.
Example C108_min_refuted_case : exists (ops : list (jop nat)) rs s l r, Forall proper ops /\ srun (js_step Nat.eqb) ops jspec0 = SVal (rs, s) /\
  j_dqs s !! 0 = Some (l, r) /\ (2 ^ 31 <= Z.of_nat (length l))%Z.
Proof.
  destruct (list_of_length 7 (2 ^ 31)) as (l & Hl); [lia|]. destruct (long_deque Nat.eqb l) as (rs & s & r & Hp & E & El).
  do 5 eexists. split; [exact Hp|]. split; [exact E|]. split; [exact El|]. rewrite Hl. reflexivity.
Qed.
