(** C87: pushing onto a deque a reference to an element of a deque. *)
From Verif Require Import Base VectorModel VectorSpec Adapter Hist ListModel DequeModel DequeSpec DequeIterModel DequeIterSpec DequeRefModel DequeRefSpec DequeRefProofs.

(** C87.  Histories in which push_back, push_front and push are also called with
    references to elements answer as if copies of the elements had been passed. *)
Theorem C87_history : forall (A : Type) (N : nat), 0 < N -> forall (eqb : A -> A -> bool) (ops : list (yop A)),
  match srun (ys_step eqb) ops jspec0 with
  | SVal (rs, _) => exists w, mrun (y_step N eqb) ops jworld0 = Ok (rs, w)
  | SAbort => mrun (y_step N eqb) ops jworld0 = Abort
  | SUnspec => True
  end.
Proof. exact @y_history. Qed.
Print Assumptions C87_history.

(** The two calls leave the same memory behind. *)
Theorem C87_copy : forall (A : Type) (N : nat), 0 < N -> forall (eqb : A -> A -> bool) (ops : list (yop A)) rs s w k x id l r,
  srun (ys_step eqb) ops jspec0 = SVal (rs, s) -> mrun (y_step N eqb) ops jworld0 = Ok (rs, w) -> read_at s k = Some x -> j_dqs s !! id = Some (l, r) ->
  y_step N eqb (YPushBack id k) w = y_step N eqb (YJ (JDeq (DPushBack id x))) w /\ y_step N eqb (YPushFront id k) w = y_step N eqb (YJ (JDeq (DPushFront id x))) w.
Proof. exact @y_copy. Qed.
Print Assumptions C87_copy.

(** d.push_back(d[n]) appends the element, d.push_front(d[n]) prepends it, and the
    reference is still to it. *)
Theorem C87_own : forall (A : Type) (N : nat), 0 < N -> forall (eqb : A -> A -> bool) (ops : list (yop A)) rs s k id n mv l r x,
  srun (ys_step eqb) ops jspec0 = SVal (rs, s) -> j_its s !! k = Some (DP id n mv) -> j_dqs s !! id = Some (l, r) -> l !! n = Some x ->
  (exists w, mrun (y_step N eqb) (ops ++ [YPushBack id k; YJ (JDeq (DIter id)); YJ (JRead k)]) jworld0 = Ok (rs ++ [RUnit; RList (l ++ [x]); RVal x], w)) /\
  (exists w, mrun (y_step N eqb) (ops ++ [YPushFront id k; YJ (JDeq (DIter id)); YJ (JRead k)]) jworld0 = Ok (rs ++ [RUnit; RList (x :: l); RVal x], w)).
Proof. exact @y_own. Qed.
Print Assumptions C87_own.

(** Blocks of one element: every push below finds the table full and grows it. *)
Definition C87_build : list (yop nat) :=
  [YJ (JDeq (DNew 0)); YJ (JDeq (DPushBack 0 5)); YJ (JRef 1 0 0); YPushBack 0 1; YPushFront 0 1; YJ (JDeq (DPushBack 0 6)); YJ (JRef 2 0 (-1)); YPushFront 0 2; YPush 0 2; YPushFront 0 1;
   YJ (JDeq (DNew 3)); YPushBack 3 2].
Example C87_case : exists s, srun (ys_step Nat.eqb) (C87_build ++ [YJ (JDeq (DIter 0)); YJ (JDeq (DIter 3)); YJ (JRead 1); YJ (JRead 2)]) jspec0 =
  SVal (replicate 12 RUnit ++ [RList [5; 6; 5; 5; 5; 6; 6]; RList [6]; RVal 5; RVal 6], s).
Proof. eexists. vm_compute. reflexivity. Qed.
Example C87_case_run : exists w, mrun (y_step 1 Nat.eqb) C87_build jworld0 = Ok (replicate 12 RUnit, w).
Proof. apply ran. vm_compute. reflexivity. Qed.
Example C87_case_own : exists s l, srun (ys_step Nat.eqb) C87_build jspec0 = SVal (replicate 12 RUnit, s) /\
  j_its s !! 2 = Some (DP 0 5 false) /\ j_dqs s !! 0 = Some (l, true) /\ l !! 5 = Some 6 /\ read_at s 2 = Some 6.
Proof. do 2 eexists. split; [vm_compute; reflexivity|]. repeat (split; [vm_compute; reflexivity|]). vm_compute. reflexivity. Qed.
(** The element popped, the reference is no good as an argument. *)
Example C87_case_gone : srun (ys_step Nat.eqb) [YJ (JDeq (DNew 0)); YJ (JDeq (DPushBack 0 5)); YJ (JRef 1 0 0); YJ (JDeq (DPopBack 0)); YPushBack 0 1] jspec0 = SUnspec /\
  mrun (y_step 2 Nat.eqb) [YJ (JDeq (DNew 0)); YJ (JDeq (DPushBack 0 5)); YJ (JRef 1 0 0); YJ (JDeq (DPopBack 0)); YPushBack 0 1] jworld0 = UB.
Proof. split; vm_compute; reflexivity. Qed.
