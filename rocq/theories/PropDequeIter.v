(** Property C76 (iterators of and references into deques). *)
From Verif Require Import Base VectorModel VectorSpec Adapter Hist ListModel DequeModel DequeSpec DequeIterModel DequeIterSpec DequeIterProofs.

(** C76.  For every block size, every history of calls on deques and of iterator
    operations in which only valid iterators are used (and none that an earlier push
    has pinned is moved) answers as the rules of std::deque demand: an iterator is at
    an index of its deque, pushes and pops at either end leave it at its element, and
    find and for_each see the elements between two iterators. *)
Theorem C76_history : forall (A : Type) (N : nat), 0 < N -> forall (eqb : A -> A -> bool) (ops : list (jop A)),
  match srun (js_step eqb) ops jspec0 with
  | SVal (rs, s) => exists w, mrun (j_step N eqb) ops jworld0 = Ok (rs, w)
  | SAbort => mrun (j_step N eqb) ops jworld0 = Abort
  | SUnspec => True
  end.
Proof. exact @j_history. Qed.
Print Assumptions C76_history.

(** However often is pushed at either end, a reference or an iterator to an element
    still reads that element. *)
Theorem C76_pushes_keep : forall (A : Type) (N : nat), 0 < N -> forall (eqb : A -> A -> bool) (ops : list (jop A)) rs s k id n mv l r x (pushes : list (dop A)),
  srun (js_step eqb) ops jspec0 = SVal (rs, s) -> j_its s !! k = Some (DP id n mv) -> j_dqs s !! id = Some (l, r) -> l !! n = Some x ->
  Forall (fun o => exists x, o = DPush id x \/ o = DPushBack id x \/ o = DPushFront id x) pushes ->
  exists w, mrun (j_step N eqb) (ops ++ (JDeq <$> pushes) ++ [JRead k]) jworld0 = Ok (rs ++ replicate (length pushes) RUnit ++ [RVal x], w).
Proof. exact @pushes_keep_run. Qed.
Print Assumptions C76_pushes_keep.

Example C76_case : exists s, srun (js_step Nat.eqb)
  [JDeq (DNew 0); JDeq (DPushBack 0 1); JDeq (DPushBack 0 2); JDeq (DPushFront 0 0); JBegin 0 0; JEnd 1 0; JEach 0 1; JFind 2 0 1 2; JRead 2; JFind 3 0 1 9; JEq 3 1;
   JPostNext 4 0; JRead 4; JRead 0; JPlus 5 0 1; JEq 5 2; JMinus 5 1 3; JNe 5 4; JRef 6 0 (-1); JEq 6 2; JDeq (DPopFront 0); JNext 0; JRead 0; JDeq (DPushBack 0 7); JDeq (DPushFront 0 8);
   JRead 2; JRead 6; JEq 6 2; JBegin 7 0; JEnd 1 0; JEach 7 1; JPrev 1; JRead 1; JDeq (DPopBack 0); JRead 6]%nat jspec0
  = SVal ([RUnit; RUnit; RUnit; RUnit; RUnit; RUnit; RList [0; 1; 2]; RUnit; RVal 2; RUnit; RBool true;
   RUnit; RVal 0; RVal 1; RUnit; RBool true; RUnit; RBool false; RUnit; RBool true; RUnit; RUnit; RVal 2; RUnit; RUnit;
   RVal 2; RVal 2; RBool true; RUnit; RUnit; RList [8; 1; 2; 7]; RUnit; RVal 7; RUnit; RVal 2]%nat, s).
Proof. eexists. vm_compute. reflexivity. Qed.
Example C76_case_keep : exists rs s, srun (js_step Nat.eqb) [JDeq (DNew 0); JDeq (DPushBack 0 1); JDeq (DPushFront 0 2); JRef 0 0 1]%nat jspec0 = SVal (rs, s) /\
  j_its s !! 0 = Some (DP 0 1 false) /\ j_dqs s !! 0 = Some ([2; 1], true).
Proof. do 2 eexists. split; [vm_compute; reflexivity|]. split; vm_compute; reflexivity. Qed.
(** Why pinned iterators are left out: after the table has grown, moving one on and
    reading it can leave the content. *)
Example C76_case_pinned : mrun (j_step 1 Nat.eqb)
  [JDeq (DNew 0); JDeq (DPushBack 0 1); JDeq (DPushBack 0 2); JBegin 0 0; JDeq (DPushBack 0 3); JDeq (DPushFront 0 0); JDeq (DPushFront 0 9); JDeq (DPushFront 0 8); JRead 0; JNext 0; JRead 0]%nat jworld0 = UB.
Proof. vm_compute. reflexivity. Qed.
