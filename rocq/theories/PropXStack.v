(** Property C89 (MinStack and MaxStack over every container). *)
From Verif Require Import Base Alloc AllocProofs VectorModel VectorSpec VecProg Adapter Hist ListModel ListSpec DequeModel DequeSpec StackModel StackSpec StackOtherModel StackOtherSpec XStackModel XStackSpec XStackProofs.
Local Open Scope nat_scope.

(** C89.  Any number of stacks with extremum over Vector, a deque or a linked list,
    with any order, any elements whose == is reflexive, and any value in the
    uninitialised member: every history of constructions, copies, moves and calls
    gives the answers of the specification, and destroying all stacks leaves nothing
    behind.  Only lists whose allocator may refuse can stop short.  Missing for the
    full claim: pushing what equals the current extremum and iteration (both refuted
    below) and what the containers themselves get wrong. *)
Theorem C89_history_partial : forall (A : Type) (cmp eqb : A -> A -> bool) (mvd : A -> A), (forall a, eqb a a = true) ->
  forall (c : cont A) (ops : list (eop A)), usable c ->
  match srun (es_step (over c) cmp eqb) ops ∅ with
  | SVal (rs, s) => (exists w, xrun c cmp eqb mvd ops = Ok (rs, w) /\ (s = ∅ -> nothing_left c (fst w))) \/ (xrun c cmp eqb mvd ops = Abort /\ may_stop c)
  | SAbort => xrun c cmp eqb mvd ops = Abort
  | SUnspec => True
  end.
Proof. exact @xstack_history. Qed.
Print Assumptions C89_history_partial.

(** What the specification lets getXValue() answer is an element that no other
    precedes, if the order is a strict one. *)
Theorem C89_extremum : forall (A : Type) (cmp : A -> A -> bool), (forall a, cmp a a = false) ->
  (forall a b c, cmp a b = true -> cmp b c = true -> cmp a c = true) ->
  forall l, l <> [] -> exists x, extremum cmp l = Some x /\ In x l /\ forall y, In y l -> cmp y x = false.
Proof. exact @extremum_first. Qed.
Print Assumptions C89_extremum.

(** Iteration is never right: after every such history, iterating a stack with
    elements gives more values than it has elements. *)
Theorem C89_iter_refuted : forall (A : Type) (cmp eqb : A -> A -> bool) (mvd : A -> A), (forall a, eqb a a = true) ->
  forall (c : cont A) (ops : list (eop A)) rs s id a l p, usable c -> ~ may_stop c ->
  srun (es_step (over c) cmp eqb) ops ∅ = SVal (rs, s) -> s !! id = Some (a :: l, p) ->
  exists more w, xrun c cmp eqb mvd (ops ++ [EIter id]) = Ok (rs ++ [RList more], w) /\ length (a :: l) < length more.
Proof. exact @xstack_iter_refuted. Qed.
Print Assumptions C89_iter_refuted.

(** Pushing the current extremum and popping it makes getXValue() answer the top
    element, whatever the extremum is. *)
Theorem C89_repeat_refuted : forall (A : Type) (cmp eqb : A -> A -> bool) (mvd : A -> A), (forall a, eqb a a = true) ->
  forall (c : cont A) (ops : list (eop A)) rs s id a l p x, (forall a, cmp a a = false) -> usable c -> ~ may_stop c ->
  srun (es_step (over c) cmp eqb) ops ∅ = SVal (rs, s) -> s !! id = Some (a :: l, p) -> extremum cmp (a :: l) = Some x ->
  exists w, xrun c cmp eqb mvd (ops ++ [EPush id x; EPop id; EExt id]) = Ok (rs ++ [RUnit; RUnit; RVal a], w).
Proof. exact @xstack_repeat_refuted. Qed.
Print Assumptions C89_repeat_refuted.

(** A history covered over every container, and that the containers exist. *)
Definition x_ops : list (eop nat) :=
  [ENew 0 77; EEmpty 0; EPush 0 5; EPush 0 2; EPush 0 4; EExt 0; EPop 0; EPush 0 1; EExt 0; EPop 0; EPop 0; EExt 0; ETop 0; ENew 1 88; EPush 1 9; EExt 1; EClear 0; EEmpty 0; EPush 0 6; EExt 0].
Definition x_answers : list (out nat) :=
  [RUnit; RBool true; RUnit; RUnit; RUnit; RVal 2; RUnit; RUnit; RVal 1; RUnit; RUnit; RVal 5; RVal 5; RUnit; RUnit; RVal 9; RUnit; RBool true; RUnit; RVal 6].
Example C89_case : forall c : cont nat, exists s, srun (es_step (over c) Nat.ltb Nat.eqb) (x_ops ++ [EDestroy 1; EDestroy 0]) ∅ = SVal (x_answers ++ [RUnit; RUnit], s) /\ s = ∅.
Proof. intros [[|]|N|j pol|j pol]; (eexists; split; [vm_compute; reflexivity|apply map_to_list_empty_iff; vm_compute; reflexivity]). Qed.
Example C89_case_usable : Forall (fun c : cont nat => usable c /\ ~ may_stop c) [CVector true; CVector false; CDeque 3; CDList 0 bump; CSList 0 bump].
Proof. repeat constructor; cbn; try (intros []; fail); try lia; try apply bump_sound; intros H; apply H, bump_grants. Qed.
(** A copy keeps its own extremum; moving takes it along. *)
Example C89_case_copy : exists s, srun (es_step (Over OnDeque) Nat.ltb Nat.eqb) [ENew 0 7; EPush 0 5; EPush 0 2; ECopyNew 1 0; EPop 0; EExt 0; EExt 1; EPush 1 1; EAssign 0 1; EExt 0; EPop 0; EExt 0] ∅ =
  SVal ([RUnit; RUnit; RUnit; RUnit; RUnit; RVal 5; RVal 2; RUnit; RUnit; RVal 1; RUnit; RVal 2], s).
Proof. eexists. vm_compute. reflexivity. Qed.
Example C89_case_move : exists s, srun (es_step (OverVector false) Nat.ltb Nat.eqb) [ENew 0 7; EPush 0 5; EPush 0 2; EMoveNew 1 0; EExt 1; EEmpty 0; EPush 0 9; EExt 0; EMoveAssign 0 1; EExt 0; EPop 0; EExt 0] ∅ =
  SVal ([RUnit; RUnit; RUnit; RUnit; RVal 2; RBool true; RUnit; RVal 9; RUnit; RVal 2; RUnit; RVal 5], s).
Proof. eexists. vm_compute. reflexivity. Qed.
Example C89_case_abort : srun (es_step (Over OnDList) Nat.ltb Nat.eqb) [ENew 0 7; EPush 0 5; EPop 0; EPop 0] ∅ = SAbort.
Proof. vm_compute. reflexivity. Qed.
(** What iteration shows: the uninitialised 77 and the saved 5 are among the values. *)
Example C89_case_iter : exists w, xrun (CDeque 3) Nat.ltb Nat.eqb id [ENew 0 77; EPush 0 5; EPush 0 2; EPush 0 4; EIter 0] = Ok ([RUnit; RUnit; RUnit; RUnit; RList [77; 5; 5; 2; 4]], w).
Proof. apply ran. vm_compute. reflexivity. Qed.
Example C89_case_repeat : (exists s, srun (es_step (OverVector true) Nat.ltb Nat.eqb) [ENew 0 77; EPush 0 2; EPush 0 5] ∅ = SVal ([RUnit; RUnit; RUnit], s) /\ s !! 0 = Some ([5; 2], true)) /\
  extremum Nat.ltb [5; 2] = Some 2.
Proof. split; [eexists; split; vm_compute; reflexivity|reflexivity]. Qed.
Example C89_case_order : (forall a, Nat.ltb a a = false) /\ forall a b c, Nat.ltb a b = true -> Nat.ltb b c = true -> Nat.ltb a c = true.
Proof. split; [apply Nat.ltb_irrefl|]. intros a b c. rewrite !Nat.ltb_lt. lia. Qed.
