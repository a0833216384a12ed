(** C88: assigning an object to itself. *)
From Verif Require Import Base Alloc VectorModel VectorSpec VecProg Adapter Hist ListModel DequeModel QueueModel TreeModel TreeWorld BstWorld HeapModel SelfMove.
From Verif Require StackModel StackOtherModel StringModel DSUModel.
Local Open Scope nat_scope.

(** The full claim - h = move(h) leaves h as it was - is false of Heap, whose move
    assignment does not compare the addresses: after every history, moving a heap to
    itself throws all its elements away (the rest and the storage being as before). *)
Theorem C88_heap_refuted : forall (A : Type) (triv : bool) (cmp : A -> A -> bool) (ops : list (@hop A)) rs (w : world A) id v g l,
  wrun triv (arun (hp_step cmp) ops) world_init = Ok (rs, w) -> holds w id v (g :: l) ->
  exists w', wrun triv (arun (hp_step cmp) (ops ++ [HMoveAssign id id; HSize id])) world_init = Ok (rs ++ [RUnit; RNat 0], w') /\
    contents w' id = Some [g] /\ (forall j, j <> id -> view w' !! j = view w !! j) /\ storage_ok w'.
Proof. exact @heap_self_move. Qed.
Print Assumptions C88_heap_refuted.

(** Of every other container it is true, of copies as well as of moves, in every state
    in which the object lives: nothing at all changes.  Vectors ... *)
Theorem C88_vector_partial : forall (A : Type) (triv : bool) (w : world A) id, is_Some (w_objs w !! id) ->
  v_step triv (OMoveAssign id id) w = Ok (RUnit, w) /\ v_step triv (OAssign id id) w = Ok (RUnit, w).
Proof. exact @self_vector. Qed.
Print Assumptions C88_vector_partial.

(** ... stacks over vectors, and copying a heap to itself ... *)
Theorem C88_over_vector_partial : forall (A : Type) (triv : bool) (cmp : A -> A -> bool) (w : world A) id, is_Some (w_objs w !! id) ->
  wrun triv (StackModel.st_step (StackModel.KMoveAssign id id)) w = Ok (RUnit, w) /\ wrun triv (StackModel.st_step (StackModel.KAssign id id)) w = Ok (RUnit, w) /\
  wrun triv (hp_step cmp (HAssign id id)) w = Ok (RUnit, w).
Proof. exact @self_over_vector. Qed.
Print Assumptions C88_over_vector_partial.

(** ... disjoint sets ... *)
Theorem C88_dsu_partial : forall (triv : bool) (w : world Z) id, is_Some (w_objs w !! id) ->
  wrun triv (DSUModel.ds_step (DSUModel.DMoveAssign id id)) w = Ok (RUnit, w) /\ wrun triv (DSUModel.ds_step (DSUModel.DAssign id id)) w = Ok (RUnit, w).
Proof. exact @self_dsu. Qed.
Print Assumptions C88_dsu_partial.

(** ... strings ... *)
Theorem C88_string_partial : forall (triv : bool) (w : world Z) id,
  wrun triv (StringModel.st_step (StringModel.TMoveAssign id id)) w = Ok (StringModel.TUnit, w) /\ wrun triv (StringModel.st_step (StringModel.TAssign id id)) w = Ok (StringModel.TUnit, w).
Proof. exact @self_string. Qed.
Print Assumptions C88_string_partial.

(** ... deques, and queues and stacks over them ... *)
Theorem C88_deque_partial : forall (A : Type) (N : nat) (st : dst A) id,
  (dq_step N (DMoveAssign id id) st = Ok (RUnit, st) /\ dq_step N (DAssign id id) st = Ok (RUnit, st)) /\
  (qd_step N (QMoveAssign id id) st = Ok (RUnit, st) /\ qd_step N (QAssign id id) st = Ok (RUnit, st)) /\
  (StackOtherModel.kd_step N (StackModel.KMoveAssign id id) st = Ok (RUnit, st) /\ StackOtherModel.kd_step N (StackModel.KAssign id id) st = Ok (RUnit, st)).
Proof. exact @self_deque. Qed.
Print Assumptions C88_deque_partial.

(** ... both lists, and queues ... *)
Theorem C88_list_partial : forall (A : Type) (junk : A) (st : lst A) id,
  (dl_step junk (LMoveAssign id id) st = Ok (RUnit, st) /\ dl_step junk (LAssign id id) st = Ok (RUnit, st)) /\
  (sl_step junk (LMoveAssign id id) st = Ok (RUnit, st) /\ sl_step junk (LAssign id id) st = Ok (RUnit, st)) /\
  (ql_step junk (QMoveAssign id id) st = Ok (RUnit, st) /\ ql_step junk (QAssign id id) st = Ok (RUnit, st)).
Proof. exact @self_list. Qed.
Print Assumptions C88_list_partial.

(** ... AVL trees (which have no move assignment of their own) and search trees
    (which cannot be copied) ... *)
Theorem C88_tree_partial : forall (A : Type) (cmp : A -> A -> bool) (w : tworld A) id, is_Some (tw_objs w !! id) ->
  t_step cmp (TAssign id id) w = Ok (OUnit, w) /\ b_step cmp (BMoveAssign id id) w = Ok (OUnit, w).
Proof. exact @self_tree. Qed.
Print Assumptions C88_tree_partial.

(** ... and maps. *)
Theorem C88_map_partial : forall (K V : Type) (lt : K -> K -> bool) (dflt : V) (w : tworld (K * V)) id, is_Some (tw_objs w !! id) -> m_step lt dflt (MAssign id id) w = Ok (MUnit, w).
Proof. exact @self_map. Qed.
Print Assumptions C88_map_partial.

Example C88_case : exists w v, wrun true (arun (hp_step Nat.ltb) [HNew 0 9; HPush 0 5; HPush 0 3; HPush 0 4]) world_init = Ok ([RUnit; RUnit; RUnit; RUnit], w) /\ holds w 0 v [9; 3; 5; 4].
Proof. eexists _, _. split; [vm_compute; reflexivity|]. split; vm_compute; reflexivity. Qed.
Example C88_case_gone : exists w, wrun true (arun (hp_step Nat.ltb) [HNew 0 9; HPush 0 5; HPush 0 3; HTop 0; HMoveAssign 0 0; HEmpty 0; HIter 0]) world_init =
  Ok ([RUnit; RUnit; RUnit; RVal 3; RUnit; RBool true; RList []], w).
Proof. eexists. vm_compute. reflexivity. Qed.
Example C88_case_vector : exists rs (w : world nat), v_run true [ONew 0; OPush 0 1; OPush 0 2] world_init = Ok (rs, w) /\ is_Some (w_objs w !! 0).
Proof. do 2 eexists. split; [vm_compute; reflexivity|]. eexists. vm_compute. reflexivity. Qed.
Example C88_case_tree : exists rs w, mrun (t_step Nat.ltb) [TNew 0; TPush 0 1; TPush 0 2] (tw_init bump) = Ok (rs, w) /\ is_Some (tw_objs w !! 0).
Proof. do 2 eexists. split; [vm_compute; reflexivity|]. eexists. vm_compute. reflexivity. Qed.
