(** Moving an object to itself. *)
From Verif Require Import Base Alloc VectorModel VectorSpec VecProg VectorProofs VectorWorld VectorExtra LRun Adapter Hist ListModel DequeModel QueueModel TreeModel TreeWorld BstWorld HeapModel HeapSpec HeapProofs.
From Verif Require StackModel StackOtherModel StringModel DSUModel.
Local Open Scope nat_scope.

Section Heap.
Context {A : Type} (triv : bool) (cmp : A -> A -> bool).
Lemma hp_self_ok (s : lworld A) id g l cap : s !! id = Some (LVec (g :: l) cap) -> lrun triv (hp_step cmp (HMoveAssign id id)) s = Ok (RUnit, <[id := LVec [g] 1]> s).
Proof.
  intros E. cbn [hp_step]. unfold hp_move_assign. rewrite lrun_bind. erewrite lrun_bind_ok by (eapply wmove_self; eassumption).
  erewrite lrun_bind_ok by (apply (wget_ok triv s id (g :: l) cap 0 g); [exact E|reflexivity]). erewrite wresize_fill_ok by eassumption. reflexivity.
Qed.
Lemma lrun_app {O P} (step : O -> wprog A P) (ops1 ops2 : list O) : forall s rs1 s1, lrun triv (arun step ops1) s = Ok (rs1, s1) ->
  lrun triv (arun step (ops1 ++ ops2)) s = match lrun triv (arun step ops2) s1 with Ok (rs2, s2) => Ok (rs1 ++ rs2, s2) | Abort => Abort | UB => UB | Diverge => Diverge end.
Proof.
  induction ops1 as [|o ops1 IH]; intros s rs1 s1 E.
  - injection E as <- <-. cbn [app]. destruct (lrun triv (arun step ops2) s) as [[rs2 s2]| | |]; reflexivity.
  - cbn [app arun] in *. rewrite lrun_bind in E |- *. destruct (lrun triv (step o) s) as [[r s2]| | |]; try discriminate. rewrite lrun_bind in E |- *.
    destruct (lrun triv (arun step ops1) s2) as [[rs s3]| | |] eqn:E1; try discriminate. injection E as <- <-. rewrite (IH _ _ _ E1).
    destruct (lrun triv (arun step ops2) s3) as [[rs2 s4]| | |]; reflexivity.
Qed.
Lemma heap_self_move (ops : list (@hop A)) rs (w : world A) id v g l : wrun triv (arun (hp_step cmp) ops) world_init = Ok (rs, w) -> holds w id v (g :: l) ->
  exists w', wrun triv (arun (hp_step cmp) (ops ++ [HMoveAssign id id; HSize id])) world_init = Ok (rs ++ [RUnit; RNat 0], w') /\
    contents w' id = Some [g] /\ (forall j, j <> id -> view w' !! j = view w !! j) /\ storage_ok w'.
Proof.
  intros R Hh. pose proof (program_from_scratch triv (arun (hp_step cmp) ops)) as P. rewrite R in P. destruct (lrun triv (arun (hp_step cmp) ops) ∅) as [[rs1 s1]| | |] eqn:E; try discriminate.
  destruct P as (w1 & [= <- <-] & Hv & _). pose proof (view_holds _ _ _ _ Hh) as Hl. rewrite Hv in Hl.
  pose proof (program_from_scratch triv (arun (hp_step cmp) (ops ++ [HMoveAssign id id; HSize id]))) as P.
  assert (E2 : lrun triv (arun (hp_step cmp) [HMoveAssign id id; HSize id]) s1 = Ok ([RUnit; RNat 0], <[id := LVec [g] 1]> s1)).
  { cbn [arun]. rewrite (lrun_bind_ok _ _ _ _ _ _ (hp_self_ok _ _ _ _ _ Hl)). rewrite !lrun_bind. cbn [hp_step]. unfold hp_size. rewrite !lrun_bind. erewrite wsize_ok by apply lookup_insert. reflexivity. }
  rewrite (lrun_app _ _ _ _ _ _ E), E2 in P. destruct P as (w' & R' & Hv' & Hst). exists w'. split; [exact R'|]. split; [|split; [|exact Hst]].
  - erewrite view_contents by (rewrite Hv'; apply lookup_insert). reflexivity.
  - intros j Hj. rewrite Hv', Hv, lookup_insert_ne by congruence. reflexivity.
Qed.
End Heap.


Theorem self_vector : forall (A : Type) (triv : bool) (w : world A) id, is_Some (w_objs w !! id) ->
  v_step triv (OMoveAssign id id) w = Ok (RUnit, w) /\ v_step triv (OAssign id id) w = Ok (RUnit, w).
Proof. intros A triv w id [v E]. cbn [v_step]. unfold bind, obj. rewrite E. cbn iota. rewrite E, Nat.eqb_refl. split; reflexivity. Qed.
Theorem self_over_vector : forall (A : Type) (triv : bool) (cmp : A -> A -> bool) (w : world A) id, is_Some (w_objs w !! id) ->
  wrun triv (StackModel.st_step (StackModel.KMoveAssign id id)) w = Ok (RUnit, w) /\ wrun triv (StackModel.st_step (StackModel.KAssign id id)) w = Ok (RUnit, w) /\
  wrun triv (hp_step cmp (HAssign id id)) w = Ok (RUnit, w).
Proof. intros A triv cmp w id H. destruct (self_vector A triv w id H) as [E1 E2]. cbn [StackModel.st_step hp_step]. unfold hp_copy_assign, wunit. cbn [wbind wrun w_step]. rewrite (bind_ok _ _ _ _ _ E1), (bind_ok _ _ _ _ _ E2). auto. Qed.
Theorem self_dsu : forall (triv : bool) (w : world Z) id, is_Some (w_objs w !! id) ->
  wrun triv (DSUModel.ds_step (DSUModel.DMoveAssign id id)) w = Ok (RUnit, w) /\ wrun triv (DSUModel.ds_step (DSUModel.DAssign id id)) w = Ok (RUnit, w).
Proof. intros triv w id H. destruct (self_vector Z triv w id H) as [E1 E2]. cbn [DSUModel.ds_step]. unfold wunit. cbn [wbind wrun w_step]. rewrite (bind_ok _ _ _ _ _ E1), (bind_ok _ _ _ _ _ E2). auto. Qed.
Theorem self_string : forall (triv : bool) (w : world Z) id,
  wrun triv (StringModel.st_step (StringModel.TMoveAssign id id)) w = Ok (StringModel.TUnit, w) /\ wrun triv (StringModel.st_step (StringModel.TAssign id id)) w = Ok (StringModel.TUnit, w).
Proof. intros triv w id. cbn [StringModel.st_step]. unfold StringModel.st_move, StringModel.st_assign. rewrite Nat.eqb_refl. split; reflexivity. Qed.
Theorem self_deque : forall (A : Type) (N : nat) (st : dst A) id,
  (dq_step N (DMoveAssign id id) st = Ok (RUnit, st) /\ dq_step N (DAssign id id) st = Ok (RUnit, st)) /\
  (qd_step N (QMoveAssign id id) st = Ok (RUnit, st) /\ qd_step N (QAssign id id) st = Ok (RUnit, st)) /\
  (StackOtherModel.kd_step N (StackModel.KMoveAssign id id) st = Ok (RUnit, st) /\ StackOtherModel.kd_step N (StackModel.KAssign id id) st = Ok (RUnit, st)).
Proof.
  intros A N st id. assert (H : dq_step N (DMoveAssign id id) st = Ok (RUnit, st) /\ dq_step N (DAssign id id) st = Ok (RUnit, st)); [|split; [exact H|split; exact H]].
  cbn [dq_step]. unfold dq_move, dq_assign. rewrite Nat.eqb_refl. split; reflexivity.
Qed.
Theorem self_list : forall (A : Type) (junk : A) (st : lst A) id,
  (dl_step junk (LMoveAssign id id) st = Ok (RUnit, st) /\ dl_step junk (LAssign id id) st = Ok (RUnit, st)) /\
  (sl_step junk (LMoveAssign id id) st = Ok (RUnit, st) /\ sl_step junk (LAssign id id) st = Ok (RUnit, st)) /\
  (ql_step junk (QMoveAssign id id) st = Ok (RUnit, st) /\ ql_step junk (QAssign id id) st = Ok (RUnit, st)).
Proof.
  intros A junk st id. split; [|split]; [cbn [dl_step]|cbn [sl_step]|cbn [ql_step dl_step]]; unfold dl_move, dl_assign, sl_move, sl_assign; rewrite Nat.eqb_refl; split; reflexivity.
Qed.
Theorem self_tree : forall (A : Type) (cmp : A -> A -> bool) (w : tworld A) id, is_Some (tw_objs w !! id) ->
  t_step cmp (TAssign id id) w = Ok (OUnit, w) /\ b_step cmp (BMoveAssign id id) w = Ok (OUnit, w).
Proof.
  intros A cmp w id [o E]. cbn [t_step b_step]. unfold tw_assign, bst_move, bind, tw_get. rewrite E. cbn iota. rewrite Nat.eqb_refl, insert_id by exact E. destruct w. split; reflexivity.
Qed.
Theorem self_map : forall (K V : Type) (lt : K -> K -> bool) (dflt : V) (w : tworld (K * V)) id, is_Some (tw_objs w !! id) -> m_step lt dflt (MAssign id id) w = Ok (MUnit, w).
Proof.
  intros K V lt dflt w id [o E]. cbn [m_step]. unfold tw_assign, bind. rewrite E. cbn iota. rewrite insert_id by exact E. destruct w. reflexivity.
Qed.
