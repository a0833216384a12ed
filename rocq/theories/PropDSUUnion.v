(** C85: union_set called by a client (DisjointSet). *)
From Verif Require Import Base VectorModel VectorSpec VecProg Adapter Hist DSUModel DSUSpec DSUUnionModel DSUUnionSpec DSUUnionProofs.

(** C85, what holds.  Every history that also calls union_set: with a second
    argument that represents a set the first is not in, the two sets become one;
    with a first argument that represents the second, nothing happens; an
    element that does not exist asserts; and everything else answers as before. *)
Theorem C85_history_partial : forall ops,
  match srun du_step ops ∅ with
  | SVal (rs, s) => exists w, wrun true (arun us_step ops) world_init = Ok (rs, w) /\ storage_ok w
  | SAbort => wrun true (arun us_step ops) world_init = Abort
  | SUnspec => True
  end.
Proof. exact union_history. Qed.
Print Assumptions C85_history_partial.

Example C85_history_case : exists s w,
  srun du_step [UDo (DNew 0 5); UUnion 0 0 1; UUnion 0 1 2; UDo (DConnected 0 0 2); UUnion 0 4 3; UUnion 0 4 0; UUnion 0 4 2;
    UDo (DFind 0 2); UDo (DConnected 0 3 1); UDo (DCount 0)] ∅
  = SVal ([RUnit; RUnit; RUnit; RBool true; RUnit; RUnit; RUnit; RVal 4%Z; RBool true; RNat 1], s) /\
  wrun true (arun us_step [UDo (DNew 0 5); UUnion 0 0 1; UUnion 0 1 2; UDo (DConnected 0 0 2); UUnion 0 4 3; UUnion 0 4 0; UUnion 0 4 2;
    UDo (DFind 0 2); UDo (DConnected 0 3 1); UDo (DCount 0)]) world_init
  = Ok ([RUnit; RUnit; RUnit; RBool true; RUnit; RUnit; RUnit; RVal 4%Z; RBool true; RNat 1], w).
Proof. do 2 eexists. split; vm_compute; reflexivity. Qed.
Example C85_range_case : wrun true (arun us_step [UDo (DNew 0 3); UUnion 0 3 1]) world_init = Abort /\
  wrun true (arun us_step [UDo (DNew 0 3); UUnion 0 1 3]) world_init = Abort.
Proof. split; vm_compute; reflexivity. Qed.

(** union_set(x, find(y)) in place of connect(x, y), for x and y in different
    sets, anywhere in a history: all answers are the same. *)
Theorem C85_connect_partial : forall ops1 ops2 id x y rs1 t1 d rs2 t2,
  srun du_step ops1 ∅ = SVal (rs1, t1) -> t1 !! id = Some d -> x < length d -> y < length d -> rep d x <> rep d y ->
  srun du_step (UDo (DConnect id x y) :: ops2) t1 = SVal (rs2, t2) ->
  exists w w', wrun true (arun us_step (ops1 ++ UDo (DConnect id x y) :: ops2)) world_init = Ok (rs1 ++ rs2, w) /\
    wrun true (arun us_step (ops1 ++ UUnion id x (rep d y) :: ops2)) world_init = Ok (rs1 ++ rs2, w').
Proof. exact union_connect. Qed.
Print Assumptions C85_connect_partial.

Example C85_connect_case : exists rs1 t1 d rs2 t2,
  srun du_step [UDo (DNew 0 5); UDo (DConnect 0 0 1); UDo (DConnect 0 3 4)] ∅ = SVal (rs1, t1) /\ t1 !! 0 = Some d /\
  1 < length d /\ 4 < length d /\ rep d 1 <> rep d 4 /\ rep d 4 = 3 /\
  srun du_step [UDo (DConnect 0 1 4); UDo (DConnected 0 0 3); UDo (DCount 0); UDo (DFind 0 4)] t1 = SVal (rs2, t2).
Proof.
  do 5 eexists. split; [vm_compute; reflexivity|]. split; [reflexivity|]. split; [simpl; lia|]. split; [simpl; lia|].
  split; [vm_compute; lia|]. split; vm_compute; reflexivity.
Qed.

(** C85 is false (1): a second argument y that does not represent its set.  The
    call tears that set apart: y goes over to the set of x, with some of the
    others; what represented it stays behind, and there are as many sets as
    before.  Whatever is called later answers for the new partition. *)
Theorem C85_split_refuted : forall ops rs t id d x y,
  srun du_step ops ∅ = SVal (rs, t) -> t !! id = Some d -> x < length d -> y < length d ->
  rep d y <> y -> rep d x <> rep d y ->
  exists d', length d' = length d /\ classes d' = classes d /\
    rep d' x = rep d x /\ rep d' y = rep d x /\ rep d' (rep d y) = rep d y /\
    (forall z, z < length d -> rep d' z = rep d z \/ (rep d z = rep d y /\ rep d' z = rep d x)) /\
    forall ops2, match srun du_step ops2 (<[id := d']> t) with
      | SVal (rs2, _) => exists w, wrun true (arun us_step (ops ++ UUnion id x y :: ops2)) world_init = Ok (rs ++ RUnit :: rs2, w) /\ storage_ok w
      | SAbort => wrun true (arun us_step (ops ++ UUnion id x y :: ops2)) world_init = Abort
      | SUnspec => True
      end.
Proof. exact union_split. Qed.
Print Assumptions C85_split_refuted.

Example C85_split_case : exists w,
  wrun true (arun us_step [UDo (DNew 0 4); UDo (DConnect 0 0 1); UDo (DConnect 0 0 3); UDo (DConnected 0 1 0); UUnion 0 2 1;
    UDo (DConnected 0 2 1); UDo (DConnected 0 1 0); UDo (DConnected 0 3 0); UDo (DCount 0)]) world_init
  = Ok ([RUnit; RUnit; RUnit; RBool true; RUnit; RBool true; RBool false; RBool true; RNat 2], w).
Proof. apply ran. vm_compute. reflexivity. Qed.
Example C85_split_case_hyp : exists rs t d,
  srun du_step [UDo (DNew 0 4); UDo (DConnect 0 0 1); UDo (DConnect 0 0 3)] ∅ = SVal (rs, t) /\ t !! 0 = Some d /\
  rep d 1 <> 1 /\ rep d 2 <> rep d 1.
Proof. do 3 eexists. split; [vm_compute; reflexivity|]. split; [reflexivity|]. split; vm_compute; lia. Qed.

(** C85 is false (2): a second argument that represents the first.  One set too
    few is counted and every later find on the set recurses for ever. *)
Theorem C85_cycle_refuted : forall ops rs t id d x y,
  srun du_step ops ∅ = SVal (rs, t) -> t !! id = Some d -> x < length d -> rep d x = y ->
  (exists w, wrun true (arun us_step (ops ++ [UUnion id x y; UDo (DCount id)])) world_init
     = Ok (rs ++ [RUnit; RNat (classes d - 1)], w)) /\
  forall z, z < length d -> rep d z = y -> forall fuel,
    wrun true (_ <- arun us_step (ops ++ [UUnion id x y]) ;; ds_find fuel id (Z.of_nat z))%wprog world_init = Diverge.
Proof. exact union_cycle. Qed.
Print Assumptions C85_cycle_refuted.

(** C85 is false (3): union_set(x, x), for every x: find(x) recurses for ever. *)
Theorem C85_loop_refuted : forall ops rs t id d x,
  srun du_step ops ∅ = SVal (rs, t) -> t !! id = Some d -> x < length d -> forall fuel,
    wrun true (_ <- arun us_step (ops ++ [UUnion id x x]) ;; ds_find fuel id (Z.of_nat x))%wprog world_init = Diverge.
Proof. exact union_loop. Qed.
Print Assumptions C85_loop_refuted.

Example C85_cycle_case : exists rs t d,
  srun du_step [UDo (DNew 0 4); UDo (DConnect 0 0 1); UDo (DConnect 0 0 3)] ∅ = SVal (rs, t) /\ t !! 0 = Some d /\
  rep d 1 = 0 /\ rep d 3 = 0 /\ classes d = 2 /\ 1 < length d /\
  wrun true (arun us_step [UDo (DNew 0 4); UDo (DConnect 0 0 1); UDo (DConnect 0 0 3); UUnion 0 1 0; UDo (DFind 0 3)]) world_init = Diverge.
Proof. do 3 eexists. split; [vm_compute; reflexivity|]. split; [reflexivity|]. split_and!; try (vm_compute; reflexivity). simpl. lia. Qed.
