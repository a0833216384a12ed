(** Properties C21-C23 (DisjointSet). *)
From Coq Require Import Relations.
From Verif Require Import Base VectorModel VectorSpec VecProg Adapter DSUModel DSUSpec DSUProofs.

(** C21.  Every history of connects of elements not yet linked, finds,
    connectivity queries, counts, copies and moves: connected(x,y) answers
    whether x and y are linked by the pairs connected so far, and count() is the
    number of elements minus the number of connects.  Out-of-range elements assert. *)
Theorem C21_dsu_history : forall ops : list dop, exists r, d_run ops ∅ r /\
  match r with
  | SVal (rs, s) => exists w, wrun true (arun ds_step ops) world_init = Ok (rs, w) /\ storage_ok w
  | SAbort => wrun true (arun ds_step ops) world_init = Abort
  | SUnspec => True
  end.
Proof. exact dsu_history. Qed.
Print Assumptions C21_dsu_history.

(** A history on which every step is specified. *)
Example C21_case : exists w, wrun true (arun ds_step
  [DNew 0 6; DConnect 0 0 1; DConnect 0 2 3; DConnected 0 1 3; DConnect 0 3 1; DConnected 0 0 2; DCount 0; DFind 0 1;
   DCopyNew 1 0; DConnect 1 5 4; DCount 1; DCount 0; DConnected 0 4 5; DMoveNew 2 1; DConnected 2 4 5; DEmpty 1]) world_init
  = Ok ([RUnit; RUnit; RUnit; RBool false; RUnit; RBool true; RNat 3; RVal 2%Z;
   RUnit; RUnit; RNat 2; RNat 3; RBool false; RUnit; RBool true; RBool true], w).
Proof. eexists. vm_compute. reflexivity. Qed.
Example C21_case_spec : exists s, srun dr_step
  [DNew 0 6; DConnect 0 0 1; DConnect 0 2 3; DConnected 0 1 3; DConnect 0 3 1; DConnected 0 0 2; DCount 0; DFind 0 1] ∅
  = SVal ([RUnit; RUnit; RUnit; RBool false; RUnit; RBool true; RNat 3; RVal 2%Z], s).
Proof. eexists. vm_compute. reflexivity. Qed.

(** C22.  After every such history, find of two elements agrees exactly when
    they are linked, the answer is itself a member of the set and its own
    representative, and asking again gives the same answer. *)
Theorem C22_find_canonical : forall ops : list dop, exists r, d_run ops ∅ r /\
  match r with
  | SVal (rs, s) => forall id n E, s !! id = Some (DLinks n E) ->
      forall x y, x < n -> y < n ->
      exists rx ry w, wrun true (arun ds_step (ops ++ [DFind id x; DFind id y; DFind id rx; DFind id x])) world_init
          = Ok (rs ++ [RVal (Z.of_nat rx); RVal (Z.of_nat ry); RVal (Z.of_nat rx); RVal (Z.of_nat rx)], w) /\
        rx < n /\ linked E x rx /\ (rx = ry <-> linked E x y)
  | _ => True
  end.
Proof. exact find_canonical. Qed.
Print Assumptions C22_find_canonical.

(** Inserting a find anywhere in a specified history changes no other answer. *)
Theorem C22_find_pure : forall ops1 ops2 id x rs1 t1 d rs2 t2,
  srun dr_step ops1 ∅ = SVal (rs1, t1) -> t1 !! id = Some d -> x < length d ->
  srun dr_step ops2 t1 = SVal (rs2, t2) ->
  exists v w w', wrun true (arun ds_step (ops1 ++ ops2)) world_init = Ok (rs1 ++ rs2, w) /\
    wrun true (arun ds_step (ops1 ++ DFind id x :: ops2)) world_init = Ok (rs1 ++ RVal v :: rs2, w').
Proof. exact find_pure. Qed.
Print Assumptions C22_find_pure.

Example C22_case : exists rs1 t1 d rs2 t2,
  srun dr_step [DNew 0 4; DConnect 0 0 1; DConnect 0 2 3; DConnect 0 3 1] ∅ = SVal (rs1, t1) /\ t1 !! 0 = Some d /\ 1 < length d /\
  srun dr_step [DConnected 0 0 3; DFind 0 3; DCount 0] t1 = SVal (rs2, t2).
Proof. do 5 eexists. split; [vm_compute; reflexivity|]. split; [reflexivity|]. split; [simpl; lia|]. vm_compute. reflexivity. Qed.

(** C23 is false: after every such history, connecting two elements of one set
    makes count() one too small and every later find on the set recurse for ever. *)
Theorem C23_connect_same_refuted : forall ops : list dop, exists r, d_run ops ∅ r /\
  match r with
  | SVal (rs, s) => forall id n E, s !! id = Some (DLinks n E) ->
      forall x y, x < n -> y < n -> linked E x y ->
      (exists w, wrun true (arun ds_step (ops ++ [DConnect id x y; DCount id])) world_init
          = Ok (rs ++ [RUnit; RNat (n - length E - 1)], w)) /\
      forall z, z < n -> linked E x z -> forall fuel,
        wrun true (_ <- arun ds_step (ops ++ [DConnect id x y]) ;; ds_find fuel id (Z.of_nat z))%wprog world_init = Diverge
  | _ => True
  end.
Proof. exact connect_same. Qed.
Print Assumptions C23_connect_same_refuted.

Example C23_case : wrun true (arun ds_step [DNew 0 3; DConnect 0 0 1; DConnect 0 1 0; DFind 0 0]) world_init = Diverge.
Proof. vm_compute. reflexivity. Qed.
Example C23_case_linked : linked [(0, 1)] 1 0.
Proof. apply rst_sym, rst_step. left. reflexivity. Qed.
