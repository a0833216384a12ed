(** C65: how deep find recurses (DisjointSet). *)
From Verif Require Import Base VectorModel VectorSpec VecProg Adapter DSUModel DSUSpec DSUProofs DSUDepth.

(** C65 is false: connecting (1,0), (2,1), ..., (n,n-1) in that order builds one
    chain of n+1 elements, in which find(0) needs exactly n+1 nested calls. *)
Theorem C65_deep_refuted : forall n fuel,
  (exists w, wrun true (arun ds_step (DNew 0 (S n) :: map (fun k => DConnect 0 (S k) k) (seq 0 n))) world_init = Ok (repeat RUnit (S n), w)) /\
  (fuel <= n ->
    wrun true (_ <- arun ds_step (DNew 0 (S n) :: map (fun k => DConnect 0 (S k) k) (seq 0 n)) ;; ds_find fuel 0 0)%wprog world_init = Diverge) /\
  (n < fuel -> exists w,
    wrun true (_ <- arun ds_step (DNew 0 (S n) :: map (fun k => DConnect 0 (S k) k) (seq 0 n)) ;; ds_find fuel 0 0)%wprog world_init = Ok (Z.of_nat n, w)).
Proof. exact chain_depth. Qed.
Print Assumptions C65_deep_refuted.

(** What holds: after every specified history n nested calls are enough for n
    elements, and two are enough for an element just looked up, which gets the
    same representative again. *)
Theorem C65_bound_partial : forall ops, exists r, d_run ops ∅ r /\
  match r with
  | SVal (rs, s) => forall id n E, s !! id = Some (DLinks n E) -> forall x, x < n ->
      exists rx w w', rx < n /\ linked E x rx /\
        wrun true (_ <- arun ds_step ops ;; ds_find n id (Z.of_nat x))%wprog world_init = Ok (Z.of_nat rx, w) /\
        wrun true (_ <- arun ds_step (ops ++ [DFind id x]) ;; ds_find 2 id (Z.of_nat x))%wprog world_init = Ok (Z.of_nat rx, w')
  | _ => True
  end.
Proof. exact depth_bound. Qed.
Print Assumptions C65_bound_partial.

Example C65_case : exists s, srun dr_step [DNew 0 4; DConnect 0 1 0; DConnect 0 2 1; DConnect 0 3 2] ∅ = SVal ([RUnit; RUnit; RUnit; RUnit], s) /\
  (exists w, wrun true (_ <- arun ds_step [DNew 0 4; DConnect 0 1 0; DConnect 0 2 1; DConnect 0 3 2] ;; ds_find 4 0 0)%wprog world_init = Ok (3%Z, w)) /\
  wrun true (_ <- arun ds_step [DNew 0 4; DConnect 0 1 0; DConnect 0 2 1; DConnect 0 3 2] ;; ds_find 3 0 0)%wprog world_init = Diverge.
Proof. eexists. split; [vm_compute; reflexivity|]. split; [eexists; vm_compute; reflexivity|]. vm_compute. reflexivity. Qed.
