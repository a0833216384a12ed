(** C90: disjoint sets and numbers that are not elements. *)
From Verif Require Import Base VectorModel VectorSpec VecProg VectorExtra Hist Adapter DSUModel DSUSpec DSUSignModel DSUSignSpec DSUSignProofs.
Local Open Scope nat_scope.

Theorem C90_history_partial : forall ops,
  match srun dz_step ops ∅ with
  | SVal (rs, s) => exists w, wrun true (arun zs_step ops) world_init = Ok (rs, w) /\ storage_ok w
  | SAbort => wrun true (arun zs_step ops) world_init = Abort
  | SUnspec => True
  end.
Proof. exact sign_history. Qed.
Print Assumptions C90_history_partial.

Theorem C90_ignored_refuted : forall ops rs t id d k, srun dz_step ops ∅ = SVal (rs, t) -> t !! id = Some d -> k < length d -> rep d k = k ->
  forall y ops2, (- Z.of_nat (length d) <= y < Z.of_nat (length d))%Z ->
  let call := ZConnect id (Z.of_nat k - Z.of_nat (length d)) y in
  match srun dz_step ops2 t with
  | SVal (rs2, _) => exists w, wrun true (arun zs_step (ops ++ call :: ops2)) world_init = Ok (rs ++ RUnit :: rs2, w) /\ storage_ok w
  | SAbort => wrun true (arun zs_step (ops ++ call :: ops2)) world_init = Abort
  | SUnspec => True
  end.
Proof. exact @connect_lost. Qed.
Print Assumptions C90_ignored_refuted.

Theorem C90_end_refuted : forall ops rs t id d k, srun dz_step ops ∅ = SVal (rs, t) -> t !! id = Some d -> k < length d -> rep d k = k ->
  let x := (Z.of_nat k - Z.of_nat (length d))%Z in
  (exists w, wrun true (arun zs_step (ops ++ [ZFind id x; ZConnected id x (Z.of_nat k)])) world_init = Ok (rs ++ [RVal x; RBool false], w)) /\
  (forall fuel, wrun true (_ <- arun zs_step (ops ++ [ZConnect id (Z.of_nat k) x]) ;; ds_find fuel id (Z.of_nat k))%wprog world_init = Diverge).
Proof. exact @sign_wrong. Qed.
Print Assumptions C90_end_refuted.

Theorem C90_below_refuted : forall ops rs t id d x, srun dz_step ops ∅ = SVal (rs, t) -> t !! id = Some d -> (x < - Z.of_nat (length d))%Z ->
  wrun true (arun zs_step (ops ++ [ZFind id x])) world_init = UB.
Proof. exact @sign_below. Qed.
Print Assumptions C90_below_refuted.

(** Five elements, 1 under 0.  Element 1 counted from the end is -4, and it does
    not represent its set: connecting and finding through it is fine. *)
Definition five : list zop := [ZDo (DNew 7 5); ZDo (DConnect 7 0 1)].
Example five_ok : exists t, srun dz_step five ∅ = SVal ([RUnit; RUnit], t) /\ t !! 7 = Some [0; 0; 2; 3; 4].
Proof. eexists. split; vm_compute; reflexivity. Qed.
Example five_good : exists t, srun dz_step (five ++ [ZFind 7 (-4); ZConnect 7 (-4) (-2); ZConnected 7 (-4) (-2); ZConnected 7 3 0]) ∅ = SVal ([RUnit; RUnit; RVal 0%Z; RUnit; RBool true; RBool true], t).
Proof. eexists. vm_compute. reflexivity. Qed.
Example five_abort : srun dz_step (five ++ [ZFind 7 5]) ∅ = SAbort /\ srun dz_step (five ++ [ZConnect 7 (-4) 5]) ∅ = SAbort.
Proof. split; vm_compute; reflexivity. Qed.
(** connect(-2, 1) should put 3 with 0 and 1: all that follows answers as before. *)
Example five_lost : exists w, wrun true (arun zs_step (five ++ ZConnect 7 (-2) 1 :: [ZDo (DCount 7); ZConnected 7 3 1])) world_init = Ok ([RUnit; RUnit; RUnit; RNat 4; RBool false], w).
Proof.
  destruct five_ok as (t & Ht & Hd). pose proof (C90_ignored_refuted _ _ _ _ _ 3 Ht Hd ltac:(cbn; lia) eq_refl 1%Z [ZDo (DCount 7); ZConnected 7 3 1] ltac:(cbn; lia)) as H. cbv zeta in H.
  assert (E : exists t2, srun dz_step [ZDo (DCount 7); ZConnected 7 3 1] t = SVal ([RNat 4; RBool false], t2)).
  { cbn [srun dz_step dr_step]. rewrite Hd. cbn [srun dz_step]. rewrite Hd. eexists. reflexivity. }
  destruct E as [t2 E]. rewrite E in H. destruct H as (w & Hw & _). exists w. exact Hw.
Qed.
Example five_end : exists w, wrun true (arun zs_step (five ++ [ZFind 7 (-2); ZConnected 7 (-2) 3])) world_init = Ok ([RUnit; RUnit; RVal (-2)%Z; RBool false], w).
Proof. destruct five_ok as (t & Ht & Hd). destruct (C90_end_refuted _ _ _ _ _ 3 Ht Hd ltac:(cbn; lia) eq_refl) as [H _]. exact H. Qed.
Example five_below : wrun true (arun zs_step (five ++ [ZFind 7 (-6)])) world_init = UB.
Proof. destruct five_ok as (t & Ht & Hd). eapply C90_below_refuted; [exact Ht|exact Hd|cbn; lia]. Qed.
