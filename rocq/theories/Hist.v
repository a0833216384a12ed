(** Histories of calls on a modelled class with its own state, and how a
    step-by-step agreement with a specification extends to whole histories. *)
From Verif Require Import Base VectorModel VectorSpec VecProg VectorProofs VectorWorld VectorExtra Adapter.

Section Hist.
Context {O P S W : Type}.

(** Running a history of calls one after the other. *)
Fixpoint mrun (step : O -> M W P) (ops : list O) : M W (list P) :=
  match ops with
  | [] => ret []
  | o :: ops => r <- step o ;; rs <- mrun step ops ;; ret (r :: rs)
  end.

Definition magree {X} (R : S -> W -> Prop) (r : sres (X * S)) (c : res (X * W)) : Prop :=
  match r with
  | SVal (x, s') => exists w, c = Ok (x, w) /\ R s' w
  | SAbort => c = Abort
  | SUnspec => True
  end.

(** The same where the code may also crash, in situations [F]. *)
Definition magree_or {X} (R : S -> W -> Prop) (F : S -> Prop) (r : sres (X * S)) (c : res (X * W)) : Prop :=
  match r with
  | SVal (x, s') => (exists w, c = Ok (x, w) /\ R s' w) \/ (c = Abort /\ F s')
  | SAbort => c = Abort
  | SUnspec => True
  end.
Lemma magree_or_no {X} R (F : S -> Prop) (r : sres (X * S)) c : (forall s, ~ F s) -> magree_or R F r c -> magree R r c.
Proof. intros HF. destruct r as [[x s']| |]; simpl; [|auto|auto]. intros [H|[_ H]]; [exact H|destruct (HF _ H)]. Qed.

Context (pstep : O -> M W P) (sstep : O -> S -> sres (P * S)) (R : S -> W -> Prop).

Lemma mrun_agree :
  (forall o s w, R s w -> magree R (sstep o s) (pstep o w)) ->
  forall ops s w, R s w -> magree R (srun sstep ops s) (mrun pstep ops w).
Proof.
  intros Hstep. induction ops as [|o ops IH]; intros s w H; simpl.
  - exists w. auto.
  - specialize (Hstep o s w H). unfold bind.
    destruct (sstep o s) as [[r s1]| |]; simpl in Hstep; [|rewrite Hstep; reflexivity|exact I].
    destruct Hstep as (w1 & -> & H1). specialize (IH s1 w1 H1).
    destruct (srun sstep ops s1) as [[rs s2]| |]; simpl in IH; [|rewrite IH; reflexivity|exact I].
    destruct IH as (w2 & -> & H2). exists w2. auto.
Qed.

(** A crash within a history happens at some call, in situation [F]. *)
Lemma mrun_agree_or F :
  (forall o s w, R s w -> magree_or R F (sstep o s) (pstep o w)) ->
  forall ops s w, R s w ->
  match srun sstep ops s with
  | SVal (rs, s') => (exists w', mrun pstep ops w = Ok (rs, w') /\ R s' w') \/
      (mrun pstep ops w = Abort /\ exists ops1 ops2 rs1 s1, ops = ops1 ++ ops2 /\ srun sstep ops1 s = SVal (rs1, s1) /\ F s1)
  | SAbort => mrun pstep ops w = Abort
  | SUnspec => True
  end.
Proof.
  intros Hstep. induction ops as [|o ops IH]; intros s w H; cbn [srun mrun].
  - left. exists w. auto.
  - specialize (Hstep o s w H). unfold bind.
    destruct (sstep o s) as [[r s1]| |] eqn:Eo; simpl in Hstep; [|rewrite Hstep; reflexivity|exact I].
    destruct Hstep as [(w1 & -> & H1)|[-> HF]].
    + specialize (IH s1 w1 H1). destruct (srun sstep ops s1) as [[rs s2]| |]; [|rewrite IH; reflexivity|exact I].
      destruct IH as [(w2 & -> & H2)|(-> & ops1 & ops2 & rs1 & s3 & -> & E3 & HF)]; [left; exists w2; auto|].
      right. split; [reflexivity|]. exists (o :: ops1), ops2, (r :: rs1), s3. split; [reflexivity|]. split; [|exact HF].
      cbn [srun]. rewrite Eo, E3. reflexivity.
    + destruct (srun sstep ops s1) as [[rs s2]| |]; [|reflexivity|exact I]. right. split; [reflexivity|].
      exists [o], ops, [r], s1. split; [reflexivity|]. split; [|exact HF]. cbn [srun]. rewrite Eo. reflexivity.
Qed.

Lemma mrun_app ops1 ops2 w rs1 w1 : mrun pstep ops1 w = Ok (rs1, w1) ->
  mrun pstep (ops1 ++ ops2) w =
  match mrun pstep ops2 w1 with
  | Ok (rs2, w2) => Ok (rs1 ++ rs2, w2) | Abort => Abort | UB => UB | Diverge => Diverge end.
Proof.
  revert w rs1. induction ops1 as [|o ops1 IH]; intros w rs1 H; simpl in *.
  - injection H as <- <-. destruct (mrun pstep ops2 w) as [[rs2 w2]| | |]; reflexivity.
  - unfold bind in *. destruct (pstep o w) as [[r w']| | |]; try discriminate.
    destruct (mrun pstep ops1 w') as [[rs w'']| | |] eqn:E; try discriminate. injection H as <- <-.
    rewrite (IH _ _ E). destruct (mrun pstep ops2 w'') as [[rs2 w2]| | |]; reflexivity.
Qed.

Lemma mrun_cons o ops w r w1 : pstep o w = Ok (r, w1) ->
  mrun pstep (o :: ops) w = match mrun pstep ops w1 with Ok (rs, w2) => Ok (r :: rs, w2) | Abort => Abort | UB => UB | Diverge => Diverge end.
Proof. intros H. cbn [mrun]. rewrite (bind_ok _ _ _ _ _ H). unfold bind. destruct (mrun pstep ops w1) as [[rs w2]| | |]; reflexivity. Qed.

(** After a specified history, further calls are decided by the reached state. *)
Lemma mhistory_then ops s0 w0 rs s :
  magree R (srun sstep ops s0) (mrun pstep ops w0) ->
  srun sstep ops s0 = SVal (rs, s) ->
  exists w, R s w /\ forall ops2,
    mrun pstep (ops ++ ops2) w0 =
    match mrun pstep ops2 w with
    | Ok (rs2, w2) => Ok (rs ++ rs2, w2) | Abort => Abort | UB => UB | Diverge => Diverge end.
Proof.
  intros Ha E. rewrite E in Ha. destruct Ha as (w & Hw & HR). exists w. split; [exact HR|]. intros ops2.
  apply mrun_app. exact Hw.
Qed.
End Hist.

(** Showing what a run gives, and a view of the state it ends in, without writing
    the state down. *)
Lemma ran {X W} (r : res (X * W)) x : match r with Ok (y, _) => Some y | _ => None end = Some x -> exists w, r = Ok (x, w).
Proof. destruct r as [[y w]| | |]; try discriminate. intros [= ->]. eauto. Qed.
Lemma ran_with {X W Y} (f : W -> Y) (r : res (X * W)) x v :
  match r with Ok (y, w) => Some (y, f w) | _ => None end = Some (x, v) -> exists w, r = Ok (x, w) /\ f w = v.
Proof. destruct r as [[y w]| | |]; try discriminate. intros [= -> <-]. eauto. Qed.
