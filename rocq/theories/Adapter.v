(** Histories of an adapter: a class implemented by programs over vectors.
    The generic part: how a history runs, how its specification runs, and how a
    step-by-step agreement extends to whole histories and to the real heap. *)
From Verif Require Import Base VectorModel VectorSpec VecProg VectorProofs VectorWorld VectorExtra.

Section Adapter.
Context {A O P S : Type}.

(** Running a history of calls: each call is a program over vectors. *)
Fixpoint arun (step : O -> wprog A P) (ops : list O) : wprog A (list P) :=
  match ops with
  | [] => WRet []
  | o :: ops => (r <- step o ;; rs <- arun step ops ;; WRet (r :: rs))%wprog
  end.

(** Running the specification of the same history. *)
Fixpoint srun (step : O -> S -> sres (P * S)) (ops : list O) (s : S) : sres (list P * S) :=
  match ops with
  | [] => SVal ([], s)
  | o :: ops =>
      match step o s with
      | SVal (r, s') =>
          match srun step ops s' with
          | SVal (rs, s'') => SVal (r :: rs, s'')
          | SAbort => SAbort
          | SUnspec => SUnspec
          end
      | SAbort => SAbort
      | SUnspec => SUnspec
      end
  end.

Context (triv : bool) (pstep : O -> wprog A P) (sstep : O -> S -> sres (P * S)).
Context (R : S -> lworld A -> Prop).

Definition agree {X} (R' : S -> lworld A -> Prop) (r : sres (X * S)) (c : res (X * lworld A)) : Prop :=
  match r with
  | SVal (x, s') => exists ls, c = Ok (x, ls) /\ R' s' ls
  | SAbort => c = Abort
  | SUnspec => True
  end.

Lemma arun_agree :
  (forall o s ls, R s ls -> agree R (sstep o s) (lrun triv (pstep o) ls)) ->
  forall ops s ls, R s ls -> agree R (srun sstep ops s) (lrun triv (arun pstep ops) ls).
Proof.
  intros Hstep. induction ops as [|o ops IH]; intros s ls H; simpl.
  - exists ls. auto.
  - specialize (Hstep o s ls H). rewrite lrun_bind.
    destruct (sstep o s) as [[r s1]| |]; simpl in Hstep; [|rewrite Hstep; reflexivity|exact I].
    destruct Hstep as (ls1 & -> & H1). specialize (IH s1 ls1 H1). rewrite lrun_bind.
    destruct (srun sstep ops s1) as [[rs s2]| |]; simpl in IH; [|rewrite IH; reflexivity|exact I].
    destruct IH as (ls2 & -> & H2). exists ls2. auto.
Qed.

(** The same on the concrete heap, from an initial program [p0] (constructor). *)
Lemma wrun_agree {X} (p : wprog A X) (r : sres (X * S)) :
  agree R r (lrun triv p ∅) ->
  match r with
  | SVal (x, s') => exists w, wrun triv p world_init = Ok (x, w) /\ R s' (view w) /\ storage_ok w
  | SAbort => wrun triv p world_init = Abort
  | SUnspec => True
  end.
Proof.
  intros H. pose proof (program_from_scratch triv p) as Hp.
  destruct r as [[x s']| |]; simpl in H; auto.
  - destruct H as (ls & E & HR). rewrite E in Hp. destruct Hp as (w & Hrun & Hv & Hst).
    exists w. rewrite Hv. auto.
  - rewrite H in Hp. exact Hp.
Qed.

End Adapter.

(** Histories split anywhere. *)
Lemma srun_app {O P S} (step : O -> S -> sres (P * S)) ops1 ops2 s :
  srun step (ops1 ++ ops2) s =
  match srun step ops1 s with
  | SVal (rs1, s1) => match srun step ops2 s1 with SVal (rs2, s2) => SVal (rs1 ++ rs2, s2) | SAbort => SAbort | SUnspec => SUnspec end
  | SAbort => SAbort
  | SUnspec => SUnspec
  end.
Proof.
  revert s. induction ops1 as [|o ops1 IH]; intros s; cbn [srun app].
  - destruct (srun step ops2 s) as [[rs2 s2]| |]; reflexivity.
  - destruct (step o s) as [[r s']| |]; [|reflexivity|reflexivity]. rewrite IH.
    destruct (srun step ops1 s') as [[rs1 s1]| |]; [|reflexivity|reflexivity].
    destruct (srun step ops2 s1) as [[rs2 s2]| |]; reflexivity.
Qed.

Lemma lrun_arun_app {A O P} triv (step : O -> wprog A P) ops1 ops2 (s0 s1 : lworld A) l :
  lrun triv (arun step ops1) s0 = Ok (l, s1) ->
  lrun triv (arun step (ops1 ++ ops2)) s0 =
  match lrun triv (arun step ops2) s1 with
  | Ok (l2, s2) => Ok (l ++ l2, s2) | Abort => Abort | UB => UB | Diverge => Diverge
  end.
Proof.
  revert s0 l. induction ops1 as [|o ops1 IH]; intros s0 l H; cbn [arun app] in *.
  - cbn [lrun] in H. injection H as <- ->. destruct (lrun triv (arun step ops2) s1) as [[? ?]| | |]; reflexivity.
  - rewrite lrun_bind in H |- *. destruct (lrun triv (step o) s0) as [[x ls1]| | |]; try discriminate.
    rewrite lrun_bind in H |- *. destruct (lrun triv (arun step ops1) ls1) as [[l1 ls2]| | |] eqn:E1; try discriminate.
    cbn [lrun] in H. injection H as <- ->. rewrite (IH _ _ E1).
    destruct (lrun triv (arun step ops2) s1) as [[? ?]| | |]; reflexivity.
Qed.

(** After a specified history, what further calls do is decided by the state
    the specification reached. *)
Lemma history_then {A O P S} triv (pstep : O -> wprog A P) (R : S -> lworld A -> Prop) ops rs s
  (sstep : O -> S -> sres (P * S)) s0 :
  agree R (srun sstep ops s0) (lrun triv (arun pstep ops) ∅) ->
  srun sstep ops s0 = SVal (rs, s) ->
  exists ls, R s ls /\ forall ops2,
    match lrun triv (arun pstep ops2) ls with
    | Ok (rs2, ls2) => exists w, wrun triv (arun pstep (ops ++ ops2)) world_init = Ok (rs ++ rs2, w) /\ view w = ls2 /\ storage_ok w
    | Abort => wrun triv (arun pstep (ops ++ ops2)) world_init = Abort
    | UB => wrun triv (arun pstep (ops ++ ops2)) world_init = UB
    | Diverge => wrun triv (arun pstep (ops ++ ops2)) world_init = Diverge
    end.
Proof.
  intros Ha E. rewrite E in Ha. destruct Ha as (ls & Hl & HR). exists ls. split; [exact HR|]. intros ops2.
  pose proof (program_from_scratch triv (arun pstep (ops ++ ops2))) as Hp. rewrite (lrun_arun_app _ _ _ _ _ _ _ Hl) in Hp.
  destruct (lrun triv (arun pstep ops2) ls) as [[rs2 ls2]| | |]; exact Hp.
Qed.
