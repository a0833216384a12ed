From Verif Require Import Base VectorModel VectorSpec VecProg VectorExtra Adapter SMAModel SMASpec VecPoolModel VecPoolSpec VecPoolProofs
  PoolAdapterSpec StackModel StackSpec StackProofs StringModel StringSpec StringProofs HeapModel HeapSpec HeapProofs DSUModel DSUSpec DSUProofs.
Local Open Scope nat_scope.

Section P.
Context {A : Type} (triv : bool) (MEM MAX sz : Z) (port : bool) (bytes : pworld A -> list (Z * Z)).
Context (HP : params MEM MAX) (Hsz : (0 < sz)%Z).

(** A run over malloc decides the run over sequences. *)
Lemma lrun_of_wrun {X} (p : wprog A X) x w : wrun triv p world_init = Ok (x, w) -> exists s, lrun triv p ∅ = Ok (x, s).
Proof.
  intros E. pose proof (program_from_scratch triv p) as H. destruct (lrun triv p ∅) as [[y s]| | |].
  - destruct H as (w' & E' & _). rewrite E in E'. injection E' as <- _. eauto.
  - congruence.
  - congruence.
  - congruence.
Qed.
Lemma lrun_of_abort {X} (p : wprog A X) : wrun triv p world_init = Abort -> lrun triv p ∅ = Abort.
Proof.
  intros E. pose proof (program_from_scratch triv p) as H. destruct (lrun triv p ∅) as [[y s]| | |]; try congruence.
  destruct H as (w' & E' & _). congruence.
Qed.

Lemma answers_ok {X} (p : wprog A X) x w : wrun triv p world_init = Ok (x, w) ->
  answers_or_crashes triv MEM MAX sz port bytes p (Some x).
Proof.
  intros E. destruct (lrun_of_wrun p x w E) as [s El]. split.
  - intros Hf. pose proof (pool_programs triv MEM MAX sz port bytes HP Hsz p Hf) as H. rewrite El in H.
    destruct H as [H|(w' & E' & _ & H1 & H2)]; [auto|]. right. exists w'. auto.
  - intros Hs. pose proof (pool_enough triv MEM MAX sz port bytes HP Hsz p Hs) as H. rewrite El in H.
    destruct H as (w' & E' & _ & H1 & H2). exists w'. auto.
Qed.
Lemma answers_abort {X} (p : wprog A X) : wrun triv p world_init = Abort ->
  answers_or_crashes triv MEM MAX sz port bytes p None.
Proof.
  intros E. pose proof (lrun_of_abort p E) as El. split.
  - intros Hf. pose proof (pool_programs triv MEM MAX sz port bytes HP Hsz p Hf) as H. rewrite El in H. destruct H; auto.
  - intros Hs. pose proof (pool_enough triv MEM MAX sz port bytes HP Hsz p Hs) as H. rewrite El in H. exact H.
Qed.
End P.

Section Classes.
Context (MEM MAX sz : Z) (port : bool) (HP : params MEM MAX) (Hsz : (0 < sz)%Z).

Lemma pool_stack {A} triv (bytes : pworld A -> list (Z * Z)) (ops : list (kop A)) :
  pooled triv MEM MAX sz port bytes (arun StackModel.st_step ops) (srun (k_step triv) ops ∅).
Proof.
  pose proof (stack_history triv ops) as H. unfold pooled. destruct (srun _ _ _) as [[rs s]| |]; [|apply answers_abort; auto|exact I].
  destruct H as (w & E & _). eapply answers_ok; eauto.
Qed.
Lemma pool_string bytes (ops : list top) :
  pooled true MEM MAX sz port bytes (arun StringModel.st_step ops) (srun t_step ops ∅).
Proof.
  pose proof (string_history ops) as H. unfold pooled. destruct (srun _ _ _) as [[rs s]| |]; [|apply answers_abort; auto|exact I].
  destruct H as (w & E & _). eapply answers_ok; eauto.
Qed.
Lemma pool_dsu bytes (ops : list dop) : exists r, d_run ops ∅ r /\ pooled true MEM MAX sz port bytes (arun ds_step ops) r.
Proof.
  destruct (dsu_history ops) as (r & Hr & H). exists r. split; [exact Hr|]. unfold pooled.
  destruct r as [[rs s]| |]; [|apply answers_abort; auto|exact I]. destruct H as (w & E & _). eapply answers_ok; eauto.
Qed.
Lemma pool_heap {A} triv (bytes : pworld A -> list (Z * Z)) (cmp : A -> A -> bool) (le : A -> A -> Prop) :
  (forall a b c, le a b -> le b c -> le a c) ->
  (forall a b, cmp a b = true -> le a b) -> (forall a b, cmp a b = false -> le b a) ->
  forall ops : list (@hop A), exists r, h_run triv le ops ∅ r /\ pooled triv MEM MAX sz port bytes (arun (hp_step cmp) ops) r.
Proof.
  intros H1 H2 H3 ops. destruct (heap_history triv cmp le H1 H2 H3 ops) as (r & Hr & H). exists r. split; [exact Hr|]. unfold pooled.
  destruct r as [[rs s]| |]; [|apply answers_abort; auto|exact I]. destruct H as (w & E & _). eapply answers_ok; eauto.
Qed.
Lemma pool_xstack {A} triv (bytes : pworld A -> list (Z * Z)) (cmp eqb : A -> A -> bool) :
  (forall a, cmp a a = false) -> (forall a b c, cmp a b = true -> cmp b c = true -> cmp a c = true) -> (forall a, eqb a a = true) ->
  forall (g : A) (ops : list xop), no_repeat cmp eqb ops [] ->
  exists rs, xspec cmp ops [] rs /\ answers_or_crashes triv MEM MAX sz port bytes (xs_history cmp eqb g ops) rs.
Proof.
  intros H1 H2 H3 g ops Hn. destruct (xstack_history triv cmp eqb H1 H2 H3 g ops Hn) as (rs & Hr & H). exists rs. split; [exact Hr|].
  destruct rs as [rs|]; [|apply answers_abort; auto]. destruct H as (w & E & _). eapply answers_ok; eauto.
Qed.
End Classes.
