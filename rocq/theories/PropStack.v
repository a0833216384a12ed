(** Properties C15-C16 (Stack, MinStack/MaxStack). *)
From Verif Require Import Base VectorModel VectorSpec VecProg Adapter StackModel StackSpec StackProofs.

(** C15.  Every history over any set of stacks gives the answers of the same
    history over lists with the most recent element first; pop/top on an empty
    stack assert; the storage of all stacks is accounted for. *)
Theorem C15_stack_lifo : forall (A : Type) (triv : bool) (ops : list (kop A)),
  match srun (k_step triv) ops ∅ with
  | SVal (rs, s) => exists w : world A, wrun triv (arun st_step ops) world_init = Ok (rs, w) /\
      (forall id, contents w id = @rev A <$> s !! id) /\ storage_ok w
  | SAbort => wrun triv (arun st_step ops) world_init = Abort
  | SUnspec => True
  end.
Proof. exact @stack_history. Qed.
Print Assumptions C15_stack_lifo.

Example C15_case : exists s, srun (k_step true)
  [KNew 0; KPush 0 5; KPush 0 6; KPush 0 7; KTop 0; KPop 0; KTop 0; KCopyNew 1 0; KPush 0 9; KIter 1; KSize 0; KClear 1; KEmpty 1] ∅
  = SVal ([RUnit; RUnit; RUnit; RUnit; RVal 7; RUnit; RVal 6; RUnit; RUnit; RList [5; 6]; RNat 3; RUnit; RBool true], s).
Proof. eexists. vm_compute. reflexivity. Qed.
Example C15_case_abort : srun (k_step true) [KNew 0; KPush 0 5; KPop 0; KTop 0] ∅ = SAbort.
Proof. reflexivity. Qed.

(** C16, for histories that never push a value equal to the current extremum.
    Missing for the full claim: repeated extrema (refuted below). *)
Theorem C16_extremum_partial : forall (A : Type) (triv : bool) (cmp eqb : A -> A -> bool),
  (forall a, cmp a a = false) ->
  (forall a b c, cmp a b = true -> cmp b c = true -> cmp a c = true) ->
  (forall a, eqb a a = true) ->
  forall (g : A) (ops : list xop),
  no_repeat cmp eqb ops [] ->
  exists rs, xspec cmp ops [] rs /\
    match rs with
    | Some rs => exists w, wrun triv (xs_history cmp eqb g ops) world_init = Ok (rs, w) /\ storage_ok w
    | None => wrun triv (xs_history cmp eqb g ops) world_init = Abort
    end.
Proof. exact @xstack_history. Qed.
Print Assumptions C16_extremum_partial.

(** 5 2 4 3 1 with interleaved pops and queries meets the hypothesis. *)
Example C16_case : no_repeat Nat.ltb Nat.eqb
  [XPush 5; XPush 2; XPush 4; XExt; XPop; XPush 3; XPush 1; XExt; XPop; XPop; XExt; XTop] [].
Proof.
  repeat split; intros x [Hin Hmin]; simpl in Hin;
  repeat match goal with H : _ \/ _ |- _ => destruct H as [<-|H] | H : False |- _ => destruct H end; try reflexivity.
Qed.
Example C16_case_run : exists w, wrun true (xs_history Nat.ltb Nat.eqb 77
  [XPush 5; XPush 2; XPush 4; XExt; XPop; XPush 3; XPush 1; XExt; XPop; XPop; XExt; XTop]) world_init
  = Ok ([RUnit; RUnit; RUnit; RVal 2; RUnit; RUnit; RUnit; RVal 1; RUnit; RUnit; RVal 2; RVal 2], w).
Proof. eexists. vm_compute. reflexivity. Qed.

(** The full claim is false: pushing the same value twice and popping once
    leaves the uninitialised initial value on top. *)
Theorem C16_repeated_value_refuted : forall (A : Type) (triv : bool) (cmp eqb : A -> A -> bool),
  (forall a, cmp a a = false) -> (forall a, eqb a a = true) ->
  forall g a : A, exists w,
    wrun triv (xs_history cmp eqb g [XPush a; XPush a; XPop; XTop]) world_init = Ok ([RUnit; RUnit; RUnit; RVal g], w).
Proof. exact @repeat_refuted. Qed.
Print Assumptions C16_repeated_value_refuted.

(** In general: after any history that is right, pushing and popping the
    current extremum makes getXValue() report the top element instead. *)
Theorem C16_push_pop_extremum_refuted : forall (A : Type) (triv : bool) (cmp eqb : A -> A -> bool),
  (forall a, cmp a a = false) ->
  (forall a b c, cmp a b = true -> cmp b c = true -> cmp a c = true) ->
  (forall a, eqb a a = true) ->
  forall (g : A) (ops : list xop) a l,
  no_repeat cmp eqb ops [] -> xfinal ops [] = a :: l ->
  (forall rs, xspec cmp ops [] rs -> rs <> None) ->
  exists x rs w, is_extremum cmp x (a :: l) /\
    wrun triv (xs_history cmp eqb g (ops ++ [XPush x; XPop; XExt])) world_init = Ok (rs ++ [RUnit; RUnit; RVal a], w).
Proof. exact @repeat_general. Qed.
Print Assumptions C16_push_pop_extremum_refuted.

Example C16_refuted_case : no_repeat Nat.ltb Nat.eqb [XPush 2; XPush 5] [] /\
  xfinal [XPush 2; XPush 5] [] = [5; 2] /\
  (forall rs, xspec Nat.ltb [XPush 2; XPush 5] [] rs -> rs <> None) /\ ~ is_extremum Nat.ltb 5 [5; 2].
Proof.
  split_and!.
  - repeat split; intros x [Hin Hmin]; simpl in Hin;
    repeat match goal with H : _ \/ _ |- _ => destruct H as [<-|H] | H : False |- _ => destruct H end; reflexivity.
  - reflexivity.
  - intros rs (r1 & (r2 & -> & ->) & ->). discriminate.
  - intros [_ H]. specialize (H 2). simpl in H. discriminate H. auto.
Qed.
