(** C107: machine integers in everything that is built on Vector. *)
From Verif Require Import Base VectorModel VectorSpec VecProg VectorWorld Adapter StringModel StringSpec ArithModel IntModel IntVecModel IntVecSpec IntVecProofs IntVecExact IntVecLimit IntStrSpec IntStrProofs.
Local Open Scope nat_scope.

(** Any program over vectors: its ints do not matter while all its calls are small. *)
Theorem C107_any : forall (A : Type) (triv : bool) (X : Type) (p : wprog A X) (w : world A),
  (forall o w', calls triv p w o w' -> small_call o w') -> wrun triv (ints p) w = wrun triv p w.
Proof. exact @ints_run. Qed.
Print Assumptions C107_any.
Definition C107_p : wprog nat (list (out nat)) := arun vcall [ONew 0; OPush 0 7; OGet 0 (-1)%Z].
Example C107_any_case : (forall o w', calls true C107_p world_init o w' -> small_call o w') /\
  exists w, wrun true (ints C107_p) world_init = Ok ([RUnit; RUnit; RVal 7], w).
Proof.
  assert (Hc : forall o w', calls true C107_p world_init o w' -> small_call o w').
  { apply (fit_calls true C107_p world_init ∅ winv_init); [intros id l E; rewrite lookup_empty in E; discriminate|].
    assert (Hn : (0 < INT_MAX)%Z) by (unfold INT_MAX; lia).
    unfold C107_p, vcall. cbn [arun wbind lfit room lw_step lv_step]. unfold lnew, lwith. rewrite lookup_empty.
    split; [exact I|]. rewrite lookup_insert. split; [intros l [= <-]; exact Hn|]. rewrite lookup_insert. cbn.
    split; [unfold INT_MIN, INT_MAX; lia|exact I]. }
  split; [exact Hc|]. rewrite C107_any by exact Hc. eexists. vm_compute. reflexivity.
Qed.

(** A single call in any state: it is undefined if a loop of it counts beyond INT_MAX,
    and else - apart from reading and writing elements - its ints do not matter. *)
Theorem C107_call : forall (A : Type) (triv : bool) (o : vop A) (w : world A),
  (overflows o w -> wrun triv (ints (vcall o)) w = UB) /\
  ((forall id i, o <> OGet id i) -> (forall id i a, o <> OSet id i a) -> ~ overflows o w ->
   wrun triv (ints (vcall o)) w = wrun triv (vcall o) w).
Proof. exact @exact_calls. Qed.
Print Assumptions C107_call.
(** v[i] and v[i] = a in a vector of any size that is not wrapped round by the
    conversion to int. *)
Theorem C107_index : forall (A : Type) (triv : bool) (w : world A) id v i a,
  w_objs w !! id = Some v -> (INT_MIN <= i <= INT_MAX)%Z -> (Z.of_nat (v_size v) < 2 ^ 32)%Z ->
  if (Z.of_nat (v_size v) <=? INT_MAX)%Z
  then wrun triv (ints (vcall (OGet id i))) w = wrun triv (vcall (OGet id i)) w /\
       wrun triv (ints (vcall (OSet id i a))) w = wrun triv (vcall (OSet id i a)) w
  else (wrun triv (ints (vcall (OGet id i))) w = Abort \/ wrun triv (ints (vcall (OGet id i))) w = UB) /\
       (wrun triv (ints (vcall (OSet id i a))) w = Abort \/ wrun triv (ints (vcall (OSet id i a))) w = UB).
Proof. exact @exact_index. Qed.
Print Assumptions C107_index.

(** How many elements can be pushed: 2^31. *)
Theorem C107_push_limit : forall (A : Type) (triv : bool) (l : list A),
  if (Z.of_nat (length l) <=? 2 ^ 31)%Z
  then exists w, wrun triv (ints (arun vcall (ONew 0 :: map (OPush 0) l))) world_init = Ok (repeat RUnit (length l + 1), w) /\
         contents w 0 = Some l /\ storage_ok w
  else wrun triv (ints (arun vcall (ONew 0 :: map (OPush 0) l))) world_init = UB.
Proof. exact @push_limit. Qed.
Print Assumptions C107_push_limit.
(** So there are vectors of 2^31 elements, on which e.g. clear overflows and no element
    can be read. *)
Example C107_push_limit_case : exists (l : list nat) (w : world nat),
  (exists rs, wrun true (ints (arun vcall (ONew 0 :: map (OPush 0) l))) world_init = Ok (rs, w)) /\
  overflows (OClear 0) w /\ overflows (OCopyNew 1 0) w /\ (exists v, w_objs w !! 0 = Some v /\ (INT_MAX < Z.of_nat (v_size v) < 2 ^ 32)%Z).
Proof.
  destruct (list_of_length 5 (2 ^ 31)) as (l & El); [lia|]. exists l.
  pose proof (C107_push_limit nat true l) as H. rewrite El, Z.leb_refl in H. destruct H as (w & Hw & Hc & Hst).
  destruct (contents_size w 0 _ Hc) as (v & E & Hv). exists w. split; [eexists; exact Hw|].
  assert (Hz : (INT_MAX < Z.of_nat (v_size v) < 2 ^ 32)%Z) by (rewrite Hv, El; unfold INT_MAX; lia).
  split; [exists v; split; [exact E|apply Hz]|]. split; [exists v; split; [exact E|apply Hz]|]. exists v. split; [exact E|exact Hz].
Qed.

(** How many elements a vector can have: pushing them one by one and destroying the
    vector is defined exactly up to INT_MAX. *)
Theorem C107_vector_limit : forall (A : Type) (triv : bool) (l : list A),
  if (Z.of_nat (length l) <=? INT_MAX)%Z
  then exists w, wrun triv (ints (arun vcall (ONew 0 :: map (OPush 0) l ++ [ODestroy 0]))) world_init = Ok (repeat RUnit (length l + 2), w) /\ storage_ok w
  else wrun triv (ints (arun vcall (ONew 0 :: map (OPush 0) l ++ [ODestroy 0]))) world_init = UB.
Proof. exact @vector_limit. Qed.
Print Assumptions C107_vector_limit.
Example C107_vector_limit_case : exists l : list nat, Z.of_nat (length l) = (2 ^ 31)%Z /\
  wrun true (ints (arun vcall (ONew 0 :: map (OPush 0) l ++ [ODestroy 0]))) world_init = UB.
Proof.
  destruct (list_of_length 5 (2 ^ 31)) as (l & El); [lia|]. exists l. split; [exact El|].
  pose proof (C107_vector_limit nat true l) as H. rewrite El in H. exact H.
Qed.

(** Strings, while the program's strings and C strings have fewer than INT_MAX characters. *)
Theorem C107_string : forall ops : list top, (forall o, In o ops -> small_text o) ->
  (forall pre post rs s, ops = pre ++ post -> srun t_step pre ∅ = SVal (rs, s) -> small_strs s) ->
  match srun t_step ops ∅ with
  | SVal (rs, s) => exists w, wrun true (ints (arun st_step ops)) world_init = Ok (rs, w) /\ storage_ok w
  | SAbort => wrun true (ints (arun st_step ops)) world_init = Abort
  | SUnspec => True
  end.
Proof. exact int_string_history. Qed.
Print Assumptions C107_string.
Definition C107_ops : list top := [TLit 0 [104; 105; 0]%Z; TCopyNew 1 0; TAppend 1 0; TEqCR 1 [104; 105; 104; 105; 0]%Z; TMoveNew 2 1; TCstr 2; TGet 2 9].
Example C107_string_case : (forall o, In o C107_ops -> small_text o) /\
  (forall pre post rs s, C107_ops = pre ++ post -> srun t_step pre ∅ = SVal (rs, s) -> small_strs s) /\
  srun t_step C107_ops ∅ = SAbort /\
  exists s, srun t_step (firstn 6 C107_ops) ∅ = SVal ([TUnit; TUnit; TUnit; TBool true; TUnit; TChars [104; 105; 104; 105; 0]%Z], s).
Proof.
  split; [|split; [|split; [vm_compute; reflexivity|eexists; vm_compute; reflexivity]]].
  - intros o Ho. cbn in Ho. repeat destruct Ho as [<-|Ho]; try exact I; try (intros l E; vm_compute in E; injection E as <-; cbn; unfold INT_MAX; lia);
      [unfold small_text, INT_MAX; lia|contradiction].
  - apply few_prefixes. vm_compute. reflexivity.
Qed.

(** How long a string can be: making one of a C string and destroying it is defined
    exactly below INT_MAX characters. *)
Theorem C107_string_limit : forall (buf : list Z) (c : Z) (cs : list Z), cstr buf = Some (c :: cs) ->
  if (Z.of_nat (length (c :: cs)) <? INT_MAX)%Z
  then exists w, wrun true (ints (arun st_step [TLit 0 buf; TDestroy 0])) world_init = Ok ([TUnit; TUnit], w) /\ storage_ok w
  else wrun true (ints (arun st_step [TLit 0 buf; TDestroy 0])) world_init = UB.
Proof. exact string_limit. Qed.
Print Assumptions C107_string_limit.
Example C107_string_limit_case : cstr [104; 105; 0; 7]%Z = Some [104; 105]%Z /\
  forall n, cstr (repeat 65%Z n ++ [0%Z]) = Some (repeat 65%Z n).
Proof. split; [reflexivity|]. induction n as [|n IH]; [reflexivity|]. cbn [repeat app cstr]. rewrite IH. reflexivity. Qed.
