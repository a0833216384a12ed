(** C91: the references find takes and returns (DisjointSet). *)
From Verif Require Import Base VectorModel VectorSpec VecProg Adapter Hist DSUModel DSUSpec DSUUnionModel DSUUnionSpec
  DSURefModel DSURefSpec DSURefProofs DSURefHist.

Definition o1 := Order true false true.
Definition o2 := Order false true false.

(** C91, what holds.  Arguments may be numbers, variables and references kept from
    earlier calls of find, into the same set or another one.  Whatever order the
    compiler evaluates operands in, every history answers as the one by value does,
    an argument standing for the element it names, and a reference kept from find
    reads as the representative for as long as the set keeps it. *)
Theorem C91_history_partial : forall ord ops,
  match srun ps_step ops rsp0 with
  | SVal (rs, s) => exists st, mrun (p_step ord) ops r_init = Ok (rs, st) /\ storage_ok (r_vecs st)
  | SAbort => mrun (p_step ord) ops r_init = Abort
  | SUnspec => True
  end.
Proof. exact @ref_history. Qed.
Print Assumptions C91_history_partial.

Definition C91_ops := [PDo (DNew 0 6); PDo (DConnect 0 0 1); PDo (DConnect 0 2 3); PInt 0 3; PBind 0 0 (AInt 0); PRead 0;
  PConnect 0 (ALit 1) (ARef 0); PConnected 0 (ARef 0) (ALit 0); PFind 0 (ARef 0); PBind 1 0 (ARef 0); PRead 1;
  PUnion 0 (ARef 1) (ALit 5); PConnected 0 (ALit 5) (ARef 0); PDo (DMoveNew 1 0); PFind 1 (ARef 0); PRead 1; PDo (DCount 1)].
Definition C91_outs : list (out Z) := [RUnit; RUnit; RUnit; RUnit; RUnit; RVal 2%Z; RUnit; RBool true; RVal 0%Z; RUnit; RVal 0%Z;
  RUnit; RBool true; RUnit; RVal 0%Z; RVal 0%Z; RNat 2].
Example C91_history_case : (exists s, srun ps_step C91_ops rsp0 = SVal (C91_outs, s)) /\
  (exists st, mrun (p_step o1) C91_ops r_init = Ok (C91_outs, st)) /\ exists st, mrun (p_step o2) C91_ops r_init = Ok (C91_outs, st).
Proof. split; [eexists; vm_compute; reflexivity|]. split; apply ran; vm_compute; reflexivity. Qed.
Example C91_range_case : mrun (p_step o1) [PDo (DNew 0 3); PInt 0 3; PFind 0 (AInt 0)] r_init = Abort /\
  srun ps_step [PDo (DNew 0 3); PInt 0 3; PFind 0 (AInt 0)] rsp0 = SAbort.
Proof. split; vm_compute; reflexivity. Qed.

(** What reading a kept reference gives.  One to an element reads as an element of
    the set it was kept for, after any calls at all that leave the elements where they
    are, and as the representative if that has stayed the same; one to a variable, as
    the variable; one whose elements are gone, or whose temporary is, is undefined. *)
Theorem C91_read : forall ord ops rs s k, srun ps_step ops rsp0 = SVal (rs, s) ->
  match p_refs s !! k with
  | Some (SInt x) => exists n st, p_ints s !! x = Some n /\ mrun (p_step ord) (ops ++ [PRead k]) r_init = Ok (rs ++ [RVal (Z.of_nat n)], st)
  | Some (SElem id n cur) => exists d y st, p_sets s !! id = Some d /\ n < length d /\ y < length d /\ rep d y = rep d n /\ (cur = true -> y = rep d n) /\
      mrun (p_step ord) (ops ++ [PRead k]) r_init = Ok (rs ++ [RVal (Z.of_nat y)], st)
  | Some SGone => mrun (p_step ord) (ops ++ [PRead k]) r_init = UB
  | None => True
  end.
Proof. exact @ref_read. Qed.
Print Assumptions C91_read.

Definition C91_kept := [PDo (DNew 0 6); PDo (DConnect 0 0 1); PDo (DConnect 0 2 3); PBind 0 0 (ALit 3); PDo (DConnect 0 0 2); PDo (DConnect 0 4 0)].
Example C91_read_case : exists rs s, srun ps_step C91_kept rsp0 = SVal (rs, s) /\ p_refs s !! 0 = Some (SElem 0 3 false).
Proof. do 2 eexists. split; vm_compute; reflexivity. Qed.
Example C91_read_outs : exists st, mrun (p_step o1) (C91_kept ++ [PRead 0; PFind 0 (ARef 0); PDo (DFind 0 3); PRead 0]) r_init
  = Ok ([RUnit; RUnit; RUnit; RUnit; RUnit; RUnit; RVal 2%Z; RVal 4%Z; RVal 4%Z; RVal 4%Z], st).
Proof. apply ran. vm_compute. reflexivity. Qed.
Example C91_gone_case : mrun (p_step o1) (C91_kept ++ [PDo (DDestroy 0); PRead 0]) r_init = UB /\
  exists rs s, srun ps_step (C91_kept ++ [PDo (DDestroy 0)]) rsp0 = SVal (rs, s) /\ p_refs s !! 0 = Some SGone.
Proof. split; [vm_compute; reflexivity|]. do 2 eexists. split; vm_compute; reflexivity. Qed.

(** find and union_set with references do exactly, memory included, what find and
    union_set do with the numbers the references have when the call is made: no slot
    a parameter is bound to changes too early.  Also for calls of union_set that are
    wrong (C85). *)
Theorem C91_value : forall ord ops rs s st id,
  srun ps_step ops rsp0 = SVal (rs, s) -> mrun (p_step ord) ops r_init = Ok (rs, st) -> is_Some (p_sets s !! id) ->
  (forall a x, value a st x -> p_step ord (PFind id a) st = on_sets (wrun true (ds_step (DFind id x))) st) /\
  (forall a b x y, value a st x -> value b st y -> p_step ord (PUnion id a b) st = on_sets (wrun true (us_step (UUnion id x y))) st).
Proof. exact @ref_value. Qed.
Print Assumptions C91_value.

Example C91_value_case : exists rs s st,
  srun ps_step C91_kept rsp0 = SVal (rs, s) /\ mrun (p_step o1) C91_kept r_init = Ok (rs, st) /\ is_Some (p_sets s !! 0) /\
  value (ARef 0) st 2 /\ value (ALit 5) st 5.
Proof.
  do 3 eexists. split; [vm_compute; reflexivity|]. split; [vm_compute; reflexivity|]. split; [vm_compute; eauto|]. split; vm_compute; reflexivity.
Qed.

(** C91 is false (1): [const int &r = s.find(n)] for a number n.  If n represents its
    set, the reference find returns is the one to the temporary that held n: reading r
    in the next statement is undefined.  For all the other numbers it is fine. *)
Theorem C91_literal_refuted : forall ord ops rs s id d n k,
  srun ps_step ops rsp0 = SVal (rs, s) -> p_sets s !! id = Some d -> n < length d ->
  if Nat.eqb (rep d n) n then mrun (p_step ord) (ops ++ [PBind k id (ALit n); PRead k]) r_init = UB
  else exists st, mrun (p_step ord) (ops ++ [PBind k id (ALit n); PRead k]) r_init = Ok (rs ++ [RUnit; RVal (Z.of_nat (rep d n))], st).
Proof. exact @ref_literal. Qed.
Print Assumptions C91_literal_refuted.

Example C91_literal_case : exists rs s d, srun ps_step [PDo (DNew 0 4); PDo (DConnect 0 1 3)] rsp0 = SVal (rs, s) /\ p_sets s !! 0 = Some d /\
  rep d 1 = 1 /\ rep d 3 <> 3 /\ 3 < length d.
Proof. do 3 eexists. split; [vm_compute; reflexivity|]. split; [reflexivity|]. split; [reflexivity|]. split; vm_compute; lia. Qed.
Example C91_literal_runs : mrun (p_step o1) [PDo (DNew 0 4); PDo (DConnect 0 1 3); PBind 7 0 (ALit 1); PRead 7] r_init = UB.
Proof. vm_compute. reflexivity. Qed.

(** C91 is false (2): [const int &r = s.find(x)] for a variable x whose element
    represents its set.  r is x, and changes with it. *)
Theorem C91_variable_refuted : forall ord ops rs s id d n k x m,
  srun ps_step ops rsp0 = SVal (rs, s) -> p_sets s !! id = Some d -> n < length d ->
  exists st, mrun (p_step ord) (ops ++ [PInt x n; PBind k id (AInt x); PInt x m; PRead k]) r_init
    = Ok (rs ++ [RUnit; RUnit; RUnit; RVal (Z.of_nat (if Nat.eqb (rep d n) n then m else rep d n))], st).
Proof. exact @ref_variable. Qed.
Print Assumptions C91_variable_refuted.

Example C91_variable_case : (exists st, mrun (p_step o1) [PDo (DNew 0 4); PDo (DConnect 0 1 3); PInt 0 1; PBind 7 0 (AInt 0); PInt 0 2; PRead 7] r_init
    = Ok ([RUnit; RUnit; RUnit; RUnit; RUnit; RVal 2%Z], st)) /\
  exists st, mrun (p_step o1) [PDo (DNew 0 4); PDo (DConnect 0 1 3); PInt 0 3; PBind 7 0 (AInt 0); PInt 0 2; PRead 7] r_init
    = Ok ([RUnit; RUnit; RUnit; RUnit; RUnit; RVal 1%Z], st).
Proof. split; apply ran; vm_compute; reflexivity. Qed.

(** C91 is false (3): a reference to an element is not followed when its set is
    connected to another one under that one's representative.  It reads as the old
    representative, which is not what find gives. *)
Theorem C91_stale_refuted : forall ord ops rs s k id n d x y,
  srun ps_step ops rsp0 = SVal (rs, s) -> p_refs s !! k = Some (SElem id n true) ->
  p_sets s !! id = Some d -> x < length d -> y < length d -> rep d x <> rep d y -> rep d n = rep d y ->
  exists st, mrun (p_step ord) (ops ++ [PDo (DConnect id x y); PRead k; PFind id (ARef k)]) r_init
    = Ok (rs ++ [RUnit; RVal (Z.of_nat (rep d n)); RVal (Z.of_nat (rep d x))], st).
Proof. exact @ref_stale. Qed.
Print Assumptions C91_stale_refuted.

Example C91_stale_case : exists rs s d, srun ps_step [PDo (DNew 0 4); PDo (DConnect 0 1 3); PBind 7 0 (ALit 3)] rsp0 = SVal (rs, s) /\
  p_refs s !! 7 = Some (SElem 0 3 true) /\ p_sets s !! 0 = Some d /\ 0 < length d /\ 1 < length d /\ rep d 0 <> rep d 1 /\ rep d 3 = rep d 1.
Proof.
  do 3 eexists. split; [vm_compute; reflexivity|]. split; [reflexivity|]. split; [reflexivity|]. split; [simpl; lia|]. split; [simpl; lia|].
  split; vm_compute; [lia|reflexivity].
Qed.
