(** C71: AVL tree iterators keep their place. *)
From Verif Require Import Base Alloc AllocProofs VectorSpec Adapter Hist TreeModel TreeSpec TreeWorld TreeWSpec ListIterSpec TreeIterModel TreeIterSpec TreeIterProofs.
Local Open Scope nat_scope.

Theorem C71_history : forall (A : Type) (cmp : A -> A -> bool), swo cmp -> forall (pol : policy), sound pol -> grants pol -> forall ops : list (kop A),
  match srun (ks_step cmp) ops kspec0 with
  | SVal (rs, _) => exists w, mrun (kt_step cmp) ops (tw_init pol, ∅) = Ok (rs, w)
  | SAbort => mrun (kt_step cmp) ops (tw_init pol, ∅) = Abort
  | SUnspec => True
  end.
Proof. exact @k_history. Qed.
Print Assumptions C71_history.

Theorem C71_unique : forall (A : Type) (cmp : A -> A -> bool), swo cmp -> forall (ops : list (kop A)) rs s id us n x vs,
  srun (ks_step cmp) ops kspec0 = SVal (rs, s) -> k_sets s !! id = Some (us ++ (n, x) :: vs) ->
  where_is n (k_sets s) = Some (id, (us, x, vs)).
Proof. exact @k_unique. Qed.
Print Assumptions C71_unique.

Theorem C71_kept : forall (A : Type) (cmp : A -> A -> bool), swo cmp -> forall (ops : list (kop A)) rs s id us n x vs o r s',
  srun (ks_step cmp) ops kspec0 = SVal (rs, s) -> where_is n (k_sets s) = Some (id, (us, x, vs)) ->
  ks_step cmp o s = SVal (r, s') -> kremoves cmp o s id n x = false ->
  exists us' vs', where_is n (k_sets s') = Some (id, (us', x, vs')).
Proof. exact @k_kept. Qed.
Print Assumptions C71_kept.

Theorem C71_trees : forall (A : Type) (cmp : A -> A -> bool) (o : top A) (s : kspec),
  ts_step cmp o (strip (k_sets s)) =
  match trees_step cmp o s with SVal (r, s') => SVal (r, strip (k_sets s')) | SAbort => SAbort | SUnspec => SUnspec end.
Proof. exact @k_trees_strip. Qed.
Print Assumptions C71_trees.

Example C71_order : swo Nat.ltb.
Proof.
  split; intros; repeat match goal with H : Nat.ltb _ _ = true |- _ => apply Nat.ltb_lt in H end.
  - apply Nat.ltb_ge. lia.
  - rewrite !Nat.ltb_lt. lia.
Qed.
(** An iterator at 40, the root to begin with, while pushes rotate the tree and
    nodes with two children are popped; then erasing while walking. *)
Definition C71_ops : list (kop nat) :=
  [KTree (TNew 0); KTree (TPush 0 40); KTree (TPush 0 20); KTree (TPush 0 60); KFind 7 0 40;
   KTree (TPush 0 70); KTree (TPush 0 80); KTree (TPush 0 90); KTree (TPush 0 10); KTree (TPush 0 30);
   KTree (TPop 0 20); KTree (TPop 0 70); KTree (TPop 0 60);
   KRead 7; KPostNext 8 7; KRead 8; KRead 7;
   KBegin 9 0; KRead 9; KErase 9 0 9; KRead 9; KErase 9 0 9; KRead 9; KEq 9 8; KRead 7;
   KNext 7; KNext 7; KEnd 6 0; KEq 7 6; KFind 5 0 33; KNe 5 6; KTree (TIter 0)].
Definition C71_out : list (tout nat) :=
  [OUnit; OUnit; OUnit; OUnit; OUnit; OUnit; OUnit; OUnit; OUnit; OUnit; OUnit; OUnit; OUnit;
   OOpt (Some 40); OUnit; OOpt (Some 40); OOpt (Some 80);
   OUnit; OOpt (Some 10); OUnit; OOpt (Some 30); OUnit; OOpt (Some 40); OBool true; OOpt (Some 80);
   OUnit; OUnit; OUnit; OBool true; OUnit; OBool false; OList [40; 80; 90]].
Example C71_case : exists s, srun (ks_step Nat.ltb) C71_ops kspec0 = SVal (C71_out, s).
Proof. eexists. vm_compute. reflexivity. Qed.
Example C71_case_kept : exists rs s us vs, srun (ks_step Nat.ltb) C71_ops kspec0 = SVal (rs, s) /\
  where_is 4 (k_sets s) = Some (0, (us, 80, vs)) /\ us <> [] /\ vs <> [] /\
  (exists r s', ks_step Nat.ltb (KTree (TPop 0 40)) s = SVal (r, s')) /\
  kremoves Nat.ltb (KTree (TPop 0 40)) s 0 4 80 = false /\ kremoves Nat.ltb (KTree (TPop 0 80)) s 0 4 80 = true.
Proof. do 4 eexists. split; [vm_compute; reflexivity|]. split; [vm_compute; reflexivity|]. repeat split; try discriminate; try reflexivity. vm_compute. eauto. Qed.
(** Popping the element makes its iterator useless. *)
Definition C71_bad : list (kop nat) :=
  [KTree (TNew 0); KTree (TPush 0 40); KTree (TPush 0 20); KTree (TPush 0 60); KFind 7 0 40; KTree (TPop 0 40); KRead 7].
Example C71_case_gone : srun (ks_step Nat.ltb) C71_bad kspec0 = SUnspec /\ mrun (kt_step Nat.ltb) C71_bad (tw_init bump, ∅) = UB.
Proof. split; vm_compute; reflexivity. Qed.
