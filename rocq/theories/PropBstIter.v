(** C93: binary search tree iterators keep their place. *)
From Verif Require Import Base Alloc AllocProofs VectorSpec Adapter Hist TreeModel TreeSpec TreeWorld BstWorld BstSpec ListIterSpec TreeIterModel TreeIterSpec BstIterModel BstIterSpec BstIterTop.
Local Open Scope nat_scope.

Theorem C93_history_partial : forall (A : Type) (cmp : A -> A -> bool), swo cmp -> forall (pol : policy), sound pol -> grants pol -> forall ops : list (jop A),
  match srun (js_step cmp) ops jspec0 with
  | SVal (rs, _) => exists w, mrun (jt_step cmp) ops (tw_init pol, ∅) = Ok (rs, w)
  | SAbort => mrun (jt_step cmp) ops (tw_init pol, ∅) = Abort
  | SUnspec => True
  end.
Proof. exact @j_history. Qed.
Print Assumptions C93_history_partial.

Theorem C93_history_or_partial : forall (A : Type) (cmp : A -> A -> bool), swo cmp -> forall (pol : policy), sound pol -> forall ops : list (jop A),
  match srun (js_step cmp) ops jspec0 with
  | SVal (rs, _) => (exists w, mrun (jt_step cmp) ops (tw_init pol, ∅) = Ok (rs, w)) \/
      (mrun (jt_step cmp) ops (tw_init pol, ∅) = Abort /\
       exists ops1 ops2 rs1 s1, ops = ops1 ++ ops2 /\ srun (js_step cmp) ops1 jspec0 = SVal (rs1, s1) /\ refuses pol (btotal (bstrip (j_trees s1))))
  | SAbort => mrun (jt_step cmp) ops (tw_init pol, ∅) = Abort
  | SUnspec => True
  end.
Proof. exact @j_history_or. Qed.
Print Assumptions C93_history_or_partial.

Theorem C93_unique : forall (A : Type) (cmp : A -> A -> bool), swo cmp -> forall (ops : list (jop A)) rs s o id u us n x vs,
  srun (js_step cmp) ops jspec0 = SVal (rs, s) -> j_trees s !! id = Some u -> walk o u = us ++ (n, x) :: vs ->
  where_at o n (j_trees s) = Some (id, (us, x, vs)).
Proof. exact @j_unique. Qed.
Print Assumptions C93_unique.

Theorem C93_kept : forall (A : Type) (cmp : A -> A -> bool), swo cmp -> forall (ops : list (jop A)) rs s o id us n x vs op r s',
  srun (js_step cmp) ops jspec0 = SVal (rs, s) -> where_at o n (j_trees s) = Some (id, (us, x, vs)) ->
  js_step cmp op s = SVal (r, s') -> jremoves cmp op s id n x = false ->
  exists us' vs', where_at o n (j_trees s') = Some (home op id, (us', x, vs')).
Proof. exact @j_kept. Qed.
Print Assumptions C93_kept.

Theorem C93_trees : forall (A : Type) (cmp : A -> A -> bool) (o : bop A) (s : jspec),
  bs_step cmp o (bstrip (j_trees s)) =
  match btrees_step cmp o s with SVal (r, s') => SVal (r, bstrip (j_trees s')) | SAbort => SAbort | SUnspec => SUnspec end.
Proof. exact @j_trees_strip. Qed.
Print Assumptions C93_trees.

(** Erasing at an element with two children spoils every iterator at its right
    child: reading one is undefined behaviour or gives another element. *)
Theorem C93_two_children_refuted : forall (A : Type) (cmp : A -> A -> bool), swo cmp -> forall (pol : policy), sound pol -> grants pol ->
  forall (ops : list (jop A)) rs s i id j k o ok n m x y u a p b c d,
  srun (js_step cmp) ops jspec0 = SVal (rs, s) -> j_its s !! j = Some (o, Some n) -> o <> PostOrder -> j_trees s !! id = Some u ->
  below_num n u = Some (BN (BN a p b) (n, x) (BN c (m, y) d)) -> j_its s !! k = Some (ok, Some m) -> k <> i ->
  mrun (jt_step cmp) (ops ++ [JErase i id j; JRead k]) (tw_init pol, ∅) = UB \/
  exists z w, mrun (jt_step cmp) (ops ++ [JErase i id j; JRead k]) (tw_init pol, ∅) = Ok (rs ++ [OUnit; OOpt (Some z)], w) /\ cmp y z = true.
Proof. exact @j_two_children. Qed.
Print Assumptions C93_two_children_refuted.

Example C93_order : swo Nat.ltb.
Proof.
  split; intros; repeat match goal with H : Nat.ltb _ _ = true |- _ => apply Nat.ltb_lt in H end.
  - apply Nat.ltb_ge. lia.
  - rewrite !Nat.ltb_lt. lia.
Qed.
(** An iterator at 40, another walking in pre-order; pushes and pops around them,
    a move that takes them along, then erasing while walking. *)
Definition C93_ops : list (jop nat) :=
  [JTree (BFrom 0 [40; 20; 60; 10; 70; 30]); JFind 7 0 40; JBegin 8 0 PreOrder; JNext 8; JRead 8;
   JTree (BPush 0 25); JTree (BPop 0 60); JTree (BPush 0 80); JRead 7; JRead 8;
   JTree (BMoveNew 1 0); JRead 7; JPostNext 9 8; JRead 9; JRead 8; JNe 9 8;
   JErase 8 1 8; JRead 8; JErase 8 1 8; JRead 8; JRead 9;
   JCopy 5 9; JNext 5; JRead 5; JNext 7; JRead 7; JEq 7 5; JNext 7; JRead 7; JNext 7; JEnd 6 1 InOrder; JEq 7 6;
   JTree (BIter 1 PreOrder)].
Definition C93_out : list (tout nat) :=
  [OUnit; OUnit; OUnit; OUnit; OOpt (Some 20);
   OUnit; OUnit; OUnit; OOpt (Some 40); OOpt (Some 20);
   OUnit; OOpt (Some 40); OUnit; OOpt (Some 20); OOpt (Some 10); OBool true;
   OUnit; OOpt (Some 30); OUnit; OOpt (Some 25); OOpt (Some 20);
   OUnit; OUnit; OOpt (Some 25); OUnit; OOpt (Some 70); OBool false; OUnit; OOpt (Some 80); OUnit; OUnit; OBool true;
   OList [40; 20; 25; 70; 80]].
Example C93_case : exists s, srun (js_step Nat.ltb) C93_ops jspec0 = SVal (C93_out, s).
Proof. eexists. vm_compute. reflexivity. Qed.
Example C93_case_kept : exists rs s us vs, srun (js_step Nat.ltb) C93_ops jspec0 = SVal (rs, s) /\
  where_at InOrder 1 (j_trees s) = Some (1, (us, 20, vs)) /\ vs <> [] /\
  (exists r s', js_step Nat.ltb (JTree (BMoveNew 2 1)) s = SVal (r, s')) /\ home (A := nat) (JTree (BMoveNew 2 1)) 1 = 2 /\
  jremoves Nat.ltb (JTree (BMoveNew 2 1)) s 1 1 20 = false /\ jremoves Nat.ltb (JTree (BPop 1 20)) s 1 1 20 = true.
Proof. do 4 eexists. split; [vm_compute; reflexivity|]. split; [vm_compute; reflexivity|]. repeat split; try discriminate; try reflexivity. vm_compute. eauto. Qed.
(** Erasing 40 with two children copies 80 over 60's node: the iterator at 60 now
    reads 80. *)
Definition C93_bad : list (jop nat) :=
  [JTree (BFrom 0 [40; 20; 60; 50; 80; 70]); JFind 7 0 40; JFind 8 0 60].
Example C93_case_bad : exists rs s u a p b c d, srun (js_step Nat.ltb) C93_bad jspec0 = SVal (rs, s) /\
  j_its s !! 7 = Some (InOrder, Some 0) /\ j_trees s !! 0 = Some u /\
  below_num 0 u = Some (BN (BN a p b) (0, 40) (BN c (2, 60) d)) /\ j_its s !! 8 = Some (InOrder, Some 2).
Proof. do 8 eexists. split; [vm_compute; reflexivity|]. repeat split; vm_compute; reflexivity. Qed.
Example C93_case_bad_read : match mrun (jt_step Nat.ltb) (C93_bad ++ [JErase 9 0 7; JRead 8]) (tw_init bump, ∅) with
  | Ok (rs, _) => rs = [OUnit; OUnit; OUnit; OUnit; OOpt (Some 80)] | _ => False end.
Proof. vm_compute. reflexivity. Qed.
(** With a leaf to its right the iterator dangles. *)
Definition C93_bad2 : list (jop nat) :=
  [JTree (BFrom 0 [40; 20; 60; 50]); JFind 7 0 40; JFind 8 0 60].
Example C93_case_bad2 : mrun (jt_step Nat.ltb) (C93_bad2 ++ [JErase 9 0 7; JRead 8]) (tw_init bump, ∅) = UB.
Proof. vm_compute. reflexivity. Qed.
(** Popping the element makes its iterator useless. *)
Definition C93_gone : list (jop nat) := [JTree (BFrom 0 [40; 20; 60]); JFind 7 0 20; JTree (BPop 0 20); JRead 7].
Example C93_case_gone : srun (js_step Nat.ltb) C93_gone jspec0 = SUnspec /\ mrun (jt_step Nat.ltb) C93_gone (tw_init bump, ∅) = UB.
Proof. split; vm_compute; reflexivity. Qed.
