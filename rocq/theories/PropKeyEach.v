(** C105: client programs over maps and binary search trees, and for_each with
    callbacks that change them. *)
From Verif Require Import Base Alloc AllocProofs VectorSpec Adapter Hist TreeModel TreeSpec TreeWorld TreeWSpec BstWorld BstSpec.
From Verif Require Import ListIterSpec TreeIterModel TreeIterSpec MapIterModel MapIterSpec BstIterModel BstIterSpec KeyEachModel KeyEachSpec KeyEachProofs KeyEachTop.
Local Open Scope nat_scope.

(** C105.  Any program over maps and their iterators - for_each with any callback is
    one - does what the specifications of the calls say. *)
Theorem C105_maps : forall (K V : Type) (lt : K -> K -> bool) (dflt : V), swo lt -> forall (pol : policy), sound pol -> grants pol ->
  forall (C : Type) (p : prog (nop K V) (mout (K := K) (V := V)) C),
  match pspec (ns_step lt dflt) p kspec0 with
  | GEnd (c, _) => exists w, prun (n_step lt dflt) p (tw_init pol, ∅) = Ok (c, w)
  | GMore => prun (n_step lt dflt) p (tw_init pol, ∅) = Diverge
  | GAbort => prun (n_step lt dflt) p (tw_init pol, ∅) = Abort
  | GUnspec => True
  end.
Proof. exact @map_program. Qed.
Print Assumptions C105_maps.

(** C105.  The same for binary search trees. *)
Theorem C105_trees : forall (A : Type) (cmp : A -> A -> bool), swo cmp -> forall (pol : policy), sound pol -> grants pol ->
  forall (C : Type) (p : prog (jop A) (tout A) C),
  match pspec (js_step cmp) p jspec0 with
  | GEnd (c, _) => exists w, prun (jt_step cmp) p (tw_init pol, ∅) = Ok (c, w)
  | GMore => prun (jt_step cmp) p (tw_init pol, ∅) = Diverge
  | GAbort => prun (jt_step cmp) p (tw_init pol, ∅) = Abort
  | GUnspec => True
  end.
Proof. exact @tree_program. Qed.
Print Assumptions C105_trees.

Example C105_order : swo Nat.ltb.
Proof.
  split; intros; repeat match goal with H : Nat.ltb _ _ = true |- _ => apply Nat.ltb_lt in H end.
  - apply Nat.ltb_ge. lia.
  - rewrite !Nat.ltb_lt. lia.
Qed.
(** A map of three entries; from each, the callback makes an entry ahead up to 50,
    with a loop over another map inside, and then the map is read. *)
Fixpoint c105_calls {O P C} (ops : list O) (p : prog O P C) : prog O P C := match ops with [] => p | o :: ops => Do o (fun _ => c105_calls ops p) end.
Definition C105_ops : list (nop nat nat) := [NMap (MNew 0); NMap (MSet 0 30 3); NMap (MSet 0 10 1); NMap (MSet 0 20 2); NMap (MNew 1); NMap (MSet 1 5 50); NMap (MSet 1 6 60)].
Definition c105_cb (seen : list nat) : prog (nop nat nat) (mout (K := nat) (V := nat)) (list nat) :=
  Do (NRead 13) (fun r => match r with
    | MOpt (Some (k, v)) =>
        let next := Do (NBegin 20 1) (fun _ => Do (NEnd 21 1) (fun _ => meach 9 20 21 22 23 (fun n => Do (NRead 23) (fun r => match r with MOpt (Some (_, v)) => Done (n ++ [v]) | _ => Done n end)) (seen ++ [k]))) in
        if Nat.ltb k 40 then Do (NMap (MSet 0 (k + 15) v)) (fun _ => next) else next
    | _ => Done seen
    end).
Definition c105_prog (rounds : nat) := c105_calls (C105_ops ++ [NBegin 10 0; NEnd 11 0]) (pthen (meach rounds 10 11 12 13 c105_cb [])
  (fun seen => Do (NMap (MIter 0)) (fun r => Done (seen, r)))).
Example C105_case : exists s, pspec (ns_step Nat.ltb 0) (c105_prog 20) kspec0 = GEnd (([10; 50; 60; 20; 50; 60; 25; 50; 60; 30; 50; 60; 35; 50; 60; 40; 50; 60; 45; 50; 60; 50; 50; 60],
    MList [(10, 1); (20, 2); (25, 1); (30, 3); (35, 2); (40, 1); (45, 3); (50, 2)]), s).
Proof. eexists. vm_compute. reflexivity. Qed.
Example C105_case_more : pspec (ns_step Nat.ltb 0) (c105_prog 5) kspec0 = GMore.
Proof. vm_compute. reflexivity. Qed.

(** C105.  Giving every entry a new value through the iterator: every entry is visited
    once and the map holds the new values. *)
Theorem C105_update : forall (K V : Type) (lt : K -> K -> bool) (dflt : V), swo lt -> forall (pol : policy), sound pol -> grants pol ->
  forall ops rs s b e it x id l f fuel, NoDup [b; e; it; x] -> srun (ns_step lt dflt) ops kspec0 = SVal (rs, s) -> k_sets s !! id = Some l -> l <> [] -> length l <= fuel ->
  exists w, (rs1 <- mrun (n_step lt dflt) (ops ++ [NBegin b id; NEnd e id]) ;; c <- prun (n_step lt dflt) (meach fuel b e it x (updating x f) []) ;;
    rs2 <- mrun (n_step lt dflt) [NMap (MIter id)] ;; ret (rs1, c, rs2)) (tw_init pol, ∅) =
    Ok (rs ++ [MUnit; MUnit], l.*2, [MList (map (fun kv => (fst kv, f (fst kv) (snd kv))) l.*2)], w).
Proof. exact @update_run. Qed.
Print Assumptions C105_update.

(** C105.  Removing the entry before the one at hand: every entry is visited and only
    the last stays. *)
Theorem C105_drop : forall (K V : Type) (lt : K -> K -> bool) (dflt : V), swo lt -> forall (pol : policy), sound pol -> grants pol ->
  forall ops rs s b e it x id l z fuel, NoDup [b; e; it; x] -> srun (ns_step lt dflt) ops kspec0 = SVal (rs, s) -> k_sets s !! id = Some l -> last l.*2 = Some z -> length l <= fuel ->
  exists w, (rs1 <- mrun (n_step lt dflt) (ops ++ [NBegin b id; NEnd e id]) ;; c <- prun (n_step lt dflt) (meach fuel b e it x (dropping x id) []) ;;
    rs2 <- mrun (n_step lt dflt) [NMap (MIter id)] ;; ret (rs1, c, rs2)) (tw_init pol, ∅) =
    Ok (rs ++ [MUnit; MUnit], l.*2, [MList [z]], w).
Proof. exact @drop_run. Qed.
Print Assumptions C105_drop.

(** C105.  Removing the entry at hand: undefined in the first round, whatever comes
    after. *)
Theorem C105_pop : forall (K V : Type) (lt : K -> K -> bool) (dflt : V), swo lt -> forall (pol : policy), sound pol -> grants pol ->
  forall ops rs s b e it x id l fuel ops2, NoDup [b; e; it; x] -> srun (ns_step lt dflt) ops kspec0 = SVal (rs, s) -> k_sets s !! id = Some l -> l <> [] ->
  (rs1 <- mrun (n_step lt dflt) (ops ++ [NBegin b id; NEnd e id]) ;; c <- prun (n_step lt dflt) (meach (S fuel) b e it x (popping x id) []) ;;
    rs2 <- mrun (n_step lt dflt) ops2 ;; ret (rs1, c, rs2)) (tw_init pol, ∅) = UB.
Proof. exact @pop_run. Qed.
Print Assumptions C105_pop.

(** C105.  Assigning into another map for every entry: the other map gets one
    assignment after the other, in the order of the keys. *)
Theorem C105_fill : forall (K V : Type) (lt : K -> K -> bool) (dflt : V), swo lt -> forall (pol : policy), sound pol -> grants pol ->
  forall ops rs s b e it x id dst l l2 g fuel, NoDup [b; e; it; x] -> id <> dst -> srun (ns_step lt dflt) ops kspec0 = SVal (rs, s) -> k_sets s !! id = Some l -> l <> [] ->
  k_sets s !! dst = Some l2 -> length l <= fuel ->
  exists w, (rs1 <- mrun (n_step lt dflt) (ops ++ [NBegin b id; NEnd e id]) ;; c <- prun (n_step lt dflt) (meach fuel b e it x (filling x dst g) []) ;;
    rs2 <- mrun (n_step lt dflt) [NMap (MIter id); NMap (MIter dst)] ;; ret (rs1, c, rs2)) (tw_init pol, ∅) =
    Ok (rs ++ [MUnit; MUnit], l.*2, [MList l.*2; MList (fold_left (fun l kv => put_key lt (fst (g kv)) (snd (g kv)) l) l.*2 l2.*2)], w).
Proof. exact @fill_run. Qed.
Print Assumptions C105_fill.

Example C105_case_maps : exists rs s l l2, srun (ns_step Nat.ltb 0) C105_ops kspec0 = SVal (rs, s) /\ k_sets s !! 0 = Some l /\ l.*2 = [(10, 1); (20, 2); (30, 3)] /\
  k_sets s !! 1 = Some l2 /\ l2.*2 = [(5, 50); (6, 60)] /\ last l.*2 = Some (30, 3) /\
  fold_left (fun l kv => put_key Nat.ltb (fst kv - 4) (snd kv) l) l.*2 l2.*2 = [(5, 50); (6, 1); (16, 2); (26, 3)].
Proof. do 4 eexists. split; [vm_compute; reflexivity|]. split; [vm_compute; reflexivity|]. split; [reflexivity|]. split; [vm_compute; reflexivity|]. split; [reflexivity|]. split; vm_compute; reflexivity. Qed.
Example C105_vars : NoDup [10; 11; 12; 13].
Proof. rewrite !NoDup_cons, !elem_of_cons, !elem_of_nil. repeat split; try lia. apply NoDup_nil. exact I. Qed.

(** C105.  Pushing every element of a tree, in pre-order or in order, onto an empty
    tree: the copy holds the same elements; made in pre-order it has the same shape,
    and made in order it is a chain. *)
Theorem C105_clone : forall (A : Type) (cmp : A -> A -> bool), swo cmp -> forall (pol : policy), sound pol -> grants pol ->
  forall ops rs s b e it x id dst u o fuel, NoDup [b; e; it; x] -> id <> dst -> srun (js_step cmp) ops jspec0 = SVal (rs, s) -> j_trees s !! id = Some u -> u <> BE -> o <> PostOrder ->
  j_trees s !! dst = Some BE -> length (inorder u) <= fuel ->
  exists w, (rs1 <- mrun (jt_step cmp) (ops ++ [JBegin b id o; JEnd e id o]) ;; c <- prun (jt_step cmp) (beach fuel b e it x (cloning x dst) []) ;;
    rs2 <- mrun (jt_step cmp) [JTree (BIter id PreOrder); JTree (BIter dst PreOrder); JTree (BIter dst InOrder)] ;; ret (rs1, c, rs2)) (tw_init pol, ∅) =
    Ok (rs ++ [OUnit; OUnit], (walk o u).*2, [OList (preorder u).*2; OList (walk o u).*2; OList (inorder u).*2], w).
Proof. exact @clone_run. Qed.
Print Assumptions C105_clone.

Definition C105_tops : list (jop nat) := [JTree (BNew 0); JTree (BPush 0 20); JTree (BPush 0 30); JTree (BPush 0 10); JTree (BPush 0 25); JTree (BNew 1)].
Example C105_case_trees : exists rs s u, srun (js_step Nat.ltb) C105_tops jspec0 = SVal (rs, s) /\ j_trees s !! 0 = Some u /\ (walk PreOrder u).*2 = [20; 10; 30; 25] /\
  (walk InOrder u).*2 = [10; 20; 25; 30] /\ j_trees s !! 1 = Some BE.
Proof. do 3 eexists. split; [vm_compute; reflexivity|]. split; [vm_compute; reflexivity|]. split; [reflexivity|]. split; vm_compute; reflexivity. Qed.
Example C105_case_clone : exists s, pspec (js_step Nat.ltb) (c105_calls (C105_tops ++ [JBegin 10 0 PreOrder; JEnd 11 0 PreOrder])
    (pthen (beach 9 10 11 12 13 (cloning 13 1) []) (fun seen => Do (JTree (BIter 1 PreOrder)) (fun r => Done (seen, r))))) jspec0 = GEnd (([20; 10; 30; 25], OList [20; 10; 30; 25]), s).
Proof. eexists. vm_compute. reflexivity. Qed.
