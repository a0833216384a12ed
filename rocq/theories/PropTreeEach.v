(** C99: for_each over an AVL tree with a callback that changes trees. *)
From Verif Require Import Base Alloc AllocProofs VectorSpec Adapter Hist TreeModel TreeSpec TreeWorld TreeWSpec ListIterSpec TreeIterModel TreeIterSpec TreeEachModel TreeEachSpec TreeEachProofs TreeEachTop.
Local Open Scope nat_scope.

(** C99.  Any calls, then for_each over a tree with any callback - one that calls
    whatever it likes on any trees and iterators, depending on the answers - and
    then any more calls. *)
Theorem C99_history : forall (A : Type) (cmp : A -> A -> bool), swo cmp -> forall (pol : policy), grants pol -> forall (C : Type), sound pol ->
  forall ops1 n id c (cb : C -> A -> tclient A C) ops2,
  let run := rs1 <- mrun (kt_step cmp) ops1 ;; c <- teach cmp n id c cb ;; rs2 <- mrun (kt_step cmp) ops2 ;; ret (rs1, c, rs2) in
  match teach_in_spec cmp ops1 n id c cb ops2 with
  | EEnd r => exists w, run (tw_init pol, ∅) = Ok (r, w)
  | EMore => run (tw_init pol, ∅) = Diverge
  | EUndef => run (tw_init pol, ∅) = UB
  | EAbort => run (tw_init pol, ∅) = Abort
  | EUnspec => True
  end.
Proof. exact @teach_history. Qed.
Print Assumptions C99_history.

(** C99.  Whatever the callback does, the elements it is given are ascending. *)
Theorem C99_ascending : forall (A : Type) (cmp : A -> A -> bool), swo cmp -> forall (C : Type) ops1 n id (c : C) (cb : C -> A -> tclient A C) ops2 rs1 c' rs2,
  teach_in_spec cmp ops1 n id c cb ops2 = EEnd (rs1, c', rs2) ->
  exists seen, teach_in_spec cmp ops1 n id ([], c) (logging cb) ops2 = EEnd (rs1, (seen, c'), rs2) /\ ascending cmp seen.
Proof. exact @teach_ascending. Qed.
Print Assumptions C99_ascending.

Example C99_order : swo Nat.ltb.
Proof.
  split; intros; repeat match goal with H : Nat.ltb _ _ = true |- _ => apply Nat.ltb_lt in H end.
  - apply Nat.ltb_ge. lia.
  - rewrite !Nat.ltb_lt. lia.
Qed.
(** A callback that pops the element ten below the one it is at, if it is there,
    and pushes one ahead and one behind. *)
Definition c99_cb (k : nat) (a : nat) : tclient nat nat :=
  let push := TDo (KTree (TPush 0 (a + 7))) (fun _ => TDo (KTree (TPush 0 (a - 1))) (fun _ => TDone (S k))) in
  if Nat.ltb a 30 then
    TDo (KTree (TFind 0 (a - 10))) (fun r => match r with OOpt (Some _) => TDo (KTree (TPop 0 (a - 10))) (fun _ => push) | _ => push end)
  else TDone (S k).
Definition C99_ops : list (kop nat) := [KTree (TNew 0); KTree (TPush 0 10); KTree (TPush 0 20); KTree (TPush 0 30); KFind 7 0 30].
Example C99_case : teach_in_spec Nat.ltb C99_ops 30 0 0 c99_cb [KRead 7; KTree (TIter 0)] =
  EEnd ([OUnit; OUnit; OUnit; OUnit; OUnit], 8, [OOpt (Some 30); OList [9; 16; 19; 20; 23; 24; 26; 27; 30; 31; 34]]).
Proof. vm_compute. reflexivity. Qed.
Example C99_case_seen : teach_in_spec Nat.ltb C99_ops 30 0 ([], 0) (logging c99_cb) [KRead 7; KTree (TIter 0)] =
  EEnd ([OUnit; OUnit; OUnit; OUnit; OUnit], ([10; 17; 20; 24; 27; 30; 31; 34], 8), [OOpt (Some 30); OList [9; 16; 19; 20; 23; 24; 26; 27; 30; 31; 34]]).
Proof. vm_compute. reflexivity. Qed.
(** With 5 rounds that is not over; and pushing what is there fails an assertion. *)
Example C99_case_more : teach_in_spec Nat.ltb C99_ops 5 0 0 c99_cb [] = EMore.
Proof. vm_compute. reflexivity. Qed.
Example C99_case_abort : teach_in_spec Nat.ltb C99_ops 5 0 0 (fun k a => TDo (KTree (TPush 0 (a + 10))) (fun _ => TDone k)) [] = EAbort.
Proof. vm_compute. reflexivity. Qed.
(** Clearing another tree does no harm; clearing this one does, as does starting on
    an empty one. *)
Example C99_case_clear : teach_in_spec Nat.ltb (C99_ops ++ [KTree (TNew 1); KTree (TPush 1 5)]) 5 0 0 (fun k a => TDo (KTree (TClear 1)) (fun _ => TDone (k + a))) [] =
    EEnd ([OUnit; OUnit; OUnit; OUnit; OUnit; OUnit; OUnit], 60, []) /\
  teach_in_spec Nat.ltb C99_ops 5 0 0 (fun k a => if Nat.eqb a 20 then TDo (KTree (TClear 0)) (fun _ => TDone k) else TDone k) [] = EUndef /\
  teach_in_spec Nat.ltb [KTree (TNew 0)] 5 0 0 (fun k a => TDone k) [] = EUndef.
Proof. vm_compute. auto. Qed.

(** C99.  Adding to the tree from the callback: the loop sees, and the tree then
    holds, what sweeping upwards through the growing set gives. *)
Theorem C99_sweep : forall (A : Type) (cmp : A -> A -> bool), swo cmp -> forall (pol : policy), sound pol -> grants pol ->
  forall ops rs (s : kspec (A := A)) id m x l (kids : A -> list A) n, srun (ks_step cmp) ops kspec0 = SVal (rs, s) -> k_sets s !! id = Some ((m, x) :: l) ->
  exists w, mrun (kt_step cmp) ops (tw_init pol, ∅) = Ok (rs, w) /\
  match sweep cmp kids n x (x :: l.*2) with
  | Some (vs, xs) => exists w', teach cmp n id [] (adding id kids) w = Ok (vs, w') /\
      exists w'', kt_step cmp (KTree (TIter id)) w' = Ok (OList xs, w'')
  | None => teach cmp n id [] (adding id kids) w = Diverge
  end.
Proof. exact @teach_sweep. Qed.
Print Assumptions C99_sweep.

(** C99.  So a callback that adds something above every element never ends, *)
Theorem C99_endless : forall (A : Type) (cmp : A -> A -> bool), swo cmp -> forall (pol : policy), sound pol -> grants pol ->
  forall ops rs (s : kspec (A := A)) id l (kids : A -> list A), srun (ks_step cmp) ops kspec0 = SVal (rs, s) -> k_sets s !! id = Some l -> l <> [] ->
  (forall a, exists y, In y (kids a) /\ cmp a y = true) ->
  exists w, mrun (kt_step cmp) ops (tw_init pol, ∅) = Ok (rs, w) /\ forall n, teach cmp n id [] (adding id kids) w = Diverge.
Proof. exact @teach_endless. Qed.
Print Assumptions C99_endless.

(** C99.  and one that adds nothing above the element sees the original elements,
    each once. *)
Theorem C99_below : forall (A : Type) (cmp : A -> A -> bool), swo cmp -> forall (pol : policy), sound pol -> grants pol ->
  forall ops rs (s : kspec (A := A)) id l (kids : A -> list A) n, srun (ks_step cmp) ops kspec0 = SVal (rs, s) -> k_sets s !! id = Some l -> l <> [] ->
  (forall a y, In y (kids a) -> cmp a y = false) -> length l <= n ->
  exists w w', mrun (kt_step cmp) ops (tw_init pol, ∅) = Ok (rs, w) /\ teach cmp n id [] (adding id kids) w = Ok (l.*2, w').
Proof. exact @teach_below. Qed.
Print Assumptions C99_below.

Example C99_sweep_case : exists rs s l, srun (ks_step Nat.ltb) C99_ops kspec0 = SVal (rs, s) /\ k_sets s !! 0 = Some ((0, 10) :: l) /\ l.*2 = [20; 30] /\
  sweep Nat.ltb (fun a => if Nat.ltb a 25 then [a + 4; a - 4; 20] else [1; 2]) 20 10 (10 :: l.*2) =
    Some ([10; 14; 18; 20; 22; 24; 26; 28; 30], [1; 2; 6; 10; 14; 16; 18; 20; 22; 24; 26; 28; 30]).
Proof. do 3 eexists. split; [vm_compute; reflexivity|]. split; [vm_compute; reflexivity|]. split; vm_compute; reflexivity. Qed.
Example C99_kids_case : (forall a, exists y, In y [a - 1; S a] /\ Nat.ltb a y = true) /\ (forall a y, In y [a; a - 1] -> Nat.ltb a y = false).
Proof.
  split.
  - intros a. exists (S a). split; [right; left; reflexivity|apply Nat.ltb_lt; lia].
  - intros a y [<-|[<-|[]]]; apply Nat.ltb_ge; lia.
Qed.

(** C99.  Popping the element the loop is at is undefined: ++ follows the links of a
    node that is gone. *)
Theorem C99_pop : forall (A : Type) (cmp : A -> A -> bool), swo cmp -> forall (pol : policy), sound pol -> grants pol -> forall (C : Type)
  ops rs (s : kspec (A := A)) id l n (c : C), srun (ks_step cmp) ops kspec0 = SVal (rs, s) -> k_sets s !! id = Some l -> l <> [] ->
  exists w, mrun (kt_step cmp) ops (tw_init pol, ∅) = Ok (rs, w) /\
  teach cmp (S n) id c (fun c a => TDo (KTree (TPop id a)) (fun _ => TDone c)) w = UB.
Proof. exact @teach_pop. Qed.
Print Assumptions C99_pop.
