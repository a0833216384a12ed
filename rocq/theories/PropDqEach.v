(** C104: for_each over a deque with a callback that changes deques. *)
From Verif Require Import Base VectorModel VectorSpec Adapter Hist ListModel DequeModel DequeSpec DequeIterModel DequeIterSpec DqEachModel DqEachSpec DqEachProofs DqEachTop.

(** C104.  Any calls, then for_each with any callback - one that calls whatever it
    likes on any deques and iterators, depending on the answers - and then any more
    calls. *)
Theorem C104_history : forall (A C : Type) (N : nat), 0 < N -> forall (eqb : A -> A -> bool) ops1 fuel b e it x (cb : C -> dclient A C) c ops2,
  let run := rs1 <- mrun (j_step N eqb) ops1 ;; c <- deach N eqb fuel b e it x cb c ;; rs2 <- mrun (j_step N eqb) ops2 ;; ret (rs1, c, rs2) in
  match deach_in_spec eqb ops1 fuel b e it x cb c ops2 with
  | DEnd r => exists w, run jworld0 = Ok (r, w)
  | DMore => run jworld0 = Diverge
  | DAbort => run jworld0 = Abort
  | DUnspec => True
  end.
Proof. exact @deach_history. Qed.
Print Assumptions C104_history.

(** Copying elements to another deque: every element is visited, in order. *)
Theorem C104_copy : forall (A : Type) (N : nat), 0 < N -> forall (eqb : A -> A -> bool) ops rs (s : jspec A) b e it x id dst l l2 (P : A -> bool) fuel, NoDup [b; e; it; x] -> id <> dst ->
  srun (js_step eqb) ops jspec0 = SVal (rs, s) -> j_dqs s !! id = Some (l, true) -> j_dqs s !! dst = Some (l2, true) -> length l <= fuel ->
  exists w, (rs1 <- mrun (j_step N eqb) (ops ++ [JBegin b id; JEnd e id]) ;; c <- deach N eqb fuel b e it x (copying x dst P) [] ;;
    rs2 <- mrun (j_step N eqb) [JDeq (DIter id); JDeq (DIter dst)] ;; ret (rs1, c, rs2)) jworld0
    = Ok (rs ++ [RUnit; RUnit], l, [RList l; RList (l2 ++ filter (fun a => P a = true) l)], w).
Proof. exact @copying_run. Qed.
Print Assumptions C104_copy.

(** Removing, in every round but the first, the element of the round before. *)
Theorem C104_trail : forall (A : Type) (N : nat), 0 < N -> forall (eqb : A -> A -> bool) ops rs (s : jspec A) b e it x id l z fuel, NoDup [b; e; it; x] ->
  srun (js_step eqb) ops jspec0 = SVal (rs, s) -> j_dqs s !! id = Some (l, true) -> last l = Some z -> length l <= fuel ->
  exists w, (rs1 <- mrun (j_step N eqb) (ops ++ [JBegin b id; JEnd e id]) ;; c <- deach N eqb fuel b e it x (trailing x id) [] ;;
    rs2 <- mrun (j_step N eqb) [JDeq (DIter id)] ;; ret (rs1, c, rs2)) jworld0 = Ok (rs ++ [RUnit; RUnit], l, [RList [z]], w).
Proof. exact @trailing_run. Qed.
Print Assumptions C104_trail.

(** The end is passed by reference: a callback that assigns to it moves where the
    loop stops. *)
Theorem C104_stop : forall (A : Type) (N : nat), 0 < N -> forall (eqb : A -> A -> bool) ops rs (s : jspec A) b e it x id l (P : A -> bool) fuel, NoDup [b; e; it; x] ->
  srun (js_step eqb) ops jspec0 = SVal (rs, s) -> j_dqs s !! id = Some (l, true) -> length l <= fuel ->
  exists w, (rs1 <- mrun (j_step N eqb) (ops ++ [JBegin b id; JEnd e id]) ;; c <- deach N eqb fuel b e it x (stopping x e id P) [] ;;
    rs2 <- mrun (j_step N eqb) [JDeq (DIter id)] ;; ret (rs1, c, rs2)) jworld0 = Ok (rs ++ [RUnit; RUnit], until P l, [RList l], w).
Proof. exact @stopping_run. Qed.
Print Assumptions C104_stop.

(** Removing the element at hand, in every round, is more than std::deque allows, but
    here it empties the deque and visits everything. *)
Theorem C104_drain : forall (A : Type) (N : nat), 0 < N -> forall (eqb : A -> A -> bool) ops rs (s : jspec A) b e it x id l fuel, NoDup [b; e; it; x] ->
  srun (js_step eqb) ops jspec0 = SVal (rs, s) -> j_dqs s !! id = Some (l, true) -> length l <= fuel ->
  exists w, (rs1 <- mrun (j_step N eqb) (ops ++ [JBegin b id; JEnd e id]) ;; c <- deach N eqb fuel b e it x (draining x id) [] ;;
    rs2 <- mrun (j_step N eqb) [JDeq (DIter id)] ;; ret (rs1, c, rs2)) jworld0 = Ok (rs ++ [RUnit; RUnit], l, [RList []], w).
Proof. exact @draining_run. Qed.
Print Assumptions C104_drain.

(** Removing the last element, in every round, is undefined for two elements or more. *)
Theorem C104_remove : forall (A : Type) (N : nat), 0 < N -> forall (eqb : A -> A -> bool) ops rs (s : jspec A) b e it x id l fuel ops2, NoDup [b; e; it; x] ->
  srun (js_step eqb) ops jspec0 = SVal (rs, s) -> j_dqs s !! id = Some (l, true) -> 2 <= length l <= fuel ->
  (rs1 <- mrun (j_step N eqb) (ops ++ [JBegin b id; JEnd e id]) ;; c <- deach N eqb fuel b e it x (shrinking x id) [] ;;
    rs2 <- mrun (j_step N eqb) ops2 ;; ret (rs1, c, rs2)) jworld0 = UB.
Proof. exact @shrinking_run. Qed.
Print Assumptions C104_remove.

(** Appending the element at hand, in every round: if there is room, so that pushing as
    many elements leaves the capacity what it was, the loop visits just the old ones. *)
Theorem C104_append : forall (A : Type) (N : nat), 0 < N -> forall (eqb : A -> A -> bool) ops rs (s : jspec A) b e it x id l fuel cap rs2 w0, NoDup [b; e; it; x] ->
  srun (js_step eqb) ops jspec0 = SVal (rs, s) -> j_dqs s !! id = Some (l, true) -> length l <= fuel ->
  mrun (j_step N eqb) (ops ++ JDeq (DCapacity id) :: map (fun a => JDeq (DPushBack id a)) l ++ [JDeq (DCapacity id)]) jworld0 = Ok (rs ++ RNat cap :: rs2 ++ [RNat cap], w0) ->
  exists w, (rs1 <- mrun (j_step N eqb) (ops ++ [JBegin b id; JEnd e id]) ;; c <- deach N eqb fuel b e it x (doubling x id) [] ;;
    rs2 <- mrun (j_step N eqb) [JDeq (DCapacity id); JDeq (DIter id)] ;; ret (rs1, c, rs2)) jworld0 = Ok (rs ++ [RUnit; RUnit], l, [RNat cap; RList (l ++ l)], w).
Proof. exact @doubling_run. Qed.
Print Assumptions C104_append.

(** Three elements, and another deque: what the theorems assume. *)
Definition C104_ops : list (jop nat) := [JDeq (DNew 0); JDeq (DPushBack 0 6); JDeq (DPushBack 0 7); JDeq (DPushFront 0 5); JDeq (DNew 1); JDeq (DPushBack 1 9)].
Example C104_case : exists rs s, NoDup [1; 2; 3; 4] /\ srun (js_step Nat.eqb) C104_ops jspec0 = SVal (rs, s) /\
  j_dqs s !! 0 = Some ([5; 6; 7], true) /\ j_dqs s !! 1 = Some ([9], true) /\ last [5; 6; 7] = Some 7.
Proof. do 2 eexists. split; [repeat constructor; set_solver|]. split; [vm_compute; reflexivity|]. vm_compute. auto. Qed.
(** A callback that drops the elements before the one at hand, then tells the size, and
    at 6 looks at the last element and stores it in the other deque. *)
Definition C104_cb (n : nat) : dclient nat nat :=
  CDo (JRead 4) (fun r => match r with
    | RVal 5 => CDone (n + 5)
    | RVal a => CDo (JDeq (DPopFront 0)) (fun _ => CDo (JDeq (DSize 0)) (fun r => match r with
        | RNat k => if Nat.eqb a 6 then CDo (JDeq (DBack 0)) (fun r => match r with RVal z => CDo (JDeq (DPushFront 1 z)) (fun _ => CDone (n + a + 10 * k)) | _ => CDone 0 end) else CDone (n + a + 10 * k)
        | _ => CDone 0 end))
    | _ => CDone 0 end).
Example C104_case_any : deach_in_spec Nat.eqb (C104_ops ++ [JBegin 1 0; JEnd 2 0]) 3 1 2 3 4 C104_cb 0 [JDeq (DIter 0); JDeq (DIter 1)] =
    DEnd ([RUnit; RUnit; RUnit; RUnit; RUnit; RUnit; RUnit; RUnit], 48, [RList [7]; RList [7; 9]]) /\
  deach_in_spec Nat.eqb (C104_ops ++ [JBegin 1 0; JEnd 2 0]) 2 1 2 3 4 C104_cb 0 [] = DMore.
Proof. vm_compute. auto. Qed.
(** Appending: with blocks of eight there is room for three more, as the last theorem
    assumes; with blocks of two the table grows under the loop, which goes wrong. *)
Example C104_case_room : exists w0, mrun (j_step 8 Nat.eqb) (C104_ops ++ JDeq (DCapacity 0) :: map (fun a => JDeq (DPushBack 0 a)) [5; 6; 7] ++ [JDeq (DCapacity 0)]) jworld0 =
  Ok ([RUnit; RUnit; RUnit; RUnit; RUnit; RUnit] ++ RNat 16 :: [RUnit; RUnit; RUnit] ++ [RNat 16], w0).
Proof. apply ran. vm_compute. reflexivity. Qed.
Definition C104_run (N : nat) := (rs1 <- mrun (j_step N Nat.eqb) (C104_ops ++ [JBegin 1 0; JEnd 2 0]) ;; c <- deach N Nat.eqb 9 1 2 3 4 (doubling 4 0) [] ;;
  rs2 <- mrun (j_step N Nat.eqb) [JDeq (DCapacity 0); JDeq (DIter 0)] ;; ret (c, rs2)) jworld0.
Example C104_case_append : (exists w, C104_run 8 = Ok ([5; 6; 7], [RNat 16; RList [5; 6; 7; 5; 6; 7]], w)) /\ C104_run 2 = UB.
Proof. split; [apply ran|]; vm_compute; reflexivity. Qed.
