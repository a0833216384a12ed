(** Property C100 (for_each over vectors, with callbacks that change them). *)
From Verif Require Import Base VectorModel VectorSpec VecProg Hist VecIterModel VecIterSpec VecEachModel VecEachSpec VecEachProofs VecEachTop.

(** C100.  Every program of calls, a for_each with any callback, and more calls ends
    exactly as specified, whatever vectors, iterators and elements the callback
    changes: the loop goes on from the position it is at until it is at the position
    [e] then designates, and is undefined exactly when one of them no longer
    designates anything or no element is there. *)
Theorem C100_history : forall (A C : Type) (triv : bool) (eqb : A -> A -> bool) (ops1 : list (yop A)) (fuel b e it x : nat) (cb : C -> vclient A C) (c : C) (ops2 : list (yop A)),
  let run := (rs1 <- mrun (y_step triv eqb) ops1 ;; c <- veach triv eqb fuel b e it x cb c ;; rs2 <- mrun (y_step triv eqb) ops2 ;; ret (rs1, c, rs2)) y_init in
  match veach_in_spec triv eqb ops1 fuel b e it x cb c ops2 with
  | Ok (rs1, c, rs2, s) => exists w, run = Ok (rs1, c, rs2, w) /\ forall id, contents (fst w) id = l_seq <$> fst s !! id
  | Abort => run = Abort
  | UB => run = UB
  | Diverge => run = Diverge
  end.
Proof. exact @veach_history. Qed.
Print Assumptions C100_history.

(** Appending to the vector from the callback: if everything fits into the capacity
    there is, the loop sees the old elements and only these; otherwise it is undefined. *)
Theorem C100_append : forall (A : Type) (triv : bool) (eqb : A -> A -> bool) (ops : list (yop A)) rs w id v l b e it x (kids : A -> list A) fuel, NoDup [b; e; it; x] ->
  mrun (y_step triv eqb) ops y_init = Ok (rs, w) -> holds (fst w) id v l -> length l <= fuel ->
  let run := (mrun (y_step triv eqb) [YBegin b id; YEnd e id] ;;; veach triv eqb fuel b e it x (growing x id kids) []) w in
  if length l + length (flat_map kids l) <=? v_cap v
  then exists w', run = Ok (l, w') /\ contents (fst w') id = Some (l ++ flat_map kids l)
  else run = UB.
Proof. exact @veach_growing. Qed.
Print Assumptions C100_append.

(** Appending the very elements the callback is given, by reference. *)
Theorem C100_double : forall (A : Type) (triv : bool) (eqb : A -> A -> bool) (ops : list (yop A)) rs w id v l b e it x fuel, NoDup [b; e; it; x] ->
  mrun (y_step triv eqb) ops y_init = Ok (rs, w) -> holds (fst w) id v l -> l <> [] -> length l <= fuel ->
  let run := (mrun (y_step triv eqb) [YBegin b id; YEnd e id] ;;; veach triv eqb fuel b e it x (doubling x id) []) w in
  if length l + length l <=? v_cap v
  then exists w', run = Ok (l, w') /\ contents (fst w') id = Some (l ++ l)
  else run = UB.
Proof. exact @veach_doubling. Qed.
Print Assumptions C100_double.

(** Removing the last element in every round is undefined, except for a single
    element in a capacity below three. *)
Theorem C100_remove : forall (A : Type) (triv : bool) (eqb : A -> A -> bool) (ops : list (yop A)) rs w id v l b e it x fuel, NoDup [b; e; it; x] ->
  mrun (y_step triv eqb) ops y_init = Ok (rs, w) -> holds (fst w) id v l -> l <> [] -> length l <= fuel ->
  let run := (mrun (y_step triv eqb) [YBegin b id; YEnd e id] ;;; veach triv eqb fuel b e it x (shrinking x id) []) w in
  if (length l =? 1) && (v_cap v <? 3)
  then exists w', run = Ok (l, w') /\ contents (fst w') id = Some []
  else run = UB.
Proof. exact @veach_shrinking. Qed.
Print Assumptions C100_remove.

(** The end is passed by reference: a callback that assigns to it moves where the
    loop stops. *)
Theorem C100_stop : forall (A : Type) (triv : bool) (eqb : A -> A -> bool) (ops : list (yop A)) rs w id v l b e it x (P : A -> bool) fuel, NoDup [b; e; it; x] ->
  mrun (y_step triv eqb) ops y_init = Ok (rs, w) -> holds (fst w) id v l -> l <> [] -> length l <= fuel ->
  exists w', (mrun (y_step triv eqb) [YBegin b id; YEnd e id] ;;; veach triv eqb fuel b e it x (stopping x e P) []) w = Ok (until P l, w') /\ contents (fst w') id = Some l.
Proof. exact @veach_stopping. Qed.
Print Assumptions C100_stop.

(** Moving the vector into another one under the loop does not disturb it. *)
Theorem C100_move : forall (A : Type) (triv : bool) (eqb : A -> A -> bool) (ops : list (yop A)) rs w id dst v l b e it x fuel, NoDup [b; e; it; x] ->
  mrun (y_step triv eqb) ops y_init = Ok (rs, w) -> holds (fst w) id v l -> l <> [] -> length l <= fuel -> w_objs (fst w) !! dst = None ->
  exists w', (mrun (y_step triv eqb) [YBegin b id; YEnd e id] ;;; veach triv eqb fuel b e it x (moving x id dst) []) w = Ok (l, w') /\
    contents (fst w') dst = Some l /\ contents (fst w') id = Some [].
Proof. exact @veach_moving. Qed.
Print Assumptions C100_move.

(** A vector of three elements in a capacity of eight: what the theorems assume. *)
Definition C100_ops : list (yop nat) := [YVec (ONew 0); YVec (OResize 0 8); YVec (OPush 0 5); YVec (OPush 0 6); YVec (OPush 0 7)].
Example C100_case : exists rs w v, NoDup [1; 2; 3; 4] /\ mrun (y_step false Nat.eqb) C100_ops y_init = Ok (rs, w) /\
  holds (fst w) 0 v [5; 6; 7] /\ v_cap v = 8 /\ w_objs (fst w) !! 1 = None.
Proof. do 3 eexists. split; [vm_compute; repeat constructor; set_solver|]. split; [vm_compute; reflexivity|]. vm_compute. auto. Qed.
(** Two more for each of the first two fit, two more for all three do not. *)
Example C100_case_append : exists s,
  veach_in_spec false Nat.eqb (C100_ops ++ [YBegin 1 0; YEnd 2 0]) 9 1 2 3 4 (growing 4 0 (fun a => if Nat.eqb a 7 then [] else [a; S a])) [] [YVec (OIter 0)] =
    Ok ([YOut RUnit; YOut RUnit; YOut RUnit; YOut RUnit; YOut RUnit; YOut RUnit; YOut RUnit], [5; 6; 7], [YOut (RList [5; 6; 7; 5; 6; 6; 7])], s) /\
  veach_in_spec false Nat.eqb (C100_ops ++ [YBegin 1 0; YEnd 2 0]) 9 1 2 3 4 (growing 4 0 (fun a => [a; S a])) [] [] = UB.
Proof. eexists. vm_compute. auto. Qed.
(** A callback that writes to the element it is given, appends it to another vector,
    and at 6 replaces the end: 7 is not reached.  With too few rounds it is not over. *)
Definition C100_cb (n : nat) : vclient nat nat :=
  VDo (YRead 4) (fun r => VDo (YPush 1 4) (fun _ => match r with
    | YOut (RVal a) => VDo (YWrite 4 (a * 10)) (fun _ => if Nat.eqb a 6 then VDo (YPlus 2 4 1) (fun _ => VDone (n + a)) else VDone (n + a))
    | _ => VDone n
    end)).
Example C100_case_write : exists s,
  veach_in_spec false Nat.eqb (C100_ops ++ [YVec (ONew 1); YBegin 1 0; YEnd 2 0]) 2 1 2 3 4 C100_cb 0 [YVec (OIter 0); YVec (OIter 1); YRead 2] =
    Ok ([YOut RUnit; YOut RUnit; YOut RUnit; YOut RUnit; YOut RUnit; YOut RUnit; YOut RUnit; YOut RUnit], 11,
        [YOut (RList [50; 60; 7]); YOut (RList [5; 6]); YOut (RVal 7)], s) /\
  veach_in_spec false Nat.eqb (C100_ops ++ [YVec (ONew 1); YBegin 1 0; YEnd 2 0]) 1 1 2 3 4 C100_cb 0 [] = Diverge.
Proof. eexists. vm_compute. auto. Qed.
