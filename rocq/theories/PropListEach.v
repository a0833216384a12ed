(** C97: for_each over a list whose callback changes the list. *)
From Verif Require Import Base Alloc AllocProofs VectorModel VectorSpec Adapter Hist ListModel ListSpec ListIterModel ListIterSpec ListEachModel ListEachSpec ListEachProofs ListEachTop.

(** C97.  After every history, for_each(l.begin(), l.end(), cb) with any callback
    that uses the lists, followed by any calls, goes on at each round with
    whatever follows the element when the callback returns; it runs more than n
    rounds exactly when that says so. *)
Theorem C97_history : forall (A : Type) (junk : A) (dbl : bool) (pol : policy), grants pol -> forall (C : Type), sound pol ->
  forall ops1 n id c (cb : C -> A -> client A C) ops2,
  match each_in_spec dbl ops1 n id c cb ops2 with
  | SVal (Some r) => exists w, (rs1 <- mrun (it_step junk dbl) ops1 ;; c <- each junk dbl n id c cb ;; rs2 <- mrun (it_step junk dbl) ops2 ;; ret (rs1, c, rs2)) (lst_init pol, ∅) = Ok (r, w)
  | SVal None => (rs1 <- mrun (it_step junk dbl) ops1 ;; c <- each junk dbl n id c cb ;; rs2 <- mrun (it_step junk dbl) ops2 ;; ret (rs1, c, rs2)) (lst_init pol, ∅) = Diverge
  | SAbort => (rs1 <- mrun (it_step junk dbl) ops1 ;; c <- each junk dbl n id c cb ;; rs2 <- mrun (it_step junk dbl) ops2 ;; ret (rs1, c, rs2)) (lst_init pol, ∅) = Abort
  | SUnspec => True
  end.
Proof. exact @each_history. Qed.
Print Assumptions C97_history.

(** A callback that pops from the front what is behind the loop, once it has seen
    two elements; asks for the size; and pushes at the back while that is small. *)
Definition c97_cb (seen : list nat) (a : nat) : client nat (list nat) :=
  let rest := Do (IList (LSize 0)) (fun r => match r with
                | RNat k => if Nat.ltb k 4 && Nat.ltb (length seen) 6 then Do (IList (LPushBack 0 (a + 10))) (fun _ => Done (seen ++ [a])) else Done (seen ++ [a])
                | _ => Done seen end) in
  match seen with [] | [_] => rest | _ => Do (IList (LPopFront 0)) (fun _ => rest) end.
Example C97_case : forall dbl, each_in_spec dbl [IList (LNew 0); IList (LPushBack 0 1); IList (LPushBack 0 2); IBegin 7 0] 20 0 [] c97_cb [IList (LIter 0); IEnd 8 0; IList (LSize 0)] =
  SVal (Some ([RUnit; RUnit; RUnit; RUnit], [1; 2; 11; 12; 21; 22; 31; 32], [RList [31; 32]; RUnit; RNat 2])).
Proof. intros []; vm_compute; reflexivity. Qed.
Example C97_case_more : forall dbl, each_in_spec dbl [IList (LNew 0); IList (LPushBack 0 1); IList (LPushBack 0 2); IBegin 7 0] 5 0 [] c97_cb [] = SVal None.
Proof. intros []; vm_compute; reflexivity. Qed.

(** C97.  Pushing at the back from the callback works the list off like a queue:
    the loop sees, and the list then holds, the original elements and everything
    they give rise to, in the order of the queue. *)
Theorem C97_back : forall (A : Type) (junk : A) (dbl : bool) (pol : policy), sound pol -> grants pol ->
  forall ops rs (s : ispec (A := A)) id l (kids : A -> list A) n, srun (is_step dbl) ops ispec0 = SVal (rs, s) -> s_lists s !! id = Some l ->
  exists w, mrun (it_step junk dbl) ops (lst_init pol, ∅) = Ok (rs, w) /\
  match work kids n l.*2 with
  | Some vs => exists w', each junk dbl n id [] (noting (LPushBack id) kids) w = Ok (vs, w') /\
      exists w'', it_step junk dbl (IList (LIter id)) w' = Ok (RList vs, w'')
  | None => each junk dbl n id [] (noting (LPushBack id) kids) w = Diverge
  end.
Proof. exact @each_work. Qed.
Print Assumptions C97_back.

(** C97.  So a callback that pushes at the back at every element never ends. *)
Theorem C97_endless : forall (A : Type) (junk : A) (dbl : bool) (pol : policy), sound pol -> grants pol -> forall ops rs s id l (kids : A -> list A),
  srun (is_step dbl) ops ispec0 = SVal (rs, s) -> s_lists s !! id = Some l -> l <> [] -> (forall a, kids a <> []) ->
  exists w, mrun (it_step junk dbl) ops (lst_init pol, ∅) = Ok (rs, w) /\ forall n, each junk dbl n id [] (noting (LPushBack id) kids) w = Diverge.
Proof. exact @each_endless. Qed.
Print Assumptions C97_endless.

(** C97.  Pushing at the front does not disturb the loop: it sees the original
    elements, each once. *)
Theorem C97_front : forall (A : Type) (junk : A) (dbl : bool) (pol : policy), sound pol -> grants pol ->
  forall ops rs (s : ispec (A := A)) id l (kids : A -> list A) n, srun (is_step dbl) ops ispec0 = SVal (rs, s) -> s_lists s !! id = Some l -> length l <= n ->
  exists w w' w'', mrun (it_step junk dbl) ops (lst_init pol, ∅) = Ok (rs, w) /\
  each junk dbl n id [] (noting (LPushFront id) kids) w = Ok (l.*2, w') /\
  it_step junk dbl (IList (LIter id)) w' = Ok (RList (rev (l.*2 ≫= kids) ++ l.*2), w'').
Proof. exact @each_front. Qed.
Print Assumptions C97_front.

Example C97_push_case : forall dbl, exists rs s l, srun (is_step dbl) [IList (LNew 0); IList (LPushBack 0 4); IList (LPushBack 0 3); IList (LPushFront 0 9); IList (LPopFront 0)] ispec0 = SVal (rs, s) /\
  s_lists s !! 0 = Some l /\ l.*2 = [4; 3] /\ work (fun a => if Nat.ltb 1 a then [a - 1; a - 2] else []) 20 l.*2 = Some [4; 3; 3; 2; 2; 1; 2; 1; 1; 0; 1; 0; 1; 0].
Proof. intros []; do 3 eexists; (split; [vm_compute; reflexivity|]); (split; [vm_compute; reflexivity|]); split; vm_compute; reflexivity. Qed.

(** C97.  Removing the element the loop is at - popping it, clearing or destroying
    the list - is undefined: ++ follows the link of a node that is gone. *)
Theorem C97_gone : forall (A : Type) (junk : A) (dbl : bool) (pol : policy), sound pol -> grants pol ->
  forall (C : Type) ops rs (s : ispec (A := A)) id m x l o n (c c' : C), srun (is_step dbl) ops ispec0 = SVal (rs, s) -> s_lists s !! id = Some ((m, x) :: l) ->
  o = LPopFront id \/ o = LClear id \/ o = LDestroy id ->
  exists w, mrun (it_step junk dbl) ops (lst_init pol, ∅) = Ok (rs, w) /\
  each junk dbl (S n) id c (fun _ _ => Do (IList o) (fun _ => Done c')) w = UB.
Proof. exact @each_gone. Qed.
Print Assumptions C97_gone.

Example C97_gone_case : forall dbl, exists rs s l, srun (is_step dbl) [IList (LNew 0); IList (LPushBack 0 4); IList (LPushBack 0 3)] ispec0 = SVal (rs, s) /\
  s_lists s !! 0 = Some ((0, 4) :: l) /\ l = [(1, 3)].
Proof. intros []; do 3 eexists; (split; [vm_compute; reflexivity|]); split; vm_compute; reflexivity. Qed.
