(** C95: a list lets go of the elements it no longer has. *)
From Verif Require Import Base Alloc VectorModel VectorSpec Adapter Hist ListModel ListSpec ListIterModel ListIterSpec ListHeldSpec ListHeldProofs.

Theorem C95_history : forall (A : Type) (junk : A) (dbl : bool) (pol : policy) (ops : list (iop A)), sound pol -> grants pol ->
  match srun (hs_step junk dbl) ops hspec0 with
  | SVal (rs, _) => exists w, mrun (it_step junk dbl) ops (lst_init pol, ∅) = Ok (rs, w)
  | SAbort => mrun (it_step junk dbl) ops (lst_init pol, ∅) = Abort
  | SUnspec => True
  end.
Proof. exact @held_history. Qed.
Print Assumptions C95_history.

Theorem C95_history_or : forall (A : Type) (junk : A) (dbl : bool) (pol : policy) (ops : list (iop A)), sound pol ->
  match srun (hs_step junk dbl) ops hspec0 with
  | SVal (rs, _) => (exists w, mrun (it_step junk dbl) ops (lst_init pol, ∅) = Ok (rs, w)) \/
      (mrun (it_step junk dbl) ops (lst_init pol, ∅) = Abort /\
       exists ops1 ops2 rs1 s1, ops = ops1 ++ ops2 /\ srun (hs_step junk dbl) ops1 hspec0 = SVal (rs1, s1) /\ refuses pol (elements_total (strip (s_lists (fst s1)))))
  | SAbort => mrun (it_step junk dbl) ops (lst_init pol, ∅) = Abort
  | SUnspec => True
  end.
Proof. exact @held_history_or. Qed.
Print Assumptions C95_history_or.

Theorem C95_one : forall (A : Type) (junk : A) (dbl : bool) (ops : list (iop A)) rs s h id,
  srun (hs_step junk dbl) ops hspec0 = SVal (rs, (s, h)) -> (is_Some (h !! id) <-> is_Some (s_lists s !! id)).
Proof. exact @held_one. Qed.
Print Assumptions C95_one.

Theorem C95_popped_refuted : forall (A : Type) (junk : A) (dbl : bool) (pol : policy) (ops : list (iop A)) rs s h id k x, sound pol -> grants pol ->
  srun (hs_step junk dbl) ops hspec0 = SVal (rs, (s, h)) -> is_Some (s_lists s !! id) ->
  exists w, mrun (it_step junk dbl) (ops ++ [IList (LPushFront id x); IList (LPopFront id); IEnd k id; IRead k]) (lst_init pol, ∅) = Ok (rs ++ [RUnit; RUnit; RUnit; RVal x], w).
Proof. exact @held_popped. Qed.
Print Assumptions C95_popped_refuted.

Theorem C95_moved_refuted : forall (A : Type) (junk : A) (dbl : bool) (pol : policy) (ops : list (iop A)) rs s h id src k x xs, sound pol -> grants pol ->
  srun (hs_step junk dbl) ops hspec0 = SVal (rs, (s, h)) -> s_lists s !! id = None -> s_lists s !! src = Some xs ->
  exists w, mrun (it_step junk dbl) (ops ++ [IList (LPushBack src x); IList (LMoveNew id src); IList (LClear id); IEnd k id; IRead k; IEnd k src; IRead k]) (lst_init pol, ∅) = Ok (rs ++ [RUnit; RUnit; RUnit; RUnit; RVal x; RUnit; RVal x], w).
Proof. exact @held_moved. Qed.
Print Assumptions C95_moved_refuted.

(** What *end() reads as elements come and go: T() is 99. *)
Definition C95_ops : list (iop nat) :=
  [IList (LNew 0); IEnd 7 0; IRead 7; IList (LPushBack 0 10); IRead 7; IList (LPushFront 0 20); IRead 7; IList (LPopBack 0); IList (LClear 0); IRead 7; IList (LSize 0);
   IWrite 7 30; IRead 7; IList (LFill 1 0 5); IEnd 8 1; IRead 8; IList (LFill 2 3 5); IList (LMoveAssign 1 2); IRead 8; IEnd 9 2; IRead 9; IList (LIter 1); IList (LDestroy 2)].
Definition C95_out : list (out nat) :=
  [RUnit; RUnit; RVal 99; RUnit; RVal 10; RUnit; RVal 20; RUnit; RUnit; RVal 20; RNat 0;
   RUnit; RVal 30; RUnit; RUnit; RVal 99; RUnit; RUnit; RVal 5; RUnit; RVal 5; RList [5; 5; 5]; RUnit].
Example C95_case : forall dbl, exists s, srun (hs_step 99 dbl) C95_ops hspec0 = SVal (C95_out, s).
Proof. intros []; eexists; vm_compute; reflexivity. Qed.
Example C95_case_copy : exists s, srun (hs_step 99 true) (C95_ops ++ [IList (LCopyNew 5 1); IEnd 6 5; IRead 6; IList (LAssign 0 1); IRead 7; IList (LPushBack 1 8); IList (LAssign 0 1); IRead 7]) hspec0 =
  SVal (C95_out ++ [RUnit; RUnit; RVal 5; RUnit; RVal 5; RUnit; RUnit; RVal 8], s).
Proof. eexists. vm_compute. reflexivity. Qed.
Example C95_case_hyps : forall dbl, exists rs s h, srun (hs_step 99 dbl) C95_ops hspec0 = SVal (rs, (s, h)) /\ is_Some (s_lists s !! 1) /\ s_lists s !! 2 = None /\ h !! 1 = Some 5 /\ h !! 2 = None.
Proof. intros []; do 3 eexists; (split; [vm_compute; reflexivity|]); repeat split; eauto. Qed.
