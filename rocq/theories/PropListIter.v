(** C70: list iterators keep their place. *)
From Verif Require Import Base Alloc VectorModel VectorSpec Adapter Hist ListModel ListSpec ListIterModel ListIterSpec ListIterProofs.

Theorem C70_history : forall (A : Type) (junk : A) (dbl : bool) (pol : policy) (ops : list (iop A)), sound pol -> grants pol ->
  match srun (is_step dbl) ops ispec0 with
  | SVal (rs, _) => exists w, mrun (it_step junk dbl) ops (lst_init pol, ∅) = Ok (rs, w)
  | SAbort => mrun (it_step junk dbl) ops (lst_init pol, ∅) = Abort
  | SUnspec => True
  end.
Proof. exact @iter_history. Qed.
Print Assumptions C70_history.

Theorem C70_unique : forall (A : Type) (dbl : bool) (ops : list (iop A)) rs s id us n x vs,
  srun (is_step dbl) ops ispec0 = SVal (rs, s) -> s_lists s !! id = Some (us ++ (n, x) :: vs) ->
  where_is n (s_lists s) = Some (id, (us, x, vs)).
Proof. exact @iter_unique. Qed.
Print Assumptions C70_unique.

Theorem C70_kept : forall (A : Type) (dbl : bool) (ops : list (iop A)) rs s id us n x vs o r s',
  srun (is_step dbl) ops ispec0 = SVal (rs, s) -> where_is n (s_lists s) = Some (id, (us, x, vs)) ->
  lists_step dbl o s = SVal (r, s') -> removes o id us vs = false ->
  exists us' vs', where_is n (s_lists s') = Some (goes_to o id, (us', x, vs')).
Proof. exact @iter_kept. Qed.
Print Assumptions C70_kept.

Theorem C70_lists : forall (A : Type) (dbl : bool) (o : lop A) (s : ispec),
  ls_step dbl o (strip (s_lists s)) =
  match lists_step dbl o s with SVal (r, s') => SVal (r, strip (s_lists s')) | SAbort => SAbort | SUnspec => SUnspec end.
Proof. exact @iter_lists. Qed.
Print Assumptions C70_lists.

(** An iterator at 20 while elements come and go on both sides and the list is moved. *)
Definition C70_ops : list (iop nat) :=
  [IList (LNew 0); IList (LPushBack 0 10); IList (LPushBack 0 20); IList (LPushBack 0 30); IBegin 7 0; INext 7;
   IList (LPushFront 0 5); IList (LPopFront 0); IList (LPopFront 0); IList (LMoveNew 1 0); IRead 7; IWrite 7 21;
   IList (LPushBack 1 40); IPostNext 8 7; IRead 8; IRead 7; INext 7; INext 7; IEnd 9 1; IEq 7 9; INe 8 9; IList (LIter 1)].
Definition C70_out : list (out nat) :=
  [RUnit; RUnit; RUnit; RUnit; RUnit; RUnit; RUnit; RUnit; RUnit; RUnit; RVal 20; RUnit;
   RUnit; RUnit; RVal 21; RVal 30; RUnit; RUnit; RUnit; RBool true; RBool true; RList [21; 30; 40]].
Example C70_case : forall dbl, exists s, srun (is_step dbl) C70_ops ispec0 = SVal (C70_out, s).
Proof. intros []; eexists; vm_compute; reflexivity. Qed.
Example C70_case_back : exists s, srun (is_step true) (C70_ops ++ [IPrev 9; IPostPrev 6 9; IRead 6; IRead 9]) ispec0 = SVal (C70_out ++ [RUnit; RUnit; RVal 40; RVal 30], s).
Proof. eexists. vm_compute. reflexivity. Qed.
Example C70_case_kept : exists rs s us vs, srun (is_step true) C70_ops ispec0 = SVal (rs, s) /\
  where_is 2 (s_lists s) = Some (1, (us, 30, vs)) /\ us <> [] /\ vs <> [] /\
  (exists r s', lists_step true (LPopFront 1) s = SVal (r, s')) /\ removes (LPopFront (A := nat) 1) 1 us vs = false /\ removes (LClear (A := nat) 1) 1 us vs = true.
Proof. do 4 eexists. split; [vm_compute; reflexivity|]. split; [vm_compute; reflexivity|]. repeat split; try discriminate. vm_compute. eauto. Qed.
(** Popping the element makes its iterator useless: it points nowhere or, if the
    address is used again, at another element. *)
Example C70_case_gone : srun (is_step true) [IList (LNew 0); IList (LPushBack 0 10); IBegin 7 0; IList (LPopBack 0); IRead 7] ispec0 = SUnspec /\
  mrun (it_step 0 true) [IList (LNew 0); IList (LPushBack 0 10); IBegin 7 0; IList (LPopBack 0); IRead 7] (lst_init bump, ∅) = UB /\
  exists w, mrun (it_step 0 true) [IList (LNew 0); IList (LPushBack 0 10); IBegin 7 0; IList (LPopBack 0); IList (LPushBack 0 20); IRead 7] (lst_init last_back, ∅) =
    Ok ([RUnit; RUnit; RUnit; RUnit; RUnit; RVal 20], w).
Proof. split; [vm_compute; reflexivity|]. split; [vm_compute; reflexivity|]. eexists. vm_compute. reflexivity. Qed.
