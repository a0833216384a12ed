(** C94: lists accept references to their own elements. *)
From Verif Require Import Base Alloc VectorModel VectorSpec Adapter Hist ListModel ListSpec ListIterModel ListIterSpec ListRefModel ListRefSpec ListRefProofs.

Theorem C94_history : forall (A : Type) (junk : A) (dbl : bool) (pol : policy) (ops : list (zop A)), sound pol -> grants pol ->
  match srun (zs_step dbl) ops ispec0 with
  | SVal (rs, _) => exists w, mrun (z_step junk dbl) ops (lst_init pol, ∅) = Ok (rs, w)
  | SAbort => mrun (z_step junk dbl) ops (lst_init pol, ∅) = Abort
  | SUnspec => True
  end.
Proof. exact @lref_history. Qed.
Print Assumptions C94_history.

Theorem C94_history_or : forall (A : Type) (junk : A) (dbl : bool) (pol : policy) (ops : list (zop A)), sound pol ->
  match srun (zs_step dbl) ops ispec0 with
  | SVal (rs, _) => (exists w, mrun (z_step junk dbl) ops (lst_init pol, ∅) = Ok (rs, w)) \/
      (mrun (z_step junk dbl) ops (lst_init pol, ∅) = Abort /\
       exists ops1 ops2 rs1 s1, ops = ops1 ++ ops2 /\ srun (zs_step dbl) ops1 ispec0 = SVal (rs1, s1) /\ refuses pol (elements_total (strip (s_lists s1))))
  | SAbort => mrun (z_step junk dbl) ops (lst_init pol, ∅) = Abort
  | SUnspec => True
  end.
Proof. exact @lref_history_or. Qed.
Print Assumptions C94_history_or.

Theorem C94_copy : forall (A : Type) (junk : A) (dbl : bool) (pol : policy) (ops : list (zop A)) rs s w o o', sound pol ->
  srun (zs_step dbl) ops ispec0 = SVal (rs, s) -> mrun (z_step junk dbl) ops (lst_init pol, ∅) = Ok (rs, w) ->
  with_copy o s = Some o' -> is_step dbl o' s <> SUnspec -> z_step junk dbl o w = z_step junk dbl (ZI o') w.
Proof. exact @lref_copy. Qed.
Print Assumptions C94_copy.

Theorem C94_own : forall (A : Type) (junk : A) (dbl : bool) (pol : policy) (ops : list (zop A)) rs s k n id us x vs, sound pol -> grants pol ->
  srun (zs_step dbl) ops ispec0 = SVal (rs, s) -> s_its s !! k = Some (At n) -> where_is n (s_lists s) = Some (id, (us, x, vs)) ->
  (exists w, mrun (z_step junk dbl) (ops ++ [ZPushBack id k; ZI (IList (LIter id))]) (lst_init pol, ∅) = Ok (rs ++ [RUnit; RList (us.*2 ++ x :: vs.*2 ++ [x])], w)) /\
  (exists w, mrun (z_step junk dbl) (ops ++ [ZPushFront id k; ZI (IList (LIter id))]) (lst_init pol, ∅) = Ok (rs ++ [RUnit; RList (x :: us.*2 ++ x :: vs.*2)], w)).
Proof. exact @lref_own. Qed.
Print Assumptions C94_own.

(** A list grows out of its own elements; a second list is made of one of them. *)
Definition C94_ops : list (zop nat) :=
  [ZI (IList (LNew 0)); ZI (IList (LPushBack 0 10)); ZI (IList (LPushBack 0 20)); ZI (IBegin 7 0); ZPushBack 0 7; ZI (INext 7); ZPushFront 0 7; ZPush 0 7; ZI (IWrite 7 21); ZPushBack 0 7;
   ZFill 1 3 7; ZI (IList (LIter 0)); ZI (IList (LIter 1)); ZI (IRead 7)].
Definition C94_out : list (out nat) :=
  [RUnit; RUnit; RUnit; RUnit; RUnit; RUnit; RUnit; RUnit; RUnit; RUnit; RUnit; RList [20; 20; 10; 21; 10; 21]; RList [21; 21; 21]; RVal 21].
Example C94_case : forall dbl, exists s, srun (zs_step dbl) C94_ops ispec0 = SVal (C94_out, s).
Proof. intros []; eexists; vm_compute; reflexivity. Qed.
Example C94_case_own : forall dbl, exists rs s us vs, srun (zs_step dbl) C94_ops ispec0 = SVal (rs, s) /\ s_its s !! 7 = Some (At 1) /\ where_is 1 (s_lists s) = Some (0, (us, 21, vs)) /\ us <> [] /\ vs <> [] /\
  with_copy (ZPushBack 0 7) s = Some (IList (LPushBack 0 21)) /\ is_step dbl (IList (LPushBack 0 21)) s <> SUnspec.
Proof. intros []; do 4 eexists; (split; [vm_compute; reflexivity|]); (split; [vm_compute; reflexivity|]); (split; [vm_compute; reflexivity|]); repeat split; first [discriminate|vm_compute; discriminate|idtac]; vm_compute; reflexivity. Qed.
(** With one node of memory left the first push succeeds and the second crashes. *)
Example C94_case_full : forall dbl,
  mrun (z_step 0 dbl) [ZI (IList (LNew 0)); ZI (IList (LPushBack 0 10)); ZI (IBegin 7 0); ZPushBack 0 7; ZPushBack 0 7] (lst_init (limit 2 bump), ∅) = Abort /\
  exists w, mrun (z_step 0 dbl) [ZI (IList (LNew 0)); ZI (IList (LPushBack 0 10)); ZI (IBegin 7 0); ZPushBack 0 7] (lst_init (limit 2 bump), ∅) = Ok ([RUnit; RUnit; RUnit; RUnit], w).
Proof. intros []; (split; [vm_compute; reflexivity|]); eexists; vm_compute; reflexivity. Qed.
