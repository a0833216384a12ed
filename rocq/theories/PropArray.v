(** Property C09 (Array). *)
From Verif Require Import Base VectorModel VectorSpec Adapter ArrayModel ArraySpec ArrayProofs.

(** C09.  For every N, every element type and every history over any number of
    arrays: construction fills all N elements, index i and index i - N designate
    the same element, a write changes that element only, copies copy all N
    elements, iteration visits them in order. *)
Theorem C09_array_history : forall (A : Type) (N : nat) (junk : A) (mvd : A -> A) (ops : list (aop A)),
  match srun (a_step N junk mvd) ops ∅ with
  | SVal (rs, s) => exists w, ar_run N junk mvd ops ∅ = Ok (rs, w)
  | SAbort => ar_run N junk mvd ops ∅ = Abort
  | SUnspec => True
  end.
Proof. exact @array_history. Qed.
Print Assumptions C09_array_history.

Example C09_case : exists s, srun (a_step 3 99%Z (fun x => x))
  [AFill 0 7; ASet 0 (-1) 5; AGet 0 2; AIter 0; ACopyNew 1 0; ASet 1 0 1; AIter 0; AIter 1; AAssign 0 1; AAssign 0 0; AIter 0; ABack 0; AFront 0; ASize 0]%Z ∅
  = SVal ([RUnit; RUnit; RVal 5; RList [7; 7; 5]; RUnit; RUnit; RList [7; 7; 5]; RList [1; 7; 5]; RUnit; RUnit; RList [1; 7; 5]; RVal 5; RVal 1; RNat 3]%Z, s).
Proof. eexists. vm_compute. reflexivity. Qed.
