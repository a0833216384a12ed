(** C63: vectors, and everything built on them, when the allocator refuses requests. *)
From Verif Require Import Base VectorModel VectorSpec VecProg VecFailModel VecFailProofs.

(** Whatever requests are refused, a client program over any number of vectors
    either crashes or behaves exactly as the program over sequences with a
    capacity number: same results, same contents, same capacities, and its
    storage accounted for. *)
Theorem C63_out_of_memory : forall (A : Type) (triv : bool) (fail : nat -> bool) (X : Type) (p : wprog A X),
  fwrun triv fail p world_init = Abort \/
  match lrun triv p ∅ with
  | Ok (x, s') => exists w', fwrun triv fail p world_init = Ok (x, w') /\ view w' = s' /\ storage_ok w'
  | Abort => fwrun triv fail p world_init = Abort
  | UB => fwrun triv fail p world_init = UB
  | Diverge => fwrun triv fail p world_init = Diverge
  end.
Proof. exact @out_of_memory. Qed.
Print Assumptions C63_out_of_memory.

(** It only crashes for want of memory if one of the requests it makes is refused. *)
Theorem C63_crash_means_refused :
  forall (A : Type) (triv : bool) (fail : nat -> bool) (X : Type) (p : wprog A X) x w,
  wrun triv p world_init = Ok (x, w) ->
  fwrun triv fail p world_init = Ok (x, w) \/
  exists n, n < m_next (w_mem w) /\ fail n = true.
Proof. exact @crash_means_refused. Qed.
Print Assumptions C63_crash_means_refused.

(** An allocator that refuses nothing is the allocator of VectorModel.v. *)
Theorem C63_never_refused :
  forall (A : Type) (triv : bool) (fail : nat -> bool), (forall n, fail n = false) ->
  forall (X : Type) (p : wprog A X) w, fwrun triv fail p w = wrun triv p w.
Proof. exact @never_refused. Qed.
Print Assumptions C63_never_refused.

(** Non-trivial cases: a reserve that is refused goes unnoticed (the vector is
    empty and claims a capacity of 5) until the next push crashes; and taking an
    element out can crash, because pop_back asks for a smaller block. *)
Definition c63_reserve : wprog nat (nat * nat) :=
  (wunit (ONew 0) ;;; wunit (OResize 0 5) ;;; n <- wsize 0 ;; c <- wcap 0 ;; WRet (n, c))%wprog.
Definition c63_push : wprog nat unit := (c63_reserve ;;; wunit (OPush 0 7))%wprog.
Definition c63_five : wprog nat unit :=
  (wunit (ONew 0) ;;; wunit (OPush 0 1) ;;; wunit (OPush 0 2) ;;; wunit (OPush 0 3) ;;;
   wunit (OPush 0 4) ;;; wunit (OPush 0 5) ;;; wunit (OPop 0) ;;; wunit (OPop 0) ;;; wunit (OPop 0))%wprog.
Definition c63_pop : wprog nat unit := (c63_five ;;; wunit (OPop 0))%wprog.
Example C63_case :
  (exists w v, fwrun true (fun _ => true) c63_reserve world_init = Ok ((0, 5), w) /\
     w_objs w !! 0 = Some v /\ v_ptr v = None) /\
  fwrun true (fun _ => true) c63_push world_init = Abort /\
  (exists s, lrun true c63_push ∅ = Ok (tt, s) /\ s !! 0 = Some (LVec [7] 5)) /\
  (exists w, fwrun true (fun n => Nat.eqb n 3) c63_five world_init = Ok (tt, w)) /\
  fwrun true (fun n => Nat.eqb n 3) c63_pop world_init = Abort /\
  (exists w, wrun true c63_pop world_init = Ok (tt, w) /\ m_next (w_mem w) = 4).
Proof.
  split; [do 2 eexists; split; [vm_compute; reflexivity|split; vm_compute; reflexivity]|].
  split; [vm_compute; reflexivity|].
  split; [eexists; split; vm_compute; reflexivity|].
  split; [eexists; vm_compute; reflexivity|].
  split; [vm_compute; reflexivity|].
  eexists. split; vm_compute; reflexivity.
Qed.
