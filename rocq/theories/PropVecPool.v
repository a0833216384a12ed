(** C67: vectors whose storage lies in the static memory pool. *)
From Verif Require Import Base VectorModel VectorSpec VecProg SMAModel SMASpec VecPoolModel VecPoolSpec VecPoolProofs.
Local Open Scope nat_scope.

(** A program over any number of vectors that share a pool, through the port or
    not, whatever it writes into the bytes of its storage: it crashes, or it
    behaves as the program over sequences; and then all storage lies in the pool,
    nothing overlaps, and the rest of the pool is free. *)
Theorem C67_pool : forall (A : Type) (triv : bool) (MEM MAX sz : Z) (port : bool) (bytes : pworld A -> list (Z * Z)),
  params MEM MAX -> (0 < sz)%Z -> forall (X : Type) (p : wprog A X), fits triv sz p ∅ ->
  pwrun triv MEM MAX sz port bytes p (pw_init MEM MAX) = Abort \/
  match lrun triv p ∅ with
  | Ok (r, s) => exists w, pwrun triv MEM MAX sz port bytes p (pw_init MEM MAX) = Ok (r, w) /\
      view (pw_w w) = s /\ storage_ok (pw_w w) /\ pool_ok MEM sz w
  | Abort => pwrun triv MEM MAX sz port bytes p (pw_init MEM MAX) = Abort
  | UB => True
  | Diverge => pwrun triv MEM MAX sz port bytes p (pw_init MEM MAX) = Diverge
  end.
Proof. exact @pool_programs. Qed.
Print Assumptions C67_pool.

(** A program that asks for no more than the pool in all its life does not crash
    for want of memory. *)
Theorem C67_enough : forall (A : Type) (triv : bool) (MEM MAX sz : Z) (port : bool) (bytes : pworld A -> list (Z * Z)),
  params MEM MAX -> (0 < sz)%Z -> forall (X : Type) (p : wprog A X), (spent triv sz p ∅ <= MEM)%Z ->
  match lrun triv p ∅ with
  | Ok (r, s) => exists w, pwrun triv MEM MAX sz port bytes p (pw_init MEM MAX) = Ok (r, w) /\
      view (pw_w w) = s /\ storage_ok (pw_w w) /\ pool_ok MEM sz w
  | Abort => pwrun triv MEM MAX sz port bytes p (pw_init MEM MAX) = Abort
  | UB => True
  | Diverge => pwrun triv MEM MAX sz port bytes p (pw_init MEM MAX) = Diverge
  end.
Proof. exact @pool_enough. Qed.
Print Assumptions C67_enough.

(** Non-trivial cases: a pool of 64 bytes, elements of 8 bytes, a program that
    fills all the storage it has with junk.  Two vectors and a copy ask for
    exactly 64 bytes and get them; one push more than the pool can bear crashes;
    and taking an element out crashes when the pool cannot give the smaller block. *)
Definition c67_bytes (s : pworld nat) : list (Z * Z) := map (fun i => (8 * Z.of_nat i, 1 + Z.of_nat i)%Z) (seq 0 8).
Definition c67_fits : wprog nat nat :=
  (wunit (ONew 0) ;;; wunit (OPush 0 1) ;;; wunit (OPush 0 2) ;;; wunit (ONew 1) ;;; wunit (OPush 1 5) ;;;
   wunit (OCopyNew 2 1) ;;; wunit (OClear 1) ;;; wunit (OCopyNew 3 0) ;;; a <- wget 3 1 ;; b <- wget 2 0 ;; WRet (a + b))%wprog.
Definition c67_over : wprog nat unit :=
  (c67_fits ;;; wunit (OPush 0 3) ;;; wunit (OPush 3 4) ;;; wunit (OPush 3 5) ;;; WRet tt)%wprog.
Definition c67_pop : wprog nat nat :=
  (wunit (ONew 0) ;;; wunit (OResize 0 6) ;;; wunit (OPush 0 1) ;;; wunit (OPush 0 2) ;;; n <- wsize 0 ;; wunit (OPop 0) ;;; WRet n)%wprog.
Example C67_case :
  params 64 16 /\ spent true 8 c67_fits ∅ = 64%Z /\ fits true 8 c67_over ∅ /\ fits true 8 c67_pop ∅ /\
  (exists s, lrun true c67_fits ∅ = Ok (7, s) /\ s !! 3 = Some (LVec [1; 2] 2)) /\
  (exists w, pwrun true 64 16 8 false c67_bytes c67_fits (pw_init 64 16) = Ok (7, w) /\
     pw_addr w !! 0 = Some 0%Z /\ m_free (pw_pool w) = 16%Z /\ m_mem (pw_pool w) !! 8%Z = Some (WRaw 2)) /\
  (exists s, lrun true c67_over ∅ = Ok (tt, s)) /\
  pwrun true 64 16 8 false c67_bytes c67_over (pw_init 64 16) = Abort /\
  pwrun true 64 16 8 true c67_bytes c67_over (pw_init 64 16) = Abort /\
  (exists s, lrun true c67_pop ∅ = Ok (2, s)) /\
  pwrun true 64 16 8 false c67_bytes c67_pop (pw_init 64 16) = Abort.
Proof.
  split; [unfold params; vm_compute; repeat split; congruence|]. split; [vm_compute; reflexivity|].
  split; [vm_compute; repeat split; congruence|]. split; [vm_compute; repeat split; congruence|].
  split; [eexists; split; vm_compute; reflexivity|].
  split; [eexists; split; [vm_compute; reflexivity|split_and!; vm_compute; reflexivity]|].
  split; [eexists; vm_compute; reflexivity|]. split; [vm_compute; reflexivity|]. split; [vm_compute; reflexivity|].
  split; [eexists; vm_compute; reflexivity|]. vm_compute; reflexivity.
Qed.
