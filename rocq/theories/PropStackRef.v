(** C106: pushing a reference to an element of a stack onto a stack. *)
From Verif Require Import Base VectorModel VectorSpec VecProg Hist StackModel XStackModel StackRefModel StackRefSpec StackRefProofs.

(** C106.  Stacks over vectors, after any calls: s.push( *it) does what pushing a copy of
    the element does, now and for whatever is called later, except that it is undefined
    when [it] is an iterator of the same stack and that stack's vector is full. *)
Theorem C106_stack : forall (A : Type) (triv : bool) (ops : list (gop A)) rs w id src i l cap u ucap a ops2,
  mrun (g_step triv) ops world_init = Ok (rs, w) ->
  view w !! id = Some (LVec l cap) -> view w !! src = Some (LVec u ucap) -> u !! i = Some a ->
  mrun (g_step triv) (ops ++ GPushRef id src i :: ops2) world_init =
  if Nat.eqb id src && Nat.ltb cap (length l + 1) then UB else mrun (g_step triv) (ops ++ GDo (KPush id a) :: ops2) world_init.
Proof. exact @plain_ref. Qed.
Print Assumptions C106_stack.

Definition C106_ops : list (gop nat) := [GDo (KNew 0); GDo (KPush 0 7); GDo (KPush 0 8); GDo (KPush 0 9)].
Example C106_stack_case : exists rs w, mrun (g_step true) C106_ops world_init = Ok (rs, w) /\ view w !! 0 = Some (LVec [7; 8; 9] 4).
Proof. do 2 eexists. split; vm_compute; reflexivity. Qed.
Example C106_stack_fits : exists w, mrun (g_step true) (C106_ops ++ [GPushRef 0 0 1; GDo (KTop 0); GDo (KIter 0)]) world_init = Ok ([RUnit; RUnit; RUnit; RUnit; RUnit; RVal 8; RList [7; 8; 9; 8]], w).
Proof. eexists. vm_compute. reflexivity. Qed.
Example C106_stack_full : mrun (g_step true) (C106_ops ++ [GPushRef 0 0 1; GPushRef 0 0 1]) world_init = UB.
Proof. vm_compute. reflexivity. Qed.

(** C106.  XValueStacks, which may put two elements onto the stack underneath: the same,
    except that it is undefined when their vector has no room for what push puts there. *)
Theorem C106_max_stack : forall (A : Type) (triv : bool) (cmp eqb : A -> A -> bool) (mvd : A -> A) (ops : list (fop A)) rs w xs id src i l cap u ucap a xv ops2,
  mrun (f_step triv cmp eqb mvd) ops (world_init, ∅) = Ok (rs, (w, xs)) ->
  view w !! id = Some (LVec l cap) -> view w !! src = Some (LVec u ucap) -> u !! i = Some a -> xs !! id = Some xv ->
  mrun (f_step triv cmp eqb mvd) (ops ++ FPushRef id src i :: ops2) (world_init, ∅) =
  if Nat.eqb id src && Nat.ltb cap (length l + needs cmp l a xv) then UB
  else mrun (f_step triv cmp eqb mvd) (ops ++ FDo (EPush id a) :: ops2) (world_init, ∅).
Proof. exact @max_ref. Qed.
Print Assumptions C106_max_stack.

(** With 99 for the uninitialised extreme value: pushing 5, 6 and 3 with less-than; then
    there is room for one more.  Pushing the saved 5 again takes one element. *)
Definition C106_fops : list (fop nat) := [FDo (ENew 0 99); FDo (EPush 0 5); FDo (EPush 0 6); FDo (EPush 0 3); FDo (EPush 0 4)].
Example C106_max_case : exists rs w xs, mrun (f_step true Nat.ltb Nat.eqb id) C106_fops (world_init, ∅) = Ok (rs, (w, xs)) /\
  view w !! 0 = Some (LVec [99; 5; 6; 5; 3; 4] 8) /\ xs !! 0 = Some 3.
Proof. do 3 eexists. split; [|split]; vm_compute; reflexivity. Qed.
Example C106_max_fits : exists w, mrun (f_step true Nat.ltb Nat.eqb id) (C106_fops ++ [FPushRef 0 0 3; FDo (ETop 0); FDo (EExt 0); FDo (EIter 0)]) (world_init, ∅) =
  Ok ([RUnit; RUnit; RUnit; RUnit; RUnit; RUnit; RVal 5; RVal 3; RList [99; 5; 6; 5; 3; 4; 5]], w).
Proof. eexists. vm_compute. reflexivity. Qed.
(** With 0 for it, the value at the bottom is a new extreme value, which takes two. *)
Example C106_max_full : mrun (f_step true Nat.ltb Nat.eqb id) [FDo (ENew 0 0); FDo (EPush 0 5); FDo (EPush 0 6); FPushRef 0 0 0] (world_init, ∅) = UB /\
  exists w, mrun (f_step true Nat.ltb Nat.eqb id) [FDo (ENew 0 0); FDo (EPush 0 5); FDo (EPush 0 6); FPushRef 0 0 1; FDo (EIter 0)] (world_init, ∅) = Ok ([RUnit; RUnit; RUnit; RUnit; RList [0; 5; 6; 5]], w).
Proof. split; [vm_compute; reflexivity|]. eexists. vm_compute. reflexivity. Qed.
