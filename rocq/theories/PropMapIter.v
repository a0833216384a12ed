(** C84: references and iterators into maps keep their entry. *)
From Verif Require Import Base Alloc AllocProofs VectorModel VectorSpec Adapter Hist TreeModel TreeSpec TreeWorld TreeWSpec ListIterSpec TreeIterModel TreeIterSpec MapIterModel MapIterSpec MapIterProofs PropTreeIter.
Local Open Scope nat_scope.

(** C84.  Any history of map calls, references taken with m[key], reads and
    assignments through them and iterator operations goes as the specification says. *)
Theorem C84_history : forall (K V : Type) (lt : K -> K -> bool) (dflt : V), swo lt -> forall pol, sound pol -> grants pol -> forall ops : list (nop K V),
  match srun (ns_step lt dflt) ops kspec0 with
  | SVal (rs, _) => exists w, mrun (n_step lt dflt) ops (tw_init pol, ∅) = Ok (rs, w)
  | SAbort => mrun (n_step lt dflt) ops (tw_init pol, ∅) = Abort
  | SUnspec => True
  end.
Proof. exact @n_history. Qed.
Print Assumptions C84_history.

(** With an allocator that may refuse, it does so or stops at a refused request. *)
Theorem C84_limited : forall (K V : Type) (lt : K -> K -> bool) (dflt : V), swo lt -> forall pol, sound pol -> forall ops : list (nop K V),
  match srun (ns_step lt dflt) ops kspec0 with
  | SVal (rs, _) => (exists w, mrun (n_step lt dflt) ops (tw_init pol, ∅) = Ok (rs, w)) \/
      (mrun (n_step lt dflt) ops (tw_init pol, ∅) = Abort /\
       exists ops1 ops2 rs1 s1, ops = ops1 ++ ops2 /\ srun (ns_step lt dflt) ops1 kspec0 = SVal (rs1, s1) /\ refuses pol (total (strip (k_sets s1))))
  | SAbort => mrun (n_step lt dflt) ops (tw_init pol, ∅) = Abort
  | SUnspec => True
  end.
Proof. exact @n_history_or. Qed.
Print Assumptions C84_limited.

(** In the specification an entry keeps its number, by which references and
    iterators know it, and its key until a step removes it; its value is the one
    assigned last. *)
Theorem C84_kept : forall (K V : Type) (lt : K -> K -> bool) (dflt : V), swo lt -> forall ops rs (s : kspec) id us n (key : K) (v : V) vs o r s',
  srun (ns_step lt dflt) ops kspec0 = SVal (rs, s) -> where_is n (k_sets s) = Some (id, (us, (key, v), vs)) ->
  ns_step lt dflt o s = SVal (r, s') -> nremoves lt o id key = false ->
  exists us' vs', where_is n (k_sets s') = Some (id, (us', (key, match nassigned lt o s id n key with Some v' => v' | None => v end), vs')).
Proof. exact @n_kept. Qed.
Print Assumptions C84_kept.

(** Without the numbers the calls are those of finite maps (C49). *)
Theorem C84_maps : forall (K V : Type) (lt : K -> K -> bool) (dflt : V), swo lt -> forall (ops : list (nop K V)) rs (s : kspec) o,
  srun (ns_step lt dflt) ops kspec0 = SVal (rs, s) ->
  ms_step lt dflt o (strip (k_sets s)) =
  match ns_step lt dflt (NMap o) s with SVal (r, s') => SVal (r, strip (k_sets s')) | SAbort => SAbort | SUnspec => SUnspec end.
Proof. exact @n_maps. Qed.
Print Assumptions C84_maps.

(** A reference to m[4], the root to begin with, and an iterator there, while pushes
    and m[key] rotate the tree and nodes with two children are popped. *)
Definition C84_ops : list (nop nat nat) :=
  [NMap (MNew 0); NRef 7 0 4; NGet 7; NPut 7 21; NMap (MPush 0 2 12); NMap (MSet 0 6 16); NFind 8 0 4;
   NMap (MPush 0 7 17); NMap (MPush 0 8 18); NMap (MGet 0 9); NMap (MPush 0 1 11); NMap (MPush 0 3 13);
   NMap (MPop 0 2); NMap (MPop 0 7); NMap (MPop 0 6); NGet 7; NPut 7 23; NRead 8; NMap (MGet 0 4); NMap (MSet 0 4 22); NGet 7;
   NRef 6 0 4; NEq 6 7; NNext 8; NRead 8; NMap (MIter 0)].
Definition C84_out : list (mout (K := nat) (V := nat)) :=
  [MUnit; MUnit; MVal 0; MUnit; MUnit; MUnit; MUnit; MUnit; MUnit; MVal 0; MUnit; MUnit; MUnit; MUnit; MUnit; MVal 21; MUnit; MOpt (Some (4, 23)); MVal 23; MUnit; MVal 22;
   MUnit; MBool true; MUnit; MOpt (Some (8, 18)); MList [(1, 11); (3, 13); (4, 22); (8, 18); (9, 0)]].
Example C84_case : (exists s, srun (ns_step Nat.ltb 0) C84_ops kspec0 = SVal (C84_out, s)) /\ exists w, mrun (n_step Nat.ltb 0) C84_ops (tw_init bump, ∅) = Ok (C84_out, w).
Proof. split; [eexists; vm_compute; reflexivity|apply ran; vm_compute; reflexivity]. Qed.
Example C84_case_limited : sound (limit 3 bump) /\ mrun (n_step Nat.ltb 0) C84_ops (tw_init (limit 3 bump), ∅) = Abort.
Proof. split; [apply limit_sound, bump_sound|vm_compute; reflexivity]. Qed.
Example C84_case_kept : exists rs s us vs, swo Nat.ltb /\ srun (ns_step Nat.ltb 0) C84_ops kspec0 = SVal (rs, s) /\
  where_is 0 (k_sets s) = Some (0, (us, (4, 22), vs)) /\ us <> [] /\ vs <> [] /\
  (exists r s', ns_step Nat.ltb 0 (NPut 7 5) s = SVal (r, s')) /\ nassigned Nat.ltb (NPut 7 5) s 0 0 4 = Some 5 /\
  nassigned Nat.ltb (NMap (MSet 0 4 6)) s 0 0 4 = Some 6 /\ nassigned Nat.ltb (NMap (MSet 0 8 6)) s 0 0 4 = None /\
  nremoves Nat.ltb (NMap (MPop 0 8) : nop nat nat) 0 4 = false /\ nremoves Nat.ltb (NMap (MPop 0 4) : nop nat nat) 0 4 = true.
Proof.
  do 4 eexists. split; [exact C71_order|]. split; [vm_compute; reflexivity|]. split; [vm_compute; reflexivity|].
  split; [discriminate|]. split; [discriminate|]. split; [do 2 eexists; vm_compute; reflexivity|]. repeat split; reflexivity.
Qed.
(** After the entry is gone the reference dangles: nothing is claimed, and the model
    has undefined behaviour. *)
Example C84_case_gone : let ops := [NMap (MNew 0); NRef 7 0 4; NMap (MPop 0 4); NGet 7] in
  srun (ns_step Nat.ltb 0) ops kspec0 = SUnspec /\ mrun (n_step Nat.ltb 0) ops (tw_init bump, ∅) = UB.
Proof. split; vm_compute; reflexivity. Qed.
