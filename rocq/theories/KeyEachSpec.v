(** What client programs over maps and binary search trees should do: what the
    specifications of the calls say, call by call. *)
From Verif Require Import Base VectorSpec Adapter TreeModel TreeSpec TreeWorld TreeWSpec BstWorld BstSpec TreeIterModel TreeIterSpec MapIterModel MapIterSpec BstIterModel BstIterSpec KeyEachModel.
Local Open Scope nat_scope.

(** What becomes of a program: it ends; a loop wants more rounds than it was given; an
    assertion fails; nothing is claimed. *)
Inductive gres (X : Type) := GEnd (x : X) | GMore | GAbort | GUnspec.
Arguments GEnd {X} x.
Arguments GMore {X}.
Arguments GAbort {X}.
Arguments GUnspec {X}.
Fixpoint pspec {S O P C} (step : O -> S -> sres (P * S)) (p : prog O P C) (s : S) : gres (C * S) :=
  match p with
  | Done c => GEnd (c, s)
  | More => GMore
  | Do o k => match step o s with SVal (r, s) => pspec step (k r) s | SAbort => GAbort | SUnspec => GUnspec end
  end.

Section Maps.
Context {K V : Type}.
Notation mprog := (prog (nop K V) (mout (K := K) (V := V)) (list (K * V))).
(** Looking at the entry through the callback's parameter. *)
Definition entry (x : nat) (seen : list (K * V)) (k : K * V -> mprog) : mprog :=
  Do (NRead x) (fun r => match r with MOpt (Some kv) => k kv | _ => Done seen end).
(** Noting the entries, and giving each a new value. *)
Definition updating (x : nat) (f : K -> V -> V) (seen : list (K * V)) : mprog :=
  entry x seen (fun kv => Do (NPut x (f (fst kv) (snd kv))) (fun _ => Done (seen ++ [kv]))).
(** Noting the entries, and removing the one before. *)
Definition dropping (x id : nat) (seen : list (K * V)) : mprog :=
  entry x seen (fun kv => match last seen with None => Done (seen ++ [kv]) | Some p => Do (NMap (MPop id (fst p))) (fun _ => Done (seen ++ [kv])) end).
(** Removing the entry at hand. *)
Definition popping (x id : nat) (seen : list (K * V)) : mprog :=
  entry x seen (fun kv => Do (NMap (MPop id (fst kv))) (fun _ => Done (seen ++ [kv]))).
(** Noting the entries, and assigning into another map for each. *)
Definition filling (x dst : nat) (g : K * V -> K * V) (seen : list (K * V)) : mprog :=
  entry x seen (fun kv => Do (NMap (MSet dst (fst (g kv)) (snd (g kv)))) (fun _ => Done (seen ++ [kv]))).
End Maps.

Section Trees.
Context {A : Type}.
Notation bprog := (prog (jop A) (tout A) (list A)).
(** Noting the elements, and pushing each onto another tree. *)
Definition cloning (x dst : nat) (seen : list A) : bprog :=
  Do (JRead x) (fun r => match r with OOpt (Some a) => Do (JTree (BPush dst a)) (fun _ => Done (seen ++ [a])) | _ => Done seen end).
End Trees.
