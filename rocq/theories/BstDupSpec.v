(** What BinarySearchTree objects do when keys are pushed again: the keys stay
    as they are, and size() counts the push. *)
From Verif Require Import Base VectorSpec TreeModel TreeSpec TreeWorld BstWorld BstSpec.

Section Dup.
Context {A : Type} (cmp : A -> A -> bool).
(** A tree and how many pushes since it was last empty-handed found their key. *)
Notation dt := (bt A * nat)%type.
Notation sw := (gmap nat dt).
Definition dpush (x : A) (d : dt) : dt :=
  match lookup_set cmp x (inorder (fst d)) with Some _ => (fst d, S (snd d)) | None => (bins cmp x (fst d), snd d) end.
Definition counted (d : dt) : nat := length (inorder (fst d)) + snd d.
Definition with_dt {X} (s : sw) (id : nat) (k : dt -> sres X) : sres X :=
  match s !! id with Some t => k t | None => SUnspec end.
Definition no_dt {X} (s : sw) (id : nat) (r : sres X) : sres X :=
  match s !! id with None => r | Some _ => SUnspec end.

(** The claim leaves out: removing a key with two children (C46), removing an
    absent key while size() is not 0 (C44), dereferencing end() to erase it,
    iterating a tree without elements other than in pre-order (C43), post-order
    iteration (C41) and traversals other than pre-order (C42). *)
Definition bd_step (o : bop A) (s : sw) : sres (tout A * sw) :=
  match o with
  | BNew id => no_dt s id (SVal (OUnit, <[id := (BE, 0)]> s))
  | BFrom id xs => no_dt s id (SVal (OUnit, <[id := fold_left (fun d x => dpush x d) xs (BE, 0)]> s))
  | BDestroy id => with_dt s id (fun _ => SVal (OUnit, delete id s))
  | BPush id x => with_dt s id (fun d => SVal (OUnit, <[id := dpush x d]> s))
  | BPop id x => with_dt s id (fun d =>
      if Nat.eqb (counted d) 0 then SVal (OUnit, s)
      else match bdel1 cmp x (fst d) with Some t' => SVal (OUnit, <[id := (t', snd d)]> s) | None => SUnspec end)
  | BFind id x => with_dt s id (fun d => SVal (OOpt (lookup_set cmp x (inorder (fst d))), s))
  | BErase id x => with_dt s id (fun d =>
      match bdel1 cmp x (fst d) with
      | Some t' => SVal (OOpt (next_set cmp x (inorder (fst d))), <[id := (t', snd d)]> s)
      | None => SUnspec end)
  | BSize id | BCapacity id => with_dt s id (fun d => SVal (OZ (Z.of_nat (counted d)), s))
  | BEmpty id => with_dt s id (fun d => SVal (OBool (Nat.eqb (counted d) 0), s))
  | BIter id o => with_dt s id (fun d =>
      match o, fst d with
      | PreOrder, _ => SVal (OList (preorder (fst d)), s)
      | InOrder, BN _ _ _ => SVal (OList (inorder (fst d)), s)
      | _, _ => SUnspec
      end)
  | BClear id => with_dt s id (fun _ => SVal (OUnit, <[id := (BE, 0)]> s))
  | BTraverse id o => with_dt s id (fun d => match o with PreOrder => SVal (OList (preorder (fst d)), s) | _ => SUnspec end)
  | BMoveNew id src => no_dt s id (with_dt s src (fun d => SVal (OUnit, <[id := d]> (<[src := (BE, 0)]> s))))
  | BMoveAssign id src => with_dt s id (fun _ => with_dt s src (fun d =>
      if Nat.eqb id src then SVal (OUnit, s) else SVal (OUnit, <[id := d]> (<[src := (BE, 0)]> s))))
  end.
(** How many elements there are in all trees together. *)
Definition dtotal (s : sw) : nat := btotal (fst <$> s).
End Dup.
