(** What BinarySearchTree objects should do: textbook unbalanced search trees. *)
From Verif Require Import Base VectorSpec TreeModel TreeSpec TreeWorld BstWorld.

Inductive bt (A : Type) := BE | BN (l : bt A) (x : A) (r : bt A).
Arguments BE {A}.
Arguments BN {A} l x r.

Section Trees.
Context {A : Type} (cmp : A -> A -> bool).
Fixpoint inorder (t : bt A) : list A := match t with BE => [] | BN l x r => inorder l ++ x :: inorder r end.
Fixpoint preorder (t : bt A) : list A := match t with BE => [] | BN l x r => x :: preorder l ++ preorder r end.
(** Insertion of an absent key at a leaf. *)
Fixpoint bins (x : A) (t : bt A) : bt A :=
  match t with
  | BE => BN BE x BE
  | BN l v r => if cmp x v then BN (bins x l) v r else BN l v (bins x r)
  end.
(** Deletion of a key with at most one child; None for other keys. *)
Fixpoint bdel1 (x : A) (t : bt A) : option (bt A) :=
  match t with
  | BE => None
  | BN l v r =>
      if cmp x v then option_map (fun l' => BN l' v r) (bdel1 x l)
      else if cmp v x then option_map (fun r' => BN l v r') (bdel1 x r)
      else match l, r with BE, _ => Some r | _, BE => Some l | _, _ => None end
  end.
Fixpoint bins_all (xs : list A) (t : bt A) : option (bt A) :=
  match xs with
  | [] => Some t
  | x :: xs => match lookup_set cmp x (inorder t) with Some _ => None | None => bins_all xs (bins x t) end
  end.

Notation sw := (gmap nat (bt A)).
Definition with_bt {X} (s : sw) (id : nat) (k : bt A -> sres X) : sres X :=
  match s !! id with Some t => k t | None => SUnspec end.
Definition no_bt {X} (s : sw) (id : nat) (r : sres X) : sres X :=
  match s !! id with None => r | Some _ => SUnspec end.

(** The claim leaves out: pushing a present key, popping or erasing a key with
    two children (C46), popping an absent key from a non-empty tree (C44),
    dereferencing end() to erase it, iterating an empty tree other than in
    pre-order (C43), post-order iteration (C41) and traversals other than
    pre-order (C42). *)
Definition bs_step (o : bop A) (s : sw) : sres (tout A * sw) :=
  match o with
  | BNew id => no_bt s id (SVal (OUnit, <[id := BE]> s))
  | BFrom id xs => no_bt s id (match bins_all xs BE with Some t => SVal (OUnit, <[id := t]> s) | None => SUnspec end)
  | BDestroy id => with_bt s id (fun _ => SVal (OUnit, delete id s))
  | BPush id x => with_bt s id (fun t =>
      match lookup_set cmp x (inorder t) with Some _ => SUnspec | None => SVal (OUnit, <[id := bins x t]> s) end)
  | BPop id x => with_bt s id (fun t =>
      match t with
      | BE => SVal (OUnit, s)
      | _ => match bdel1 x t with Some t' => SVal (OUnit, <[id := t']> s) | None => SUnspec end
      end)
  | BFind id x => with_bt s id (fun t => SVal (OOpt (lookup_set cmp x (inorder t)), s))
  | BErase id x => with_bt s id (fun t =>
      match bdel1 x t with Some t' => SVal (OOpt (next_set cmp x (inorder t)), <[id := t']> s) | None => SUnspec end)
  | BSize id | BCapacity id => with_bt s id (fun t => SVal (OZ (Z.of_nat (length (inorder t))), s))
  | BEmpty id => with_bt s id (fun t => SVal (OBool (match t with BE => true | _ => false end), s))
  | BIter id o => with_bt s id (fun t =>
      match o, t with
      | PreOrder, _ => SVal (OList (preorder t), s)
      | InOrder, BN _ _ _ => SVal (OList (inorder t), s)
      | _, _ => SUnspec
      end)
  | BClear id => with_bt s id (fun _ => SVal (OUnit, <[id := BE]> s))
  | BTraverse id o => with_bt s id (fun t => match o with PreOrder => SVal (OList (preorder t), s) | _ => SUnspec end)
  | BMoveNew id src => no_bt s id (with_bt s src (fun t => SVal (OUnit, <[id := t]> (<[src := BE]> s))))
  | BMoveAssign id src => with_bt s id (fun _ => with_bt s src (fun t =>
      if Nat.eqb id src then SVal (OUnit, s) else SVal (OUnit, <[id := t]> (<[src := BE]> s))))
  end.
(** How many elements there are in all trees together. *)
Definition btotal (s : sw) : nat := length (map_to_list s ≫= fun p => inorder (snd p)).
End Trees.
