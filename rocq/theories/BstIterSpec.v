(** What BinarySearchTree iterators should do.  Every element that is pushed gets
    a number of its own and keeps it for life, whatever happens around it.  An
    iterator has an order in which it moves on, and is at an element, by number,
    or past the end. *)
From Verif Require Import Base VectorSpec TreeModel TreeSpec TreeWorld BstWorld BstSpec ListSpec ListIterSpec TreeIterSpec BstIterModel.

(** The same call with numbered elements, from [n] on, and how many there are. *)
Definition bop_num {A} (n : nat) (o : bop A) : bop (nat * A) :=
  match o with
  | BNew id => BNew id | BFrom id xs => BFrom id (number n xs) | BDestroy id => BDestroy id
  | BPush id x => BPush id (n, x) | BPop id x => BPop id (n, x) | BFind id x => BFind id (n, x) | BErase id x => BErase id (n, x)
  | BSize id => BSize id | BCapacity id => BCapacity id | BEmpty id => BEmpty id | BIter id o => BIter id o
  | BClear id => BClear id | BTraverse id o => BTraverse id o
  | BMoveNew id src => BMoveNew id src | BMoveAssign id src => BMoveAssign id src
  end.
Definition news {A} (o : bop A) : nat := match o with BFrom _ xs => length xs | BPush _ _ => 1 | _ => 0 end.

(** The elements without their numbers. *)
Fixpoint bmap {A B} (g : A -> B) (t : bt A) : bt B := match t with BE => BE | BN l x r => BN (bmap g l) (g x) (bmap g r) end.
Definition bstrip {A} (s : gmap nat (bt (nat * A))) : gmap nat (bt A) := bmap snd <$> s.

Section Spec.
Context {A : Type} (cmp : A -> A -> bool).
Notation tree := (bt (nat * A)).

(** The trees; the next number; the order and place of every iterator, None
    being past the end. *)
Record jspec := JSpec { j_trees : gmap nat tree; j_next : nat; j_its : gmap nat (ttype * option nat) }.
Definition jspec0 : jspec := JSpec ∅ 0 ∅.

(** A call on a tree does what [bs_step] says, with elements compared by value; a
    new element gets the next number. *)
Definition btrees_step (o : bop A) (s : jspec) : sres (tout A * jspec) :=
  match bs_step (by_val cmp) (bop_num (j_next s) o) (j_trees s) with
  | SVal (r, l) => SVal (tout_map snd r, JSpec l (j_next s + news o) (j_its s))
  | SAbort => SAbort
  | SUnspec => SUnspec
  end.

(** The elements in the order an iterator visits them.  Nothing is claimed of
    post-order iterators that are not past the end (C41). *)
Definition walk (o : ttype) (t : tree) : list (nat * A) :=
  match o with PreOrder => preorder t | InOrder => inorder t | PostOrder => [] end.
(** The tree with element [n], what [o] visits before it, its value, and what [o]
    visits after it. *)
Definition where_at (o : ttype) (n : nat) (s : gmap nat tree) := where_is n (walk o <$> s).

(** The place after [p]; the end stays the end.  Nothing is claimed of an
    iterator at an element that no longer exists. *)
Definition next_at (s : gmap nat tree) (p : ttype * option nat) : option (ttype * option nat) :=
  match p with
  | (o, None) => Some (o, None)
  | (o, Some n) => match where_at o n s with Some (_, (_, _, vs)) => Some (o, first_num vs) | None => None end
  end.
Definition valid_at (s : gmap nat tree) (p : ttype * option nat) : bool :=
  match snd p with
  | None => true
  | Some n => match where_at InOrder n s with Some _ => true | None => false end
  end.

Definition with_jt {X} (s : jspec) (k : nat) (f : ttype * option nat -> sres X) : sres X :=
  match j_its s !! k with Some p => f p | None => SUnspec end.
Definition put_jt (s : jspec) (k : nat) (p : ttype * option nat) : jspec := JSpec (j_trees s) (j_next s) (<[k := p]> (j_its s)).
Definition move_jt (s : jspec) (k : nat) (p : option (ttype * option nat)) : sres (tout A * jspec) :=
  match p with Some p => SVal (OUnit, put_jt s k p) | None => SUnspec end.

(** Left out: begin() of an empty tree other than in pre-order (C43), post-order
    iterators (C41), erasing at end(), at an iterator into another tree, and at
    an element with two children. *)
Definition js_step (o : jop A) (s : jspec) : sres (tout A * jspec) :=
  match o with
  | JTree o => btrees_step o s
  | JBegin k id o => with_bt (j_trees s) id (fun t =>
      match o, t with
      | PreOrder, _ | InOrder, BN _ _ _ => move_jt s k (Some (o, first_num (walk o t)))
      | _, _ => SUnspec
      end)
  | JEnd k id o => with_bt (j_trees s) id (fun _ => move_jt s k (Some (o, None)))
  | JFind k id x => with_bt (j_trees s) id (fun t =>
      move_jt s k (Some (InOrder, fst <$> List.find (fun p => equivb cmp x (snd p)) (inorder t))))
  | JErase k id j => with_jt s j (fun p => with_bt (j_trees s) id (fun t =>
      match p with
      | (o, Some n) =>
          match where_at o n (j_trees s) with
          | Some (i, (_, x, vs)) =>
              match Nat.eqb i id, bdel1 (by_val cmp) (n, x) t with
              | true, Some t' => SVal (OUnit, put_jt (JSpec (<[id := t']> (j_trees s)) (j_next s) (j_its s)) k (o, first_num vs))
              | _, _ => SUnspec
              end
          | None => SUnspec
          end
      | _ => SUnspec
      end))
  | JCopy k j => with_jt s j (fun p => move_jt s k (Some p))
  | JNext k => with_jt s k (fun p => move_jt s k (next_at (j_trees s) p))
  | JPostNext k j => with_jt s j (fun p =>
      match next_at (j_trees s) p with Some q => SVal (OUnit, put_jt (put_jt s j q) k p) | None => SUnspec end)
  | JRead k => with_jt s k (fun p =>
      match snd p with
      | Some n => match where_at InOrder n (j_trees s) with Some (_, (_, x, _)) => SVal (OOpt (Some x), s) | None => SUnspec end
      | None => SUnspec
      end)
  | JEq k j => with_jt s k (fun p => with_jt s j (fun q =>
      if valid_at (j_trees s) p && valid_at (j_trees s) q then SVal (OBool (bool_decide (snd p = snd q)), s) else SUnspec))
  | JNe k j => with_jt s k (fun p => with_jt s j (fun q =>
      if valid_at (j_trees s) p && valid_at (j_trees s) q then SVal (OBool (negb (bool_decide (snd p = snd q))), s) else SUnspec))
  end.

(** Steps that remove element [n], of value [x], from tree [id]; moving another
    tree into [id] does. *)
Definition jremoves (o : jop A) (s : jspec) (id n : nat) (x : A) : bool :=
  match o with
  | JTree (BDestroy i) | JTree (BClear i) => Nat.eqb i id
  | JTree (BPop i y) | JTree (BErase i y) => Nat.eqb i id && equivb cmp y x
  | JTree (BMoveAssign i src) => Nat.eqb i id && negb (Nat.eqb i src)
  | JErase _ _ j => match j_its s !! j with Some (_, Some m) => Nat.eqb m n | _ => false end
  | _ => false
  end.
(** The tree an element of tree [id] is in after a step: moving takes it along. *)
Definition home (o : jop A) (id : nat) : nat :=
  match o with
  | JTree (BMoveNew i src) | JTree (BMoveAssign i src) => if Nat.eqb src id then i else id
  | _ => id
  end.
(** The part of a tree below element [n]. *)
Fixpoint below_num (n : nat) (t : tree) : option tree :=
  match t with
  | BE => None
  | BN l (m, x) r =>
      if Nat.eqb m n then Some t
      else match below_num n l with Some u => Some u | None => below_num n r end
  end.
End Spec.
