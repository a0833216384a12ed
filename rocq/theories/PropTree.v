(** Properties C36-C45 and C47-C49 for AVLTree, BinaryTree and Map
    (BinarySearchTree: PropBst.v). *)
From Verif Require Import Base Alloc AllocProofs VectorModel VectorSpec Adapter Hist TreeModel TreeSpec TreeBase TreeZip TreeIter TreeWorld TreeWSpec TreeHist TreeRefute MapHist TreePush TreeTop.

Local Open Scope nat_scope.

(** The order used in the examples. *)
Example nat_order : swo Nat.ltb.
Proof.
  split; intros; repeat match goal with H : Nat.ltb _ _ = true |- _ => apply Nat.ltb_lt in H end.
  - apply Nat.ltb_ge. lia.
  - rewrite !Nat.ltb_lt. lia.
Qed.

(** C36.  Pushing any pairwise inequivalent keys into a fresh tree. *)
Theorem C36_push_all : forall (A : Type) (cmp : A -> A -> bool), swo cmp -> forall (pol : policy), sound pol -> grants pol -> forall xs : list A,
  ForallOrdPairs (fun a b => ~ equiv cmp a b) xs -> exists w t,
  mrun (t_step cmp) (TNew 0 :: map (TPush 0) xs) (tw_init pol) = Ok (OUnit :: repeat OUnit (length xs), w) /\
  linked (tw_heap w) None t /\ nd t /\ Permutation (elems t) xs /\ ascending cmp (elems t) /\ heights_ok t /\ balanced t /\
  tw_objs w !! 0 = Some (rootp t, Z.of_nat (length xs)) /\ size (tw_heap w) = length xs /\
  t_step cmp (THeight 0) w = Ok (OZ (depth t), w) /\ t_step cmp (TSize 0) w = Ok (OZ (Z.of_nat (length xs)), w).
Proof. exact @push_all. Qed.
Print Assumptions C36_push_all.

Example C36_case : ForallOrdPairs (fun a b => ~ equiv Nat.ltb a b) [5; 3; 8; 1; 4; 9; 2].
Proof. repeat constructor; vm_compute; intros []; discriminate. Qed.

(** C36 and C37.  After every specified history of pushes, pops, erases, clears,
    ... over any number of trees: each object's root is a well-linked, ordered,
    balanced tree of exactly the expected keys with the right heights, size and
    height(); trees share no node and nothing else is allocated. *)
Theorem C37_shape : forall (A : Type) (cmp : A -> A -> bool), swo cmp -> forall (pol : policy), sound pol -> grants pol -> forall (ops : list (top A)) rs s,
  srun (ts_step cmp) ops ∅ = SVal (rs, s) -> exists w (T : gmap nat (atree A)),
  mrun (t_step cmp) ops (tw_init pol) = Ok (rs, w) /\ s = elems <$> T /\
  (forall id t, T !! id = Some t ->
     linked (tw_heap w) None t /\ nd t /\ ascending cmp (elems t) /\ heights_ok t /\ balanced t /\
     tw_objs w !! id = Some (rootp t, Z.of_nat (length (elems t))) /\ t_step cmp (THeight id) w = Ok (OZ (depth t), w)) /\
  (forall i j t r k, i <> j -> T !! i = Some t -> T !! j = Some r -> (cnt k t = 0 \/ cnt k r = 0)) /\
  (forall k, is_Some (tw_heap w !! k) <-> exists id t, T !! id = Some t /\ cnt k t = 1).
Proof. exact @t_shape. Qed.
Print Assumptions C37_shape.

(** C37, C39, C45.  Every history answers like the same history over ascending
    sets: pop of a present key, find, erase (from three elements on) with the
    successor it returns, sizes and iteration; pushing a present key asserts; as
    many nodes are allocated as there are elements. *)
Theorem C37_avl_history : forall (A : Type) (cmp : A -> A -> bool), swo cmp -> forall (pol : policy) (ops : list (top A)), sound pol -> grants pol ->
  match srun (ts_step cmp) ops ∅ with
  | SVal (rs, s) => exists w, mrun (t_step cmp) ops (tw_init pol) = Ok (rs, w) /\ size (tw_heap w) = total s
  | SAbort => mrun (t_step cmp) ops (tw_init pol) = Abort
  | SUnspec => True
  end.
Proof. exact @t_history. Qed.
Print Assumptions C37_avl_history.

Example C37_case : exists s, srun (ts_step Nat.ltb)
  [TNew 0; TPush 0 5; TPush 0 3; TPush 0 8; TPush 0 1; TPush 0 4; TPush 0 9; TIter 0; TPop 0 5; TFind 0 8; TFind 0 5; TErase 0 3; TErase 0 7; TIter 0; TSize 0;
   TNew 1; TPop 1 6; TPush 1 6; TPop 1 6; TEmpty 1; TCopyNew 2 1; TErase 0 9; TIter 0; TClear 0; TDestroy 2; TCapacity 0] ∅
  = SVal ([OUnit; OUnit; OUnit; OUnit; OUnit; OUnit; OUnit; OList [1; 3; 4; 5; 8; 9]; OUnit; OOpt (Some 8); OOpt None; OOpt (Some 4); OOpt None; OList [1; 4; 8; 9]; OZ 4;
   OUnit; OUnit; OUnit; OUnit; OBool true; OUnit; OOpt None; OList [1; 4; 8]; OUnit; OUnit; OZ 0], s) /\ total s = 0.
Proof. eexists. split; [vm_compute; reflexivity|]. vm_compute. reflexivity. Qed.
Example C37_case_abort : srun (ts_step Nat.ltb) [TNew 0; TPush 0 5; TPush 0 3; TPush 0 5] ∅ = SAbort.
Proof. vm_compute. reflexivity. Qed.

(** C38.  height() = n needs at least fib(n+2) - 1 keys. *)
Theorem C38_height : forall (A : Type) (cmp : A -> A -> bool), swo cmp -> forall (pol : policy), sound pol -> grants pol -> forall (ops : list (top A)) rs s id l,
  srun (ts_step cmp) ops ∅ = SVal (rs, s) -> s !! id = Some l -> exists n w,
  mrun (t_step cmp) (ops ++ [THeight id]) (tw_init pol) = Ok (rs ++ [OZ (Z.of_nat n)], w) /\
  fib (n + 2) <= length l + 1 /\ 2 ^ n <= (length l + 1) * (length l + 1).
Proof. exact @t_height. Qed.
Print Assumptions C38_height.

Example C38_case : exists rs s, srun (ts_step Nat.ltb) [TNew 0; TPush 0 5; TPush 0 3; TPush 0 8; TPush 0 9] ∅ = SVal (rs, s) /\ s !! 0 = Some [3; 5; 8; 9].
Proof. do 2 eexists. split; [vm_compute; reflexivity|]. vm_compute. reflexivity. Qed.
Example C38_tight : fib (3 + 2) = length [3; 5; 8; 9] + 1.
Proof. reflexivity. Qed.

(** C39 (AVLTree and BinarySearchTree share BinaryTree's find).  On every
    well-linked ordered tree find gives the node of the equivalent element, or
    end(). *)
Theorem C39_find : forall (A : Type) (cmp : A -> A -> bool) (t : atree A) h f z x,
  swo cmp -> nd t -> linked h None t -> ascending cmp (elems t) ->
  match lookup_set cmp x (elems t) with
  | None => bt_find cmp x (TSt h f (rootp t) z) = Ok (None, TSt h f (rootp t) z)
  | Some v => exists a n, bt_find cmp x (TSt h f (rootp t) z) = Ok (Some a, TSt h f (rootp t) z) /\ cnt a t = 1 /\ h !! a = Some n /\ n_val n = v
  end.
Proof. exact @top_find. Qed.
Print Assumptions C39_find.

(** The stored tree used in the examples: 5 above 3 and 8. *)
Definition ex_heap : gmap nat (node nat) :=
  {[10 := Nd None (Some 11) (Some 12) 2%Z 5; 11 := Nd (Some 10) None None 1%Z 3; 12 := Nd (Some 10) None None 1%Z 8]}.
Definition ex_tree : atree nat := Br (Br Lf 11 1%Z 3 Lf) 10 2%Z 5 (Br Lf 12 1%Z 8 Lf).
Example ex_nd : nd ex_tree.
Proof. intros k. cbn. unfold one. repeat destruct (Nat.eq_dec _ _); lia. Qed.
Example ex_linked : linked ex_heap None ex_tree /\ ascending Nat.ltb (elems ex_tree) /\ ex_tree <> Lf /\ NoDup (elems ex_tree).
Proof.
  split; [vm_compute; auto 10|]. split; [repeat constructor|]. split; [discriminate|].
  vm_compute. repeat (constructor; [rewrite ?elem_of_cons, elem_of_nil; lia|]). constructor.
Qed.

(** C40.  Iterating every well-linked tree in in-order and pre-order; AVLTree's
    begin ignores the requested order and is always in-order. *)
Theorem C40_iterate : forall (A : Type) (t : atree A) h f z, t <> Lf -> nd t -> linked h None t ->
  bt_iterate InOrder (TSt h f (rootp t) z) = Ok (elems t, TSt h f (rootp t) z) /\
  bt_iterate PreOrder (TSt h f (rootp t) z) = Ok (pre t, TSt h f (rootp t) z) /\
  (forall o, avl_iterate o (TSt h f (rootp t) z) = Ok (elems t, TSt h f (rootp t) z)).
Proof. exact @top_iterate. Qed.
Print Assumptions C40_iterate.

(** C41 is false unless no node has a right child: post-order iteration of every
    other tree with distinct elements gives another list. *)
Theorem C41_postorder_refuted : forall (A : Type) (t : atree A) h f z, t <> Lf -> nd t -> linked h None t -> NoDup (elems t) -> exists l : list A,
  bt_iterate PostOrder (TSt h f (rootp t) z) = Ok (l, TSt h f (rootp t) z) /\ sublist l (elems t) /\
  (l = post t <-> (forall C l0 a hh x r, t = plug C (Br l0 a hh x r) -> r = Lf)).
Proof. exact @top_post. Qed.
Print Assumptions C41_postorder_refuted.

Example C41_case : bt_iterate PostOrder (TSt ex_heap (Alloc bump []) (rootp ex_tree) 3%Z) = Ok ([3; 5; 8], TSt ex_heap (Alloc bump []) (rootp ex_tree) 3%Z) /\ post ex_tree = [3; 8; 5].
Proof. split; vm_compute; reflexivity. Qed.

(** C42 is false: only PreOrder visits the whole tree.  The others start at the
    leftmost node, so they are complete only when the root has no left child. *)
Theorem C42_traversal_refuted : forall (A : Type) (t : atree A) h f z, nd t -> linked h None t ->
  bt_traversal PreOrder (TSt h f (rootp t) z) = Ok (pre t, TSt h f (rootp t) z) /\
  (forall a hh x r, t = Br Lf a hh x r ->
     bt_traversal InOrder (TSt h f (rootp t) z) = Ok (elems t, TSt h f (rootp t) z) /\
     bt_traversal PostOrder (TSt h f (rootp t) z) = Ok (post t, TSt h f (rootp t) z)) /\
  (forall l a hh x r, t = Br l a hh x r -> l <> Lf -> forall o, o <> PreOrder ->
     exists xs, bt_traversal o (TSt h f (rootp t) z) = Ok (xs, TSt h f (rootp t) z) /\ length xs < nodes t).
Proof. exact @top_traverse. Qed.
Print Assumptions C42_traversal_refuted.

(** For AVL trees: in-order and post-order never visit more than two elements. *)
Theorem C42_avl_traversal_refuted : forall (A : Type) (cmp : A -> A -> bool), swo cmp -> forall (pol : policy), sound pol -> grants pol -> forall (ops : list (top A)) rs s id l o,
  srun (ts_step cmp) ops ∅ = SVal (rs, s) -> s !! id = Some l -> l <> [] -> exists l' w,
  mrun (t_step cmp) (ops ++ [TTraverse id o]) (tw_init pol) = Ok (rs ++ [OList l'], w) /\
  (if match o with PreOrder => true | _ => false end then length l' = length l else length l' <= 2).
Proof. exact @t_traversal. Qed.
Print Assumptions C42_avl_traversal_refuted.

Example C42_case : exists rs s, srun (ts_step Nat.ltb) [TNew 0; TPush 0 5; TPush 0 3; TPush 0 8; TPush 0 9] ∅ = SVal (rs, s) /\ s !! 0 = Some [3; 5; 8; 9].
Proof. exact C38_case. Qed.

(** C43 is false: after every history, iterating an empty tree or map (fresh,
    cleared or emptied) or traversing it in-order or post-order is undefined
    behaviour. *)
Theorem C43_empty_iter_refuted : forall (A : Type) (cmp : A -> A -> bool), swo cmp -> forall (pol : policy), sound pol -> grants pol -> forall (ops : list (top A)) rs s id,
  srun (ts_step cmp) ops ∅ = SVal (rs, s) -> s !! id = Some [] ->
  mrun (t_step cmp) (ops ++ [TIter id]) (tw_init pol) = UB /\
  mrun (t_step cmp) (ops ++ [TTraverse id InOrder]) (tw_init pol) = UB /\ mrun (t_step cmp) (ops ++ [TTraverse id PostOrder]) (tw_init pol) = UB.
Proof. exact @t_empty_iter. Qed.
Print Assumptions C43_empty_iter_refuted.
Theorem C43_empty_map_refuted : forall (K V : Type) (lt : K -> K -> bool) (dflt : V), swo lt -> forall (pol : policy), sound pol -> grants pol -> forall (ops : list (mop K V)) rs s id,
  srun (ms_step lt dflt) ops ∅ = SVal (rs, s) -> s !! id = Some [] -> mrun (m_step lt dflt) (ops ++ [MIter id]) (tw_init pol) = UB.
Proof. exact @m_empty_iter. Qed.
Print Assumptions C43_empty_map_refuted.

Example C43_case : exists rs s, srun (ts_step Nat.ltb) [TNew 0; TPush 0 5; TPush 0 3; TPop 0 5; TPop 0 3; TNew 1; TPush 1 4; TClear 1] ∅ = SVal (rs, s) /\
  s !! 0 = Some [] /\ s !! 1 = Some [].
Proof. do 2 eexists. split; [vm_compute; reflexivity|]. vm_compute. auto. Qed.

(** C44 is false for non-empty trees: after every history, popping an absent key
    is undefined behaviour.  Popping from an empty tree is a no-op
    (C37_avl_history, C49_map_history). *)
Theorem C44_pop_absent_refuted : forall (A : Type) (cmp : A -> A -> bool), swo cmp -> forall (pol : policy), sound pol -> grants pol -> forall (ops : list (top A)) rs s id l x,
  srun (ts_step cmp) ops ∅ = SVal (rs, s) -> s !! id = Some l -> l <> [] -> lookup_set cmp x l = None ->
  mrun (t_step cmp) (ops ++ [TPop id x]) (tw_init pol) = UB.
Proof. exact @t_pop_absent. Qed.
Print Assumptions C44_pop_absent_refuted.
Theorem C44_map_pop_absent_refuted : forall (K V : Type) (lt : K -> K -> bool) (dflt : V), swo lt -> forall (pol : policy), sound pol -> grants pol -> forall (ops : list (mop K V)) rs s id l k,
  srun (ms_step lt dflt) ops ∅ = SVal (rs, s) -> s !! id = Some l -> l <> [] -> get_key lt k l = None ->
  mrun (m_step lt dflt) (ops ++ [MPop id k]) (tw_init pol) = UB.
Proof. exact @m_pop_absent. Qed.
Print Assumptions C44_map_pop_absent_refuted.

Example C44_case : exists rs s l, srun (ts_step Nat.ltb) [TNew 0; TPush 0 5; TPush 0 3] ∅ = SVal (rs, s) /\ s !! 0 = Some l /\ l <> [] /\ lookup_set Nat.ltb 4 l = None.
Proof. do 3 eexists. split; [vm_compute; reflexivity|]. vm_compute. split; [reflexivity|]. split; [discriminate|reflexivity]. Qed.

(** C45.  From three elements on erase is right (C37_avl_history).  It is false
    for the last element: after every history the object is left with a dangling
    root, so every later use is undefined behaviour, *)
Theorem C45_erase_last_refuted : forall (A : Type) (cmp : A -> A -> bool), swo cmp -> forall (pol : policy), sound pol -> grants pol -> forall (ops : list (top A)) rs s id y x o,
  srun (ts_step cmp) ops ∅ = SVal (rs, s) -> s !! id = Some [y] -> equiv cmp x y -> use id o ->
  mrun (t_step cmp) (ops ++ [TErase id x; o]) (tw_init pol) = UB /\
  exists w, mrun (t_step cmp) (ops ++ [TErase id x]) (tw_init pol) = Ok (rs ++ [OOpt None], w).
Proof. exact @t_erase_one. Qed.
Print Assumptions C45_erase_last_refuted.
(** and for the root of a two-element tree (the other element is erased
    correctly). *)
Theorem C45_erase_two_refuted : forall (A : Type) (cmp : A -> A -> bool), swo cmp -> forall (pol : policy), sound pol -> grants pol -> forall (ops : list (top A)) rs s id y z,
  srun (ts_step cmp) ops ∅ = SVal (rs, s) -> s !! id = Some [y; z] ->
  (mrun (t_step cmp) (ops ++ [TErase id y]) (tw_init pol) = UB /\
   exists w, mrun (t_step cmp) (ops ++ [TErase id z; TIter id]) (tw_init pol) = Ok (rs ++ [OOpt None; OList [y]], w)) \/
  ((forall o, use id o -> mrun (t_step cmp) (ops ++ [TErase id z; o]) (tw_init pol) = UB) /\
   exists w, mrun (t_step cmp) (ops ++ [TErase id y; TIter id]) (tw_init pol) = Ok (rs ++ [OOpt (Some z); OList [z]], w)).
Proof. exact @t_erase_two. Qed.
Print Assumptions C45_erase_two_refuted.

Example C45_case : exists rs s, srun (ts_step Nat.ltb) [TNew 0; TPush 0 5; TNew 1; TPush 1 7; TPush 1 6] ∅ = SVal (rs, s) /\
  s !! 0 = Some [5] /\ s !! 1 = Some [6; 7] /\ equiv Nat.ltb 5 5 /\ use 0 (@TDestroy nat 0).
Proof. do 2 eexists. split; [vm_compute; reflexivity|]. vm_compute. auto. Qed.

(** C47 is false: after every history, copying a non-empty tree or map (or
    moving it, which copies too) shares its nodes; once one of the two is
    destroyed, every use of the other, its destructor included, is undefined
    behaviour. *)
Theorem C47_copy_refuted : forall (A : Type) (cmp : A -> A -> bool), swo cmp -> forall (pol : policy), sound pol -> grants pol -> forall (ops : list (top A)) rs s id src l c o,
  srun (ts_step cmp) ops ∅ = SVal (rs, s) -> s !! src = Some l -> l <> [] -> id <> src ->
  ((c = TCopyNew id src /\ s !! id = None) \/ (c = TAssign id src /\ is_Some (s !! id))) ->
  (use id o -> mrun (t_step cmp) (ops ++ [c; TDestroy src; o]) (tw_init pol) = UB) /\
  (use src o -> mrun (t_step cmp) (ops ++ [c; TDestroy id; o]) (tw_init pol) = UB).
Proof. exact @copy_bad. Qed.
Print Assumptions C47_copy_refuted.
Theorem C47_map_copy_refuted : forall (K V : Type) (lt : K -> K -> bool) (dflt : V), swo lt -> forall (pol : policy), sound pol -> grants pol -> forall (ops : list (mop K V)) rs s id src l c i j,
  srun (ms_step lt dflt) ops ∅ = SVal (rs, s) -> s !! src = Some l -> l <> [] -> id <> src ->
  ((c = MCopyNew id src /\ s !! id = None) \/ (c = MAssign id src /\ is_Some (s !! id))) ->
  ((i = id /\ j = src) \/ (i = src /\ j = id)) ->
  mrun (m_step lt dflt) (ops ++ [c; MDestroy i; MDestroy j]) (tw_init pol) = UB /\
  (forall k, mrun (m_step lt dflt) (ops ++ [c; MDestroy i; MFind j k]) (tw_init pol) = UB).
Proof. exact @m_copy_bad. Qed.
Print Assumptions C47_map_copy_refuted.

Example C47_case : exists rs s, srun (ts_step Nat.ltb) [TNew 0; TPush 0 5; TPush 0 3; TNew 2] ∅ = SVal (rs, s) /\
  s !! 0 = Some [3; 5] /\ s !! 1 = None /\ is_Some (s !! 2).
Proof. do 2 eexists. split; [vm_compute; reflexivity|]. vm_compute. eauto. Qed.

(** C48.  clear() and the destructor free every node of every well-linked tree
    and touch nothing else (freeing twice or using a freed node would be
    undefined behaviour). *)
Theorem C48_clear : forall (A : Type) (t : atree A) h f z, nd t -> linked h None t -> exists h' f',
  bt_clear (TSt h f (rootp t) z) = Ok (tt, TSt h' f' None 0%Z) /\
  bt_destroy (TSt h f (rootp t) z) = Ok (tt, TSt h' f' None 0%Z) /\
  (forall k, cnt k t = 1 -> is_Some (h !! k) /\ h' !! k = None) /\ (forall k, cnt k t = 0 -> h' !! k = h !! k).
Proof. exact @top_clear. Qed.
Print Assumptions C48_clear.

(** C49.  Every history over any number of Maps answers like the same history
    over finite maps. *)
Theorem C49_map_history : forall (K V : Type) (lt : K -> K -> bool) (dflt : V), swo lt -> forall (pol : policy) (ops : list (mop K V)), sound pol -> grants pol ->
  match srun (ms_step lt dflt) ops ∅ with
  | SVal (rs, s) => exists w, mrun (m_step lt dflt) ops (tw_init pol) = Ok (rs, w) /\ size (tw_heap w) = total s
  | SAbort => mrun (m_step lt dflt) ops (tw_init pol) = Abort
  | SUnspec => True
  end.
Proof. exact @m_history. Qed.
Print Assumptions C49_map_history.
(** Those finite maps keep their keys ascending. *)
Theorem C49_map_sorted : forall (K V : Type) (lt : K -> K -> bool) (dflt : V), swo lt -> forall (ops : list (mop K V)) rs s id l,
  srun (ms_step lt dflt) ops ∅ = SVal (rs, s) -> s !! id = Some l -> ascending lt (map fst l).
Proof. exact @m_sorted. Qed.
Print Assumptions C49_map_sorted.

Example C49_case : exists s, srun (ms_step Nat.ltb false)
  [MNew 0; MSet 0 5 true; MGet 0 3; MSet 0 3 true; MPush 0 9 true; MGet 0 5; MFind 0 9; MFind 0 4; MIter 0; MPop 0 5; MSet 0 9 false; MIter 0; MSize 0;
   MNew 1; MEmpty 1; MPop 1 2; MClear 0; MSize 0] ∅
  = SVal ([MUnit; MUnit; MVal false; MUnit; MUnit; MVal true; MOpt (Some (9, true)); MOpt None; MList [(3, true); (5, true); (9, true)]; MUnit; MUnit;
   MList [(3, true); (9, false)]; MZ 2; MUnit; MBool true; MUnit; MUnit; MZ 0], s) /\ total s = 0.
Proof. eexists. split; [vm_compute; reflexivity|]. vm_compute. reflexivity. Qed.
Example C49_case_abort : srun (ms_step Nat.ltb 0) [MNew 0; MPush 0 5 1; MPush 0 5 2] ∅ = SAbort.
Proof. vm_compute. reflexivity. Qed.
