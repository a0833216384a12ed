(** Properties C24-C29 (linked lists). *)
From Verif Require Import Base Alloc VectorModel VectorSpec Adapter Hist ListModel ListSpec ListHist2 ListHist3 ListHist4 ListRefute.

(** C24.  Every history over any number of doubly linked lists answers like the
    same history over sequences; pops and back() of an empty list assert; exactly
    one node is allocated for every element.  This holds wherever the allocator
    puts the nodes, provided it hands out no address in use and refuses nothing
    (for allocators that may refuse see C72). *)
Theorem C24_dll_history : forall (A : Type) (junk : A) (pol : policy) (ops : list (lop A)), sound pol -> grants pol ->
  match srun (ls_step true) ops ∅ with
  | SVal (rs, s) => exists w, mrun (dl_step junk) ops (lst_init pol) = Ok (rs, w) /\ nodes_allocated w = elements_total s
  | SAbort => mrun (dl_step junk) ops (lst_init pol) = Abort
  | SUnspec => True
  end.
Proof. exact @dl_history. Qed.
Print Assumptions C24_dll_history.

Example C24_case : exists s, srun (ls_step true)
  [LNew 0; LPushBack 0 1; LPushFront 0 2; LPush 0 3; LIter 0; LRIter 0; LFront 0; LBack 0; LCopyNew 1 0; LPopBack 1; LMoveNew 2 0; LIter 0; LIter 1; LSize 2; LFill 3 2 9;
   LAssign 3 2; LMoveAssign 1 3; LPopFront 1; LPop 1; LIter 1; LEmpty 3; LClear 2; LDestroy 2]%nat ∅
  = SVal ([RUnit; RUnit; RUnit; RUnit; RList [3; 2; 1]; RList [1; 2; 3]; RVal 3; RVal 1; RUnit; RUnit; RUnit; RList []; RList [3; 2]; RNat 3; RUnit;
   RUnit; RUnit; RUnit; RUnit; RList [1]; RBool true; RUnit; RUnit], s) /\ elements_total s = 1.
Proof. eexists. split; [vm_compute; reflexivity|]. vm_compute. reflexivity. Qed.
Example C24_case_abort : srun (ls_step true) [LNew 0; LPushBack 0 true; LPopBack 0; LPopFront 0] ∅ = SAbort.
Proof. vm_compute. reflexivity. Qed.

(** C25.  The same for singly linked lists (no backward iteration; the calls of
    C26 and C27 excepted). *)
Theorem C25_sll_history : forall (A : Type) (junk : A) (pol : policy) (ops : list (lop A)), sound pol -> grants pol ->
  match srun (ls_step false) ops ∅ with
  | SVal (rs, s) => exists w, mrun (sl_step junk) ops (lst_init pol) = Ok (rs, w) /\ nodes_allocated w = elements_total s
  | SAbort => mrun (sl_step junk) ops (lst_init pol) = Abort
  | SUnspec => True
  end.
Proof. exact @sl_history. Qed.
Print Assumptions C25_sll_history.

Example C25_case : exists s, srun (ls_step false)
  [LNew 0; LPushBack 0 1; LPushFront 0 2; LPush 0 3; LIter 0; LFront 0; LBack 0; LMoveNew 2 0; LIter 0; LPushBack 0 7; LSize 2; LFill 3 2 9;
   LMoveAssign 3 2; LPopFront 3; LPop 3; LPushBack 3 5; LPopBack 3; LIter 3; LEmpty 2; LClear 0; LDestroy 0]%nat ∅
  = SVal ([RUnit; RUnit; RUnit; RUnit; RList [3; 2; 1]; RVal 3; RVal 1; RUnit; RList []; RUnit; RNat 3; RUnit;
   RUnit; RUnit; RUnit; RUnit; RUnit; RList [1]; RBool true; RUnit; RUnit], s) /\ elements_total s = 1.
Proof. eexists. split; [vm_compute; reflexivity|]. vm_compute. reflexivity. Qed.
Example C25_case_abort : srun (ls_step false) [LNew 0; LPushBack 0 true; LPopBack 0; LBack 0] ∅ = SAbort.
Proof. vm_compute. reflexivity. Qed.

(** C26 is false: after every history, copying a non-empty singly linked list
    (by construction or assignment) gives a list that repeats its first element,
    and a push_back on the copy inserts into the source instead. *)
Theorem C26_sll_copy_refuted : forall (A : Type) (junk : A) (pol : policy) (ops : list (lop A)) rs s id src x l o y, sound pol -> grants pol ->
  srun (ls_step false) ops ∅ = SVal (rs, s) -> s !! src = Some (x :: l) -> id <> src ->
  ((o = LCopyNew id src /\ s !! id = None) \/ (o = LAssign id src /\ is_Some (s !! id))) ->
  exists w, mrun (sl_step junk) (ops ++ [o; LIter id; LPushBack id y; LIter src; LIter id; LSize id; LSize src]) (lst_init pol)
    = Ok (rs ++ [RUnit; RList (repeat x (S (length l))); RUnit; RList (x :: y :: l); RList (repeat x (S (length l)));
                 RNat (S (S (length l))); RNat (S (length l))], w).
Proof. exact @sl_copy_refuted. Qed.
Print Assumptions C26_sll_copy_refuted.

Example C26_case : exists rs s, srun (ls_step false) [LNew 0; LPushBack 0 1; LPushBack 0 2; LFill 3 1 7]%nat ∅ = SVal (rs, s) /\
  s !! 0 = Some [1; 2] /\ s !! 1 = None /\ is_Some (s !! 3).
Proof. do 2 eexists. split; [vm_compute; reflexivity|]. vm_compute. eauto. Qed.

(** C27 is false: after every history, push on an empty singly linked list leaves
    the tail pointer behind, so a following push_back lands in front ... *)
Theorem C27_push_refuted : forall (A : Type) (junk : A) (pol : policy) (ops : list (lop A)) rs s id x y, sound pol -> grants pol ->
  srun (ls_step false) ops ∅ = SVal (rs, s) -> s !! id = Some [] ->
  exists w, mrun (sl_step junk) (ops ++ [LPush id x; LPushBack id y; LIter id; LBack id]) (lst_init pol) = Ok (rs ++ [RUnit; RUnit; RList [y; x]; RVal y], w).
Proof. exact @sl_push_refuted. Qed.
Print Assumptions C27_push_refuted.

(** ... and pop of the only element leaves the tail pointer dangling: the next
    push_back accesses the freed node or, if the new node gets the address of the
    freed one, the new element is lost, with size() counting it.  Which of the two
    depends on the allocator. *)
Theorem C27_pop_refuted : forall (A : Type) (junk : A) (pol : policy) (ops : list (lop A)) rs s id x y, sound pol -> grants pol ->
  srun (ls_step false) ops ∅ = SVal (rs, s) -> s !! id = Some [x] ->
  mrun (sl_step junk) (ops ++ [LPop id; LPushBack id y]) (lst_init pol) = UB \/
  exists w, mrun (sl_step junk) (ops ++ [LPop id; LPushBack id y; LSize id; LIter id]) (lst_init pol) = Ok (rs ++ [RUnit; RUnit; RNat 1; RList []], w).
Proof. exact @sl_pop_refuted. Qed.
Print Assumptions C27_pop_refuted.

Theorem C27_pop_new_refuted : forall (A : Type) (junk : A) (ops : list (lop A)) rs s id x y,
  srun (ls_step false) ops ∅ = SVal (rs, s) -> s !! id = Some [x] ->
  mrun (sl_step junk) (ops ++ [LPop id; LPushBack id y]) (lst_init bump) = UB.
Proof. exact @sl_pop_refuted_new. Qed.
Print Assumptions C27_pop_new_refuted.

Theorem C27_pop_reuse_refuted : forall (A : Type) (junk : A) (ops : list (lop A)) rs s id x y,
  srun (ls_step false) ops ∅ = SVal (rs, s) -> s !! id = Some [x] ->
  exists w, mrun (sl_step junk) (ops ++ [LPop id; LPushBack id y; LSize id; LIter id]) (lst_init last_back) = Ok (rs ++ [RUnit; RUnit; RNat 1; RList []], w).
Proof. exact @sl_pop_refuted_reuse. Qed.
Print Assumptions C27_pop_reuse_refuted.

Example C27_case : exists rs s, srun (ls_step false) [LNew 0; LPushBack 0 1; LNew 1]%nat ∅ = SVal (rs, s) /\ s !! 0 = Some [1] /\ s !! 1 = Some [].
Proof. do 2 eexists. split; [vm_compute; reflexivity|]. vm_compute. auto. Qed.

(** C28 is false: after every history, moving from an empty list links the two
    heads to each other, for both kinds of list; the next empty(), clear() or
    destruction of either list fails an assertion. *)
Theorem C28_move_empty_refuted : forall (A : Type) (junk : A) (dbl : bool) (pol : policy) (ops : list (lop A)) rs s id src o o2, sound pol -> grants pol ->
  srun (ls_step dbl) ops ∅ = SVal (rs, s) -> s !! src = Some [] -> id <> src ->
  ((o = LMoveNew id src /\ s !! id = None) \/ (o = LMoveAssign id src /\ is_Some (s !! id))) ->
  o2 ∈ [LEmpty id; LEmpty src; LClear id; LClear src; LDestroy id; LDestroy src] ->
  (exists w, mrun (if dbl then dl_step junk else sl_step junk) (ops ++ [o]) (lst_init pol) = Ok (rs ++ [RUnit], w)) /\
  mrun (if dbl then dl_step junk else sl_step junk) (ops ++ [o; o2]) (lst_init pol) = Abort.
Proof. exact @move_empty_refuted. Qed.
Print Assumptions C28_move_empty_refuted.

Example C28_case : exists rs s, srun (ls_step true) [LNew 0; LPushBack 0 1; LNew 1]%nat ∅ = SVal (rs, s) /\ is_Some (s !! 0) /\ s !! 1 = Some [] /\ s !! 2 = None.
Proof. do 2 eexists. split; [vm_compute; reflexivity|]. vm_compute. eauto. Qed.

(** C29.  The intrusive links: init makes a ring of one; add(p, n) inserts n
    behind p; del(p, n) takes the member behind p out and clears its links; both
    leave the data and every cell outside the ring as they are.  A ring can be
    read from any member, so p may be anywhere; a walk visits every member once. *)
Theorem C29_init : forall (A : Type) (dbl : bool) (st : lst A) p, is_Some (l_cells st !! p) ->
  exists st', link_init dbl p st = Ok (tt, st') /\ is_ring dbl (l_cells st') [p].
Proof. exact @ring_init. Qed.
Print Assumptions C29_init.

Theorem C29_add : forall (A : Type) (dbl : bool) (st : lst A) p t n,
  is_ring dbl (l_cells st) (p :: t) -> n ∉ p :: t -> is_Some (l_cells st !! n) ->
  exists st', link_add dbl p n st = Ok (tt, st') /\ is_ring dbl (l_cells st') (p :: n :: t) /\
    (forall r, option_map c_dat (l_cells st' !! r) = option_map c_dat (l_cells st !! r)) /\
    (forall r, r ∉ p :: n :: t -> l_cells st' !! r = l_cells st !! r).
Proof. exact @ring_add. Qed.
Print Assumptions C29_add.

Theorem C29_del : forall (A : Type) (dbl : bool) (st : lst A) p n t,
  is_ring dbl (l_cells st) (p :: n :: t) ->
  exists st', link_del dbl p n st = Ok (tt, st') /\ is_ring dbl (l_cells st') (p :: t) /\
    (exists c, l_cells st' !! n = Some c /\ c_next c = None /\ (dbl = true -> c_prev c = None)) /\
    (forall r, option_map c_dat (l_cells st' !! r) = option_map c_dat (l_cells st !! r)) /\
    (forall r, r ∉ p :: n :: t -> l_cells st' !! r = l_cells st !! r).
Proof. exact @ring_del. Qed.
Print Assumptions C29_del.

Theorem C29_rotate : forall (A : Type) (dbl : bool) (m : gmap ptr (cell A)) us vs, is_ring dbl m (us ++ vs) -> is_ring dbl m (vs ++ us).
Proof. exact @ring_rotate. Qed.
Print Assumptions C29_rotate.

Theorem C29_walk : forall (A : Type) (dbl : bool) (st : lst A) p t, is_ring dbl (l_cells st) (p :: t) -> exists c q (zs : list A),
  l_cells st !! p = Some c /\ c_next c = Some q /\ ll_iter_loop (S (length t)) q p st = Ok (zs, st) /\
  Forall2 (fun r x => option_map c_dat (l_cells st !! r) = Some x) t zs.
Proof. exact @ring_walk. Qed.
Print Assumptions C29_walk.

Example C29_case : exists st : lst nat, exists n, is_ring true (l_cells st) [Node 0; Node 1; Node 2] /\ is_Some (l_cells st !! n) /\ n ∉ [Node 0; Node 1; Node 2].
Proof.
  exists (LSt (<[Node 0 := Cell (Some (Node 1)) (Some (Node 2)) 5]> (<[Node 1 := Cell (Some (Node 2)) (Some (Node 0)) 6]>
    (<[Node 2 := Cell (Some (Node 0)) (Some (Node 1)) 7]> (<[Node 3 := Cell None None 8]> ∅)))) (Alloc bump []) ∅ ∅), (Node 3).
  split; [|split; [vm_compute; eauto|rewrite !elem_of_cons, elem_of_nil; intros [?|[?|[?|[]]]]; discriminate]].
  split; [repeat (apply NoDup_cons_2; [rewrite ?elem_of_cons, elem_of_nil; intuition discriminate|]); apply NoDup_nil_2|].
  intros [|[|[|i]]] p q Hp Hq; cbn in Hp, Hq; try discriminate; simplify_eq; do 2 eexists; repeat split; reflexivity.
Qed.
