(** Properties C01-C08 (Vector, algorithm). *)
From Verif Require Import Base VectorModel VectorSpec VecProg VectorExtra.

(** C01.  Every history over any set of vectors yields exactly the answers and
    contents of the same history over immutable lists; an assertion fires
    exactly where the specification says so. *)
Theorem C01_vector_history : forall (A : Type) (triv : bool) (ops : list (vop A)),
  match s_run triv ops ∅ with
  | SVal (rs, s) => exists w, v_run triv ops world_init = Ok (rs, w) /\ forall id, contents w id = s !! id
  | SAbort => v_run triv ops world_init = Abort
  | SUnspec => v_run triv ops world_init = UB
  end.
Proof. exact @history_correct. Qed.
Print Assumptions C01_vector_history.

Definition c01_ops : list (vop nat) :=
  [ONew 0; OPush 0 5; OPush 0 6; OPush 0 7; OCopyNew 1 0; OPop 0; OSet 1 (-1) 9; OMoveNew 2 1;
   OAssign 1 0; OResizeFill 0 4 3; OIter 0; OIter 1; OIter 2].
Example C01_case : exists s,
  s_run true c01_ops ∅ = SVal ([RUnit; RUnit; RUnit; RUnit; RUnit; RUnit; RUnit; RUnit; RUnit; RUnit;
    RList [5; 6; 3; 3]; RList [5; 6]; RList [5; 6; 9]], s).
Proof. eexists. vm_compute. reflexivity. Qed.
Example C01_case_abort : s_run true [ONew 0; OPush 0 5; OPop 0; OPop 0] (∅ : gmap nat (list nat)) = SAbort.
Proof. reflexivity. Qed.

(** C02.  In every state any history reaches: nothing was leaked, every
    outstanding block belongs to exactly one live vector and has exactly its
    capacity, the live objects in it are exactly its elements, and once no
    vector is left no block is outstanding.  (A double free, a deallocation with
    a different count, or a use of freed storage makes [v_run] return [UB].) *)
Theorem C02_vector_storage : forall (A : Type) (triv : bool) (w : world A),
  reachable triv w ->
  m_leaked (w_mem w) = 0 /\
  (forall id v b, w_objs w !! id = Some v -> v_ptr v = Some b ->
     exists cs, m_blocks (w_mem w) !! b = Some cs /\ length cs = v_cap v /\ live_count cs = v_size v) /\
  (forall b, is_Some (m_blocks (w_mem w) !! b) ->
     exists id v, w_objs w !! id = Some v /\ v_ptr v = Some b) /\
  (forall i j vi vj b, w_objs w !! i = Some vi -> w_objs w !! j = Some vj ->
     v_ptr vi = Some b -> v_ptr vj = Some b -> i = j) /\
  (w_objs w = ∅ -> m_blocks (w_mem w) = ∅).
Proof. exact @storage_accounting. Qed.
Print Assumptions C02_vector_storage.

Example C02_case : exists w : world nat, reachable false w /\ w_objs w = ∅ /\ m_ctor (w_mem w) = 10.
Proof.
  eexists. split; [exists [ONew 0; OPush 0 5; OPush 0 6; OPush 0 7; OMoveNew 1 0; OResize 1 2; OPush 1 4; ODestroy 1; ODestroy 0];
    eexists; vm_compute; reflexivity|].
  split; [apply map_to_list_empty_iff; vm_compute; reflexivity|reflexivity].
Qed.

(** C03.  Indices in range designate the Python-style position, for reads ... *)
Theorem C03_index_get_partial : forall (A : Type) (triv : bool) (w : world A) id v l i k a,
  reachable triv w -> holds w id v l -> py_index (length l) i = Some k -> nth_error l k = Some a ->
  v_get v i (w_mem w) = Ok (a, w_mem w).
Proof. exact @index_get. Qed.
Print Assumptions C03_index_get_partial.

(** ... and for writes, which change that element and nothing else. *)
Theorem C03_index_set_partial : forall (A : Type) (triv : bool) (w : world A) id v l i k a,
  reachable triv w -> holds w id v l -> py_index (length l) i = Some k ->
  exists w', v_step triv (OSet id i a) w = Ok (RUnit, w') /\
    contents w' id = Some (<[k := a]> l) /\ forall j, j <> id -> contents w' j = contents w j.
Proof. exact @index_set. Qed.
Print Assumptions C03_index_set_partial.

(** Every index >= size() trips the assertion. *)
Theorem C03_index_too_large_partial : forall (A : Type) (triv : bool) (w : world A) id v l i a,
  reachable triv w -> holds w id v l -> (Z.of_nat (length l) <= i)%Z ->
  v_get v i (w_mem w) = Abort /\ v_set v i a (w_mem w) = Abort.
Proof. exact @index_too_large. Qed.
Print Assumptions C03_index_too_large_partial.

(** The assertion does not reject indices below -size(): for every one of them
    the access is out of bounds. *)
Theorem C03_index_too_negative_refuted : forall (A : Type) (triv : bool) (w : world A) id v l i a,
  reachable triv w -> holds w id v l -> (i < - Z.of_nat (length l))%Z ->
  v_get v i (w_mem w) = UB /\ v_set v i a (w_mem w) = UB.
Proof. exact @index_too_negative. Qed.
Print Assumptions C03_index_too_negative_refuted.

Example C03_case : exists (w : world nat) v, reachable true w /\ holds w 0 v [5; 6; 7] /\
  py_index 3 (-1) = Some 2 /\ nth_error [5; 6; 7] 2 = Some 7 /\ py_index 3 1 = Some 1 /\
  v_size v < v_cap v /\ w_objs w !! 1 = None.
Proof.
  do 2 eexists. split; [exists [ONew 0; OPush 0 5; OPush 0 6; OPush 0 7]; eexists; vm_compute; reflexivity|].
  split; [split; vm_compute; reflexivity|]. repeat split; vm_compute; auto.
Qed.

(** C04.  size() <= capacity() always. *)
Theorem C04_size_within_capacity : forall (A : Type) (triv : bool) (w : world A) id v,
  reachable triv w -> w_objs w !! id = Some v -> v_size v <= v_cap v.
Proof. exact @capacity_bound. Qed.
Print Assumptions C04_size_within_capacity.

(** push_back keeps capacity and buffer when there is room, and otherwise doubles. *)
Theorem C04_push_capacity : forall (A : Type) (triv : bool) (w : world A) id v l a,
  reachable triv w -> holds w id v l ->
  exists w' v', v_step triv (OPush id a) w = Ok (RUnit, w') /\ holds w' id v' (l ++ [a]) /\
    v_cap v' = (if Nat.ltb (v_size v) (v_cap v) then v_cap v else Nat.max 2 (2 * v_size v)) /\
    (v_size v < v_cap v -> v_ptr v' = v_ptr v).
Proof. exact @push_capacity. Qed.
Print Assumptions C04_push_capacity.

(** pop_back drops the last element only, also when it halves the buffer. *)
Theorem C04_pop_capacity : forall (A : Type) (triv : bool) (w : world A) id v l a,
  reachable triv w -> holds w id v (l ++ [a]) ->
  exists w' v', v_step triv (OPop id) w = Ok (RUnit, w') /\ holds w' id v' l /\
    v_cap v' = (if Nat.ltb (length l) (v_cap v / 3) then v_cap v / 2 else v_cap v).
Proof. exact @pop_capacity. Qed.
Print Assumptions C04_pop_capacity.

(** Any sequence of n push_back/pop_back on a fresh vector performs at most 3n
    element constructions, relocations included. *)
Theorem C04_amortised_constant : forall (A : Type) (triv : bool) (w : world A) id ops rs w',
  reachable triv w -> w_objs w !! id = None ->
  forallb (fun o => match o with OPush i _ => Nat.eqb i id | OPop i => Nat.eqb i id | _ => false end) ops = true ->
  v_run triv (ONew id :: ops) w = Ok (rs, w') ->
  m_ctor (w_mem w') <= m_ctor (w_mem w) + 3 * length ops.
Proof. exact @amortised. Qed.
Print Assumptions C04_amortised_constant.

Example C04_case : exists rs (w' : world nat),
  v_run true [ONew 0; OPush 0 1; OPush 0 2; OPush 0 3; OPush 0 4; OPush 0 5; OPop 0; OPop 0; OPop 0; OPop 0] world_init
    = Ok (rs, w') /\ m_ctor (w_mem w') = 12.
Proof. do 2 eexists. vm_compute. split; reflexivity. Qed.

(** C05.  Refuted: copying any non-empty vector of a type with a destructor runs
    that destructor on raw storage, ... *)
Theorem C05_copy_construct_refuted : forall (A : Type) (triv : bool) (w : world A) id src v l,
  triv = false -> reachable triv w -> holds w src v l -> l <> [] -> w_objs w !! id = None ->
  v_step triv (OCopyNew id src) w = UB.
Proof. exact @copy_destructor_ub. Qed.
Print Assumptions C05_copy_construct_refuted.

(** ... and so does every assignment from one. *)
Theorem C05_copy_assign_refuted : forall (A : Type) (triv : bool) (w : world A) id src v l,
  triv = false -> reachable triv w -> holds w src v l -> l <> [] -> id <> src -> is_Some (w_objs w !! id) ->
  v_step triv (OAssign id src) w = UB.
Proof. exact @assign_destructor_ub. Qed.
Print Assumptions C05_copy_assign_refuted.

(** For trivially destructible elements the copy is equal and independent. *)
Theorem C05_copy_partial : forall (A : Type) (triv : bool) (w : world A) id src v l,
  triv = true -> reachable triv w -> holds w src v l -> w_objs w !! id = None ->
  exists w', v_step triv (OCopyNew id src) w = Ok (RUnit, w') /\ reachable triv w' /\
    contents w' id = Some l /\ (forall j, j <> id -> contents w' j = contents w j).
Proof. exact @copy_trivial. Qed.
Print Assumptions C05_copy_partial.

Example C05_case : exists (w : world nat) v, reachable false w /\ holds w 0 v [5; 6; 7] /\
  w_objs w !! 2 = None /\ is_Some (w_objs w !! 1).
Proof.
  do 2 eexists. split; [exists [ONew 0; OPush 0 5; OPush 0 6; OPush 0 7; OFill 1 2 4]; eexists; vm_compute; reflexivity|].
  split; [split; vm_compute; reflexivity|]. vm_compute. eauto.
Qed.

(** C06.  push_back of an own element: right exactly when it does not
    reallocate, a use after free for every full vector. *)
Theorem C06_push_own_element_partial : forall (A : Type) (triv : bool) (w : world A) id v l i a,
  reachable triv w -> holds w id v l -> nth_error l i = Some a ->
  if Nat.ltb (v_size v) (v_cap v)
  then exists v' m', v_push_back triv (ARef (v_ptr v) i) v (w_mem w) = Ok (v', m') /\
         v_iter v' m' = Ok (l ++ [a], m')
  else v_push_back triv (ARef (v_ptr v) i) v (w_mem w) = UB.
Proof. exact @push_own_element. Qed.
Print Assumptions C06_push_own_element_partial.

Theorem C06_push_own_element_refuted : exists (w : world nat) v,
  reachable true w /\ holds w 0 v [5; 6] /\ v_push_back true (ARef (v_ptr v) 0) v (w_mem w) = UB.
Proof.
  do 2 eexists. split; [exists [ONew 0; OPush 0 5; OPush 0 6]; eexists; vm_compute; reflexivity|].
  split; [split; vm_compute; reflexivity|]. vm_compute. reflexivity.
Qed.
Print Assumptions C06_push_own_element_refuted.

(** resize(n, v[i]) has the same defect whenever it grows the vector. *)
Theorem C06_resize_own_element_refuted : forall (A : Type) (triv : bool) (w : world A) id v l i a n,
  reachable triv w -> holds w id v l -> nth_error l i = Some a ->
  v_size v < n -> v_resize_fill triv n (ARef (v_ptr v) i) v (w_mem w) = UB.
Proof. exact @resize_own_element. Qed.
Print Assumptions C06_resize_own_element_refuted.

(** C07.  Iteration from begin() to end() yields size() elements, the i-th of
    which is v[i]. *)
Theorem C07_iteration : forall (A : Type) (triv : bool) (w : world A) id v,
  reachable triv w -> w_objs w !! id = Some v ->
  exists l, v_iter v (w_mem w) = Ok (l, w_mem w) /\ length l = v_size v /\
    forall i, i < v_size v -> exists a, nth_error l i = Some a /\
      v_get v (Z.of_nat i) (w_mem w) = Ok (a, w_mem w).
Proof. exact @iteration_is_indexing. Qed.
Print Assumptions C07_iteration.

Theorem C07_for_each : forall (A : Type) (triv : bool) (w : world A) id v l cb,
  reachable triv w -> holds w id v l ->
  exists m', v_for_each cb v (w_mem w) = Ok (tt, m') /\
    let w' := World m' (w_objs w) in
    contents w' id = Some (map cb l) /\ forall j, j <> id -> contents w' j = contents w j.
Proof. exact @for_each_maps. Qed.
Print Assumptions C07_for_each.

Theorem C07_find : forall (A : Type) (triv : bool) (w : world A) id v l eqb o,
  reachable triv w -> holds w id v l ->
  exists k, v_find eqb o v (w_mem w) = Ok (k, w_mem w) /\ k <= length l /\
    (forall j a, j < k -> nth_error l j = Some a -> eqb a o = false) /\
    (k < length l -> exists a, nth_error l k = Some a /\ eqb a o = true).
Proof. exact @find_first. Qed.
Print Assumptions C07_find.

Example C07_case : exists (w : world nat) v, reachable true w /\ holds w 0 v [5; 6; 7] /\
  v_find Nat.eqb 6 v (w_mem w) = Ok (1, w_mem w).
Proof.
  do 2 eexists. split; [exists [ONew 0; OPush 0 5; OPush 0 6; OPush 0 7]; eexists; vm_compute; reflexivity|].
  split; [split; vm_compute; reflexivity|]. vm_compute. reflexivity.
Qed.

(** C08.  Every client program over any number of vectors gets the results it
    would get from sequences with a capacity number and leaves the contents and
    capacities those have; assertion failures, undefined uses and
    non-termination included; and its storage is accounted for as in C02. *)
Theorem C08_client_program : forall (A : Type) (triv : bool) (X : Type) (p : wprog A X) (w : world A),
  reachable triv w ->
  match lrun triv p (view w) with
  | Ok (x, s') => exists w', wrun triv p w = Ok (x, w') /\ view w' = s' /\ storage_ok w'
  | Abort => wrun triv p w = Abort
  | UB => wrun triv p w = UB
  | Diverge => wrun triv p w = Diverge
  end.
Proof. exact @client_program. Qed.
Print Assumptions C08_client_program.

Definition c08_prog : wprog nat (nat * nat * nat) :=
  (wunit (OPush 0 8) ;;; wpush_elem 0 1 0 ;;; wunit (OPush 0 9) ;;; wunit (OPop 1) ;;;
   a <- wget 0 (-2) ;; n <- wsize 0 ;; c <- wcap 0 ;; WRet (a, n, c))%wprog.
Example C08_case : exists (w : world nat), reachable true w /\
  view w = <[0 := LVec [5; 6; 7] 4]> (<[1 := LVec [2] 2]> ∅) /\
  exists s, lrun true c08_prog (view w) = Ok ((2, 6, 8), s) /\ s !! 1 = Some (LVec [] 2).
Proof.
  eexists. split; [exists [ONew 0; OPush 0 5; OPush 0 6; OPush 0 7; ONew 1; OPush 1 2]; eexists; vm_compute; reflexivity|].
  split; [apply map_to_list_inj; vm_compute; reflexivity|].
  eexists. split; vm_compute; reflexivity.
Qed.
