(** Properties C17-C20 (Heap). *)
From Coq Require Import Sorting.Sorted.
From Verif Require Import Base VectorModel VectorSpec VecProg Adapter HeapModel HeapSpec HeapProofs.

(** The order: [cmp] decides [le] one way or the other.  This covers every
    strict weak order (with [le a b := cmp b a = false], see below) and every
    total preorder. *)

(** C17 (and the history form of C18-C20).  Every history over any number of
    heaps and caller-owned vectors is a right history of bags whose first
    listed element is extremal; pop/top of an empty heap assert; all storage
    is accounted for. *)
Theorem C17_heap_history : forall (A : Type) (triv : bool) (cmp : A -> A -> bool) (le : A -> A -> Prop),
  (forall a b c, le a b -> le b c -> le a c) ->
  (forall a b, cmp a b = true -> le a b) ->
  (forall a b, cmp a b = false -> le b a) ->
  forall ops : list (@hop A),
  exists r, h_run triv le ops ∅ r /\
    match r with
    | SVal (rs, s) => exists w, wrun triv (arun (hp_step cmp) ops) world_init = Ok (rs, w) /\ storage_ok w
    | SAbort => wrun triv (arun (hp_step cmp) ops) world_init = Abort
    | SUnspec => True
    end.
Proof. exact @heap_history. Qed.
Print Assumptions C17_heap_history.

(** Strict weak orders qualify. *)
Example C17_strict_weak : forall (A : Type) (cmp : A -> A -> bool),
  (forall a b, cmp a b = true -> cmp b a = false) ->
  (forall a b c, cmp b a = false -> cmp c b = false -> cmp c a = false) ->
  let le a b := cmp b a = false in
  (forall a b c, le a b -> le b c -> le a c) /\
  (forall a b, cmp a b = true -> le a b) /\ (forall a b, cmp a b = false -> le b a).
Proof. intros A cmp Hasym Htr le. split_and!; unfold le; eauto. Qed.
Example C17_case : exists w, wrun true (arun (hp_step Nat.ltb)
  [HNew 0 0; HPush 0 5; HPush 0 3; HPush 0 8; HPush 0 3; HTop 0; HPop 0; HTop 0; HPop 0; HTop 0; HSize 0; HCopyNew 1 0; HPop 0; HTop 0; HTop 1])
  world_init = Ok ([RUnit; RUnit; RUnit; RUnit; RUnit; RVal 3; RUnit; RVal 3; RUnit; RVal 5; RNat 2; RUnit; RUnit; RVal 8; RVal 5], w).
Proof. eexists. vm_compute. reflexivity. Qed.

(** C18.  From any state of the vectors: Heap(begin, end) over a range of an
    existing vector holds exactly the elements of the range, in heap order, and
    changes nothing else; build also writes them back in heap order. *)
Theorem C18_range : forall (A : Type) (triv : bool) (cmp : A -> A -> bool) (le : A -> A -> Prop),
  (forall a b c, le a b -> le b c -> le a c) ->
  (forall a b, cmp a b = true -> le a b) ->
  (forall a b, cmp a b = false -> le b a) ->
  forall (w : world A) id obj src v u b n,
  reachable triv w -> w_objs w !! id = None -> holds w src v u -> b + n <= length u ->
  exists l w', wrun triv (hp_range cmp id obj src b n) w = Ok (tt, w') /\
    Permutation l (firstn n (skipn b u)) /\ heap_ord le l /\
    contents w' id = Some (obj :: l) /\
    (forall j, j <> id -> view w' !! j = view w !! j) /\ storage_ok w'.
Proof. exact @range_state. Qed.
Print Assumptions C18_range.

Theorem C18_build : forall (A : Type) (triv : bool) (cmp : A -> A -> bool) (le : A -> A -> Prop),
  (forall a b c, le a b -> le b c -> le a c) ->
  (forall a b, cmp a b = true -> le a b) ->
  (forall a b, cmp a b = false -> le b a) ->
  forall (w : world A) id obj src v u b n,
  reachable triv w -> w_objs w !! id = None -> holds w src v u -> b + n <= length u ->
  exists l w', wrun triv (hp_build cmp id obj src b n) w = Ok (tt, w') /\
    Permutation l (firstn n (skipn b u)) /\ heap_ord le l /\
    contents w' id = Some (obj :: l) /\
    contents w' src = Some (firstn b u ++ l ++ skipn (b + n) u) /\
    (forall j, j <> id -> j <> src -> view w' !! j = view w !! j) /\ storage_ok w'.
Proof. exact @build_state. Qed.
Print Assumptions C18_build.

(** Heap order makes the first element extremal. *)
Theorem C18_first_extremal : forall (A : Type) (le : A -> A -> Prop),
  (forall a b c, le a b -> le b c -> le a c) ->
  forall l, heap_ord le l -> first_extremal le l.
Proof. exact @heap_ord_first. Qed.
Print Assumptions C18_first_extremal.

(** C19.  Heap::sort leaves the range a sorted permutation of itself and
    everything else alone. *)
Theorem C19_sort : forall (A : Type) (triv : bool) (cmp : A -> A -> bool) (le : A -> A -> Prop),
  (forall a b c, le a b -> le b c -> le a c) ->
  (forall a b, cmp a b = true -> le a b) ->
  (forall a b, cmp a b = false -> le b a) ->
  forall (w : world A) id obj src v u b n,
  reachable triv w -> w_objs w !! id = None -> holds w src v u -> b + n <= length u ->
  exists l w', wrun triv (hp_sort cmp id obj src b n) w = Ok (tt, w') /\
    Permutation l (firstn n (skipn b u)) /\ StronglySorted le l /\
    contents w' src = Some (firstn b u ++ l ++ skipn (b + n) u) /\
    (forall j, j <> src -> view w' !! j = view w !! j) /\ storage_ok w'.
Proof. exact @sort_state. Qed.
Print Assumptions C19_sort.

Example C19_case : exists (w : world nat) v, reachable true w /\ w_objs w !! 1 = None /\
  holds w 0 v [4; 9; 2; 7; 2; 5] /\ 1 + 4 <= length [4; 9; 2; 7; 2; 5] /\
  exists w', wrun true (hp_sort Nat.ltb 1 0 0 1 4) w = Ok (tt, w') /\ contents w' 0 = Some [4; 2; 2; 7; 9; 5].
Proof.
  do 2 eexists. split; [exists [ONew 0; OPush 0 4; OPush 0 9; OPush 0 2; OPush 0 7; OPush 0 2; OPush 0 5]; eexists; vm_compute; reflexivity|].
  split; [vm_compute; reflexivity|]. split; [split; vm_compute; reflexivity|].
  split; [simpl; lia|]. eexists. split; vm_compute; reflexivity.
Qed.

(** C20.  Moving transfers all elements and leaves the source an empty heap
    (sentinel only), whatever the two heaps held before. *)
Theorem C20_move : forall (A : Type) (triv : bool) (w : world A) id src v u g l,
  reachable triv w -> holds w id v u ->
  forall vs, holds w src vs (g :: l) -> id <> src ->
  exists w', wrun triv (hp_move_assign id src) w = Ok (tt, w') /\
    contents w' id = Some (g :: l) /\ contents w' src = Some [g] /\
    (forall j, j <> id -> j <> src -> view w' !! j = view w !! j) /\ storage_ok w'.
Proof. exact @move_state. Qed.
Print Assumptions C20_move.

(** ... and that source accepts further pushes and pops (instance of C17). *)
Example C20_case : exists w, wrun false (arun (hp_step Nat.ltb)
  [HNew 0 0; HPush 0 5; HPush 0 3; HMoveNew 1 0; HEmpty 0; HPush 0 8; HPush 0 6; HTop 0; HTop 1; HMoveAssign 1 0; HSize 1; HSize 0])
  world_init = Ok ([RUnit; RUnit; RUnit; RUnit; RBool true; RUnit; RUnit; RVal 6; RVal 3; RUnit; RNat 2; RNat 0], w).
Proof. eexists. vm_compute. reflexivity. Qed.
