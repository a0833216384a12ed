(** Property C92: heaps show their elements by index and accept references to them. *)
From Verif Require Import Base VectorModel VectorSpec VecProg Adapter HeapModel HeapSpec HeapRefModel HeapRefSpec HeapRefHist.

(** C92.  Every history of calls on any number of heaps and vectors, with
    operator[], capacity() and push of references to elements, is a right one.
    Left out: pushing a reference to an own element of a full heap (below). *)
Theorem C92_history_partial : forall (A : Type) (triv : bool) (cmp : A -> A -> bool) (le : A -> A -> Prop),
  (forall a b c, le a b -> le b c -> le a c) ->
  (forall a b, cmp a b = true -> le a b) ->
  (forall a b, cmp a b = false -> le b a) ->
  forall ops : list (@hrop A),
  exists r, hr_run triv le ops ∅ r /\
    match r with
    | SVal (rs, s) => exists w, wrun triv (arun (hr_prog cmp) ops) world_init = Ok (rs, w) /\ storage_ok w
    | SAbort => wrun triv (arun (hr_prog cmp) ops) world_init = Abort
    | SUnspec => True
    end.
Proof. exact @heap_ref_history. Qed.
Print Assumptions C92_history_partial.

Example C92_case : exists w, wrun true (arun (hr_prog Nat.ltb)
  [HDo (HNew 0 99); HDo (HPush 0 5); HDo (HPush 0 3); HCap 0; HPushRef 0 0 2; HAt 0 0; HAt 0 1; HAt 0 3; HAt 0 (-1)%Z; HAt 0 (-4)%Z;
   HDo (HSize 0); HDo (HVec 1 [7; 1]); HPushRef 0 1 1; HCap 0; HDo (HTop 0); HDo (HIter 0); HDo (HMoveNew 2 0); HAt 0 0; HAt 2 1; HCap 0; HPushRef 0 2 1; HDo (HTop 0)])
  world_init = Ok ([RUnit; RUnit; RUnit; RNat 3; RUnit; RVal 99; RVal 3; RVal 5; RVal 5; RVal 99;
    RNat 3; RUnit; RUnit; RNat 7; RVal 1; RList [1; 3; 5; 5]; RUnit; RVal 99; RVal 1; RNat 0; RUnit; RVal 1], w).
Proof. eexists. vm_compute. reflexivity. Qed.
Example C92_out : wrun true (arun (hr_prog Nat.ltb) [HDo (HNew 0 99); HDo (HPush 0 5); HAt 0 2]) world_init = Abort.
Proof. vm_compute. reflexivity. Qed.

(** When size() and capacity() differ, or the element belongs to another
    object, push(src[i]) does exactly what pushing a copy of the element does. *)
Theorem C92_copy : forall (A : Type) (triv : bool) (cmp : A -> A -> bool) (ops : list (@hrop A)) id src i n m a rs w,
  wrun triv (arun (hr_prog cmp) (ops ++ [HDo (HSize id); HCap id; HAt src i])) world_init = Ok (rs ++ [RNat n; RNat m; RVal a], w) ->
  (id <> src \/ n <> m) ->
  match wrun triv (arun (hr_prog cmp) (ops ++ [HDo (HPush id a)])) world_init with
  | Ok (rs', w1) => exists w2,
      wrun triv (arun (hr_prog cmp) (ops ++ [HPushRef id src i])) world_init = Ok (rs', w2) /\ view w2 = view w1
  | r => wrun triv (arun (hr_prog cmp) (ops ++ [HPushRef id src i])) world_init = r
  end.
Proof. exact @push_ref_seen. Qed.
Print Assumptions C92_copy.

Example C92_copy_hyp : let ops := [HDo (HNew 0 99); HDo (HPush 0 5); HDo (HPush 0 3)] in
  exists w, wrun true (arun (hr_prog Nat.ltb) (ops ++ [HDo (HSize 0); HCap 0; HAt 0 2])) world_init
    = Ok ([RUnit; RUnit; RUnit] ++ [RNat 2; RNat 3; RVal 5], w).
Proof. eexists. vm_compute. reflexivity. Qed.

(** When size() and capacity() agree, pushing any own element reads memory that
    push_back has just given back: the full statement is false. *)
Theorem C92_full_refuted : forall (A : Type) (triv : bool) (cmp : A -> A -> bool) (ops : list (@hrop A)) id i n a rs w,
  wrun triv (arun (hr_prog cmp) (ops ++ [HDo (HSize id); HCap id; HAt id i])) world_init = Ok (rs ++ [RNat n; RNat n; RVal a], w) ->
  wrun triv (arun (hr_prog cmp) (ops ++ [HPushRef id id i])) world_init = UB.
Proof. exact @push_ref_refuted. Qed.
Print Assumptions C92_full_refuted.

Example C92_full_hyp : let ops := [HDo (HNew 0 99); HDo (HPush 0 5)] in
  exists w, wrun true (arun (hr_prog Nat.ltb) (ops ++ [HDo (HSize 0); HCap 0; HAt 0 1])) world_init
    = Ok ([RUnit; RUnit] ++ [RNat 1; RNat 1; RVal 5], w).
Proof. eexists. vm_compute. reflexivity. Qed.
