(** C69: the classes built on vectors over the static memory pool
    (smemory::String, Stack, MinStack/MaxStack, MinHeap/MaxHeap, UFSet). *)
From Verif Require Import Base VectorModel VectorSpec VecProg Adapter SMAModel SMASpec VecPoolModel VecPoolSpec PoolAdapterSpec PoolAdapterProofs
  StackModel StackSpec StringModel StringSpec HeapModel HeapSpec DSUModel DSUSpec.
Local Open Scope nat_scope.

(** For every pool, every element size, through the port or not, whatever bytes
    are written into owned storage: every history answers as its specification
    says or crashes for want of memory; and it does not crash if all the storage
    it ever asks for fits into the pool. *)
Theorem C69_string : forall (MEM MAX sz : Z) (port : bool), params MEM MAX -> (0 < sz)%Z ->
  forall bytes (ops : list top),
  pooled true MEM MAX sz port bytes (arun StringModel.st_step ops) (srun t_step ops ∅).
Proof. exact @pool_string. Qed.
Print Assumptions C69_string.

Theorem C69_stack : forall (MEM MAX sz : Z) (port : bool), params MEM MAX -> (0 < sz)%Z ->
  forall (A : Type) (triv : bool) (bytes : pworld A -> list (Z * Z)) (ops : list (kop A)),
  pooled triv MEM MAX sz port bytes (arun StackModel.st_step ops) (srun (k_step triv) ops ∅).
Proof. exact @pool_stack. Qed.
Print Assumptions C69_stack.

(** (Excluding the histories on which MinStack and MaxStack fail anyway, C16.) *)
Theorem C69_xstack : forall (MEM MAX sz : Z) (port : bool), params MEM MAX -> (0 < sz)%Z ->
  forall (A : Type) (triv : bool) (bytes : pworld A -> list (Z * Z)) (cmp eqb : A -> A -> bool),
  (forall a, cmp a a = false) -> (forall a b c, cmp a b = true -> cmp b c = true -> cmp a c = true) -> (forall a, eqb a a = true) ->
  forall (g : A) (ops : list xop), no_repeat cmp eqb ops [] ->
  exists rs, xspec cmp ops [] rs /\ answers_or_crashes triv MEM MAX sz port bytes (xs_history cmp eqb g ops) rs.
Proof. exact @pool_xstack. Qed.
Print Assumptions C69_xstack.

Theorem C69_heap : forall (MEM MAX sz : Z) (port : bool), params MEM MAX -> (0 < sz)%Z ->
  forall (A : Type) (triv : bool) (bytes : pworld A -> list (Z * Z)) (cmp : A -> A -> bool) (le : A -> A -> Prop),
  (forall a b c, le a b -> le b c -> le a c) ->
  (forall a b, cmp a b = true -> le a b) -> (forall a b, cmp a b = false -> le b a) ->
  forall ops : list (@hop A),
  exists r, h_run triv le ops ∅ r /\ pooled triv MEM MAX sz port bytes (arun (hp_step cmp) ops) r.
Proof. exact @pool_heap. Qed.
Print Assumptions C69_heap.

Theorem C69_ufset : forall (MEM MAX sz : Z) (port : bool), params MEM MAX -> (0 < sz)%Z ->
  forall bytes (ops : list dop), exists r, d_run ops ∅ r /\ pooled true MEM MAX sz port bytes (arun ds_step ops) r.
Proof. exact @pool_dsu. Qed.
Print Assumptions C69_ufset.

(** Non-trivial cases: two strings in a pool of 64 bytes, and the same history
    going on until the pool is exhausted; a heap of ints in a pool of 96 bytes. *)
Definition c69_string : list top := [TLit 0 [104; 105; 0]; TPush 0 33; TCopyNew 1 0; TAppend 1 0; TCstr 1; TSize 0]%Z.
Definition c69_heap : list (@hop nat) := [HNew 0 0; HPush 0 5; HPush 0 3; HPush 0 8; HPush 0 3; HTop 0; HPop 0; HPop 0; HTop 0].
Example C69_case :
  params 10240 128 /\ params 64 16 /\ (spent true 1 (arun StringModel.st_step c69_string) ∅ <= 64)%Z /\
  (exists s, srun t_step c69_string ∅ = SVal ([TUnit; TUnit; TUnit; TUnit; TChars [104; 105; 33; 104; 105; 33; 0]%Z; TNum 3], s)) /\
  (exists w, pwrun true 64 16 1 false (fun _ => []) (arun StringModel.st_step c69_string) (pw_init 64 16) =
     Ok ([TUnit; TUnit; TUnit; TUnit; TChars [104; 105; 33; 104; 105; 33; 0]%Z; TNum 3], w)) /\
  (let more := (c69_string ++ concat (repeat [TCopyNew 2 1; TAppend 1 2; TAppend 1 0; TDestroy 2] 3))%list in
   fits true 1 (arun StringModel.st_step more) ∅ /\
   (exists s rs, srun t_step more ∅ = SVal (rs, s)) /\
   pwrun true 64 16 1 false (fun _ => []) (arun StringModel.st_step more) (pw_init 64 16) = Abort) /\
  (spent true 4 (arun (hp_step Nat.ltb) c69_heap) ∅ <= 96)%Z /\
  (exists w, pwrun true 96 16 4 true (fun _ => []) (arun (hp_step Nat.ltb) c69_heap) (pw_init 96 16) =
     Ok ([RUnit; RUnit; RUnit; RUnit; RUnit; RVal 3; RUnit; RUnit; RVal 5], w)).
Proof.
  split; [unfold params; vm_compute; repeat split; congruence|]. split; [unfold params; vm_compute; repeat split; congruence|].
  split; [vm_compute; congruence|]. split; [eexists; vm_compute; reflexivity|]. split; [eexists; vm_compute; reflexivity|].
  split; [split; [vm_compute; repeat split; congruence|split; [do 2 eexists; vm_compute; reflexivity|vm_compute; reflexivity]]|].
  split; [vm_compute; congruence|]. eexists. vm_compute. reflexivity.
Qed.
