(** StaticMemAllocator as the allocator of nodes of [n] bytes each
    (dstruct-static.hpp 48-73: the lists of dstruct::smemory). *)
From Verif Require Import Base Alloc SMAModel SMASpec.
Open Scope Z_scope.

Section Nodes.
Context (MEM MAX n : Z).

(** The allocator after granting and taking back the addresses of a log;
    AllocSpec::allocate and deallocate of one node (spec/DStructSpec.hpp 45-54)
    over allocate and deallocate (StaticMemAllocator.hpp 69-75).  An address is
    the offset into mMemoryPool_d.  [None]: one of the calls did not return.
    Nothing is written to the nodes here. *)
Fixpoint sma_after (log : list aev) : option sma :=
  match log with
  | [] => Some (sma_init MEM MAX)
  | Got _ :: log =>
      st ← sma_after log; match allocate MEM MAX n st with Ok (_, st') => Some st' | _ => None end
  | Gave a :: log =>
      st ← sma_after log; match deallocate MEM MAX (Some (Z.of_nat a)) n st with Ok (_, st') => Some st' | _ => None end
  end.
(** Its answer to the next request: AllocSpec::allocate, spec/DStructSpec.hpp
    47-49, over StaticMemAllocator.hpp 69-71. *)
Definition sma_nodes : policy := fun log =>
  st ← sma_after log; match allocate MEM MAX n st with Ok (Some a, _) => Some (Z.to_nat a) | _ => None end.

(** How many nodes fit. *)
Definition sma_room : nat := Z.to_nat (MEM / rounded n).

(** The executions of the allocator when it serves nodes of [n] bytes only and
    the users of the nodes in use write what they like into them.  The log holds
    the requests granted and the nodes given back, newest first. *)
Inductive sma_runs : list aev -> sma -> Prop :=
| runs_init : sma_runs [] (sma_init MEM MAX)
| runs_got log st a st' : sma_runs log st -> allocate MEM MAX n st = Ok (Some a, st') -> sma_runs (Got (Z.to_nat a) :: log) st'
| runs_refused log st st' : sma_runs log st -> allocate MEM MAX n st = Ok (None, st') -> sma_runs log st'
| runs_gave log st a b st' : sma_runs log st -> a ∈ al_live log -> deallocate MEM MAX (Some (Z.of_nat a)) n st = Ok (b, st') -> sma_runs (Gave a :: log) st'
| runs_write log st a x w st' : sma_runs log st -> a ∈ al_live log -> within x (Z.of_nat a) (rounded n) -> x mod 8 = 0 ->
    user_write MEM x w st = Ok (tt, st') -> sma_runs log st'.

(** The executions when the pool is shared: others hold blocks of any size, ask
    for more, give back, merge and write into their blocks; the ledger lists the
    blocks of both. *)
Inductive sma_shared : list aev -> sma -> gmap Z Z -> Prop :=
| shared_init : sma_shared [] (sma_init MEM MAX) ∅
| shared_got log st led a st' : sma_shared log st led -> allocate MEM MAX n st = Ok (Some a, st') ->
    sma_shared (Got (Z.to_nat a) :: log) st' (<[a := n]> led)
| shared_gave log st led a b st' : sma_shared log st led -> a ∈ al_live log -> deallocate MEM MAX (Some (Z.of_nat a)) n st = Ok (b, st') ->
    sma_shared (Gave a :: log) st' (delete (Z.of_nat a) led)
| shared_other_got log st led m p st' : sma_shared log st led -> 0 < m -> m + 8 <= INT_MAX -> allocate MEM MAX m st = Ok (p, st') ->
    sma_shared log st' (match p with Some a => <[a := m]> led | None => led end)
| shared_other_gave log st led a m b st' : sma_shared log st led -> led !! a = Some m -> Z.to_nat a ∉ al_live log ->
    deallocate MEM MAX (Some a) m st = Ok (b, st') -> sma_shared log st' (delete a led)
| shared_merge log st led st' : sma_shared log st led -> memory_merge MEM MAX st = Ok (tt, st') -> sma_shared log st' led
| shared_write log st led x w st' : sma_shared log st led -> owned led x -> x mod 8 = 0 -> user_write MEM x w st = Ok (tt, st') -> sma_shared log st' led.
End Nodes.
