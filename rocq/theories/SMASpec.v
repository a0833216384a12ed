(** What a memory allocator should do. *)
From Verif Require Import Base SMAModel.
Open Scope Z_scope.

(** The multiple of 8 not below n that is nearest to n. *)
Definition rounded (n : Z) : Z := (n + 7) / 8 * 8.

(** Byte ranges [a, a+n). *)
Definition within (x : Z) (a n : Z) : Prop := a <= x < a + n.
Definition disjoint_ranges (a n b m : Z) : Prop := forall x, within x a n -> ~ within x b m.

(** The template parameters the claims are about. *)
Definition params (MEM MAX : Z) : Prop := (8 <= MAX /\ MAX + 16 <= INT_MAX) /\ 16 <= MEM /\ MEM mod 8 = 0 /\ MEM + 8 <= INT_MAX.

Section Spec.
Context (MEM MAX : Z).

(** The blocks on the free lists, read off the state: the list of class i holds
    blocks of 8*(i+1) bytes, the last list blocks that carry their own size. *)
Inductive linked (st : sma) (l : loc) : Z -> Prop :=
| linked_first a : next st l = Some (Some a) -> linked st l a
| linked_next b a : linked st l b -> next st (Blk b) = Some (Some a) -> linked st l a.
Definition free_block (st : sma) (a n : Z) : Prop :=
  exists i, linked st (Head i) a /\
    if (i <? nlists MAX - 1)%nat then n = 8 * (Z.of_nat i + 1) else m_mem st !! (a + 8) = Some (WInt n).

(** The client's ledger: live allocations with the size asked for. *)
Notation ledger := (gmap Z Z).
Definition live_bytes (led : ledger) : Z := map_fold (fun _ n s => rounded n + s) 0 led.
Definition owned (led : ledger) (x : Z) : Prop := exists a n, led !! a = Some n /\ within x a (rounded n).

(** The words of the live blocks keep their contents. *)
Definition keeps (led : ledger) (st st' : sma) : Prop := forall x, owned led x -> x mod 8 = 0 -> m_mem st' !! x = m_mem st !! x.

(** The states a client can bring about that asks for positive sizes, gives
    back only what it got, once and with the size it asked for, and writes only
    into its own blocks. *)
Inductive reach : sma -> ledger -> Prop :=
| reach_init : reach (sma_init MEM MAX) ∅
| reach_alloc st led n p st' : reach st led -> 0 < n -> n + 8 <= INT_MAX ->
    allocate MEM MAX n st = Ok (p, st') -> reach st' (match p with Some a => <[a := n]> led | None => led end)
| reach_dealloc st led a n b st' : reach st led -> led !! a = Some n ->
    deallocate MEM MAX (Some a) n st = Ok (b, st') -> reach st' (delete a led)
| reach_merge st led st' : reach st led -> memory_merge MEM MAX st = Ok (tt, st') -> reach st' led
| reach_write st led a x st' : reach st led -> owned led a -> a mod 8 = 0 ->
    user_write MEM a x st = Ok (tt, st') -> reach st' led.
End Spec.
