(** What a program over vectors asks of the pool, read off its run against
    sequences with a capacity number; and what it should find there. *)
From Verif Require Import Base VectorModel VectorSpec VecProg SMAModel SMASpec VecPoolModel.
Local Open Scope nat_scope.

Section Spec.
Context {A : Type} (triv : bool) (MEM sz : Z).
Notation sworld := (gmap nat (lvec A)).

Definition len (s : sworld) (id : nat) : nat := match s !! id with Some l => length (l_seq l) | None => 0 end.
Definition cap (s : sworld) (id : nat) : nat := match s !! id with Some l => l_cap l | None => 0 end.

(** The storage an operation asks for, in elements; 0 if it asks for none. *)
Definition req (o : wop A) (s : sworld) : nat :=
  match o with
  | WOp (OFill _ n _) | WOp (OResize _ n) | WOp (OResizeFill _ n _) => n
  | WOp (OCopyNew _ src) => cap s src
  | WOp (OAssign id src) => if Nat.eqb id src then 0 else cap s src
  | WOp (OPush id _) | WPushElem id _ _ =>
      if Nat.eqb (len s id) (cap s id) then cap_push (len s id) (cap s id) else 0
  | WOp (OPop id) =>
      if Nat.eqb (cap_pop (len s id - 1) (cap s id)) (cap s id) then 0 else cap_pop (len s id - 1) (cap s id)
  | _ => 0
  end.

(** No request of the program goes beyond what an int can say. *)
Fixpoint fits {X} (p : wprog A X) (s : sworld) : Prop :=
  match p with
  | WDo o k => (Z.of_nat (req o s) * sz + 8 <= INT_MAX)%Z /\
      match lw_step triv o s with Ok (r, s') => fits (k r) s' | _ => True end
  | _ => True
  end.
(** The bytes the program asks for in all its life, each request rounded up. *)
Fixpoint spent {X} (p : wprog A X) (s : sworld) : Z :=
  match p with
  | WDo o k => (rounded (Z.of_nat (req o s) * sz) +
      match lw_step triv o s with Ok (r, s') => spent (k r) s' | _ => 0 end)%Z
  | _ => 0%Z
  end.

(** The bytes the blocks of storage take up. *)
Definition used (w : world A) : Z :=
  map_fold (fun _ n sum => (rounded (Z.of_nat n * sz) + sum)%Z) 0%Z (length <$> m_blocks (w_mem w)).
(** The storage of every vector lies in the pool, the storage of two vectors
    does not overlap, and the rest of the pool is free. *)
Definition pool_ok (s : pworld A) : Prop :=
  (forall id v b, w_objs (pw_w s) !! id = Some v -> v_ptr v = Some b ->
     exists a, pw_addr s !! b = Some a /\ (0 <= a)%Z /\ (a mod 8 = 0)%Z /\ (a + Z.of_nat (v_cap v) * sz <= MEM)%Z) /\
  (forall i j vi vj b c a a', i <> j ->
     w_objs (pw_w s) !! i = Some vi -> w_objs (pw_w s) !! j = Some vj -> v_ptr vi = Some b -> v_ptr vj = Some c ->
     pw_addr s !! b = Some a -> pw_addr s !! c = Some a' ->
     disjoint_ranges a (Z.of_nat (v_cap vi) * sz) a' (Z.of_nat (v_cap vj) * sz)) /\
  m_free (pw_pool s) = (MEM - used (pw_w s))%Z.
End Spec.
