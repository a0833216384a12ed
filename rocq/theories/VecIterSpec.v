(** What iterators and references of vectors should mean: a variable designates a
    position in a vector as long as that vector keeps its storage.  Only sequences,
    capacities and positions; no memory. *)
From Verif Require Import Base VectorModel VectorSpec VecProg VecIterModel.

(** [PAt id i]: position [i] counted from begin() of vector [id]; [PNull]: an iterator
    of a vector without storage; [PGone]: the storage designated no longer exists. *)
Inductive pos := PAt (id i : nat) | PNull | PGone.

Section Spec.
Context {A : Type} (triv : bool) (eqb : A -> A -> bool).
Notation state := (lworld A * gmap nat pos)%type.

(** push_back on a full vector, and a pop_back that leaves less than a third of the
    capacity in use, replace the storage. *)
Definition push_replaces (l : lvec A) : bool := Nat.eqb (length (l_seq l)) (l_cap l).
Definition pop_replaces (l : lvec A) : bool := Nat.ltb (length (l_seq l) - 1) (l_cap l / 3).
Definition of_vec (s : lworld A) (id : nat) (f : lvec A -> bool) : bool :=
  match s !! id with Some l => f l | None => false end.

(** What a call makes of position [i] in vector [id]. *)
Definition follow (o : vop A) (s : lworld A) (id i : nat) : pos :=
  match o with
  | OPush x _ => if Nat.eqb x id && of_vec s x push_replaces then PGone else PAt id i
  | OPop x => if Nat.eqb x id && of_vec s x pop_replaces then PGone else PAt id i
  | OResize x _ | OResizeFill x _ _ | OClear x | ODestroy x => if Nat.eqb x id then PGone else PAt id i
  | OAssign x y => if Nat.eqb x id && negb (Nat.eqb x y) then PGone else PAt id i
  | OMoveNew x y => if Nat.eqb y id then PAt x i else PAt id i
  | OMoveAssign x y =>
      if Nat.eqb x y then PAt id i
      else if Nat.eqb y id then PAt x i else if Nat.eqb x id then PGone else PAt id i
  | _ => PAt id i
  end.
Definition follow_pos (o : vop A) (s : lworld A) (q : pos) : pos :=
  match q with PAt id i => follow o s id i | q => q end.

(** Position [i] of vector [id]: of its storage, if it has any. *)
Definition pos_of (l : lvec A) (id i : nat) : pos := if Nat.eqb (l_cap l) 0 then PNull else PAt id i.

(** Moving by [z] positions, within the storage. *)
Definition pos_add (s : lworld A) (q : pos) (z : Z) : option pos :=
  match q with
  | PAt id i =>
      match s !! id with
      | Some l =>
          let j := (Z.of_nat i + z)%Z in
          if (0 <=? j)%Z && (j <=? Z.of_nat (l_cap l))%Z then Some (PAt id (Z.to_nat j)) else None
      | None => None
      end
  | PNull => if (z =? 0)%Z then Some PNull else None
  | PGone => None
  end.
Definition pos_diff (q r : pos) : option Z :=
  match q, r with
  | PAt id i, PAt id' j => if Nat.eqb id id' then Some (Z.of_nat i - Z.of_nat j)%Z else None
  | PNull, PNull => Some 0%Z
  | _, _ => None
  end.
(** The element at a position. *)
Definition pos_get (s : lworld A) (q : pos) : option A :=
  match q with
  | PAt id i => match s !! id with Some l => nth_error (l_seq l) i | None => None end
  | _ => None
  end.
Definition set_at (s : lworld A) (id i : nat) (a : A) : lworld A :=
  match s !! id with Some l => <[id := LVec (<[i := a]> (l_seq l)) (l_cap l)]> s | None => s end.

(** Where in [l] the first element equal to [a] is. *)
Fixpoint first_at (a : A) (l : list A) : option nat :=
  match l with
  | [] => None
  | x :: l => if eqb x a then Some 0 else S <$> first_at a l
  end.
(** The elements a loop from position [i] to position [j] comes across, and whether
    it gets to [j]. *)
Definition window (l : list A) (i j : nat) : list A :=
  if Nat.leb i j then firstn (j - i) (skipn i l) else skipn i l.
Definition arrives (l : list A) (i j : nat) : bool := Nat.eqb i j || (Nat.leb i j && Nat.leb j (length l)).

Definition pos_find (s : lworld A) (a : A) (b e : pos) : option pos :=
  match b, e with
  | PAt id i, PAt id' j =>
      match s !! id with
      | Some l =>
          if negb (Nat.eqb id id') then None else
          match first_at a (window (l_seq l) i j) with
          | Some k => Some (PAt id (i + k))
          | None => if arrives (l_seq l) i j then Some e else None
          end
      | None => None
      end
  | PNull, PNull => Some PNull
  | _, _ => None
  end.
Definition pos_each (s : lworld A) (cb : A -> A) (b e : pos) : option (list A * lworld A) :=
  match b, e with
  | PAt id i, PAt id' j =>
      match s !! id with
      | Some l =>
          if Nat.eqb id id' && arrives (l_seq l) i j
          then Some (window (l_seq l) i j,
                     <[id := LVec (firstn i (l_seq l) ++ map cb (window (l_seq l) i j)
                                   ++ skipn (i + length (window (l_seq l) i j)) (l_seq l)) (l_cap l)]> s)
          else None
      | None => None
      end
  | PNull, PNull => Some ([], s)
  | _, _ => None
  end.

Definition with_var {X} (s : state) (k : nat) (f : pos -> res X) : res X :=
  match snd s !! k with Some q => f q | None => UB end.
Definition orub {X Y} (x : option X) (f : X -> res Y) : res Y := match x with Some x => f x | None => UB end.
Definition setting (s : state) (k : nat) (q : pos) : res (yout A * state) :=
  Ok (YOut RUnit, (fst s, <[k := q]> (snd s))).

(** [UB]: outside the precondition. *)
Definition ys_step (o : yop A) (s : state) : res (yout A * state) :=
  match o with
  | YVec o =>
      match lv_step triv o (fst s) with
      | Ok (r, v) => Ok (YOut r, (v, follow_pos o (fst s) <$> snd s))
      | Abort => Abort | UB => UB | Diverge => Diverge
      end
  | YCap id => lwith (fst s) id (fun l => Ok (YOut (RNat (l_cap l)), s))
  | YBegin k id => lwith (fst s) id (fun l => setting s k (pos_of l id 0))
  | YEnd k id => lwith (fst s) id (fun l => setting s k (pos_of l id (length (l_seq l))))
  | YRef k id z => lwith (fst s) id (fun l => at_index (l_seq l) z (fun i => setting s k (PAt id i)))
  | YCopy k j => with_var s j (setting s k)
  | YNext k => with_var s k (fun q => orub (pos_add (fst s) q 1) (setting s k))
  | YPrev k => with_var s k (fun q => orub (pos_add (fst s) q (-1)) (setting s k))
  | YPostNext k j => with_var s j (fun q => orub (pos_add (fst s) q 1) (fun r =>
      Ok (YOut RUnit, (fst s, <[k := q]> (<[j := r]> (snd s))))))
  | YPostPrev k j => with_var s j (fun q => orub (pos_add (fst s) q (-1)) (fun r =>
      Ok (YOut RUnit, (fst s, <[k := q]> (<[j := r]> (snd s))))))
  | YPlus k j z => with_var s j (fun q => orub (pos_add (fst s) q z) (setting s k))
  | YMinus k j z => with_var s j (fun q => orub (pos_add (fst s) q (- z)) (setting s k))
  | YRead k => with_var s k (fun q => orub (pos_get (fst s) q) (fun a => Ok (YOut (RVal a), s)))
  | YWrite k a => with_var s k (fun q => orub (pos_get (fst s) q) (fun _ =>
      match q with PAt id i => Ok (YOut RUnit, (set_at (fst s) id i a, snd s)) | _ => UB end))
  | YPush id k => lwith (fst s) id (fun l => with_var s k (fun q => orub (pos_get (fst s) q) (fun a =>
      (* an own element dangles as soon as the push replaces the storage *)
      if (match q with PAt src _ => Nat.eqb src id | _ => false end) && push_replaces l then UB
      else Ok (YOut RUnit,
        (<[id := LVec (l_seq l ++ [a]) (cap_push (length (l_seq l)) (l_cap l))]> (fst s),
         follow_pos (OPush id a) (fst s) <$> snd s)))))
  | YEq k j => with_var s k (fun q => with_var s j (fun r =>
      orub (pos_diff q r) (fun d => Ok (YOut (RBool (d =? 0)%Z), s))))
  | YNe k j => with_var s k (fun q => with_var s j (fun r =>
      orub (pos_diff q r) (fun d => Ok (YOut (RBool (negb (d =? 0)%Z)), s))))
  | YDist k j => with_var s k (fun q => with_var s j (fun r =>
      orub (pos_diff r q) (fun d => Ok (YInt d, s))))
  | YFind k b e a => with_var s b (fun q => with_var s e (fun r =>
      orub (pos_find (fst s) a q r) (setting s k)))
  | YEach b e cb => with_var s b (fun q => with_var s e (fun r =>
      orub (pos_each (fst s) cb q r) (fun x => Ok (YOut (RList (fst x)), (snd x, snd s)))))
  end.

(** Running a history. *)
Fixpoint ys_run (ops : list (yop A)) (s : state) : res (list (yout A) * state) :=
  match ops with
  | [] => Ok ([], s)
  | o :: ops =>
      match ys_step o s with
      | Ok (r, s1) =>
          match ys_run ops s1 with
          | Ok (rs, s2) => Ok (r :: rs, s2)
          | Abort => Abort | UB => UB | Diverge => Diverge
          end
      | Abort => Abort | UB => UB | Diverge => Diverge
      end
  end.
End Spec.
