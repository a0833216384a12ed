(** What strings should do: plain character sequences. *)
From Verif Require Import Base VectorModel VectorSpec StringModel.

(** The C string at the start of an array, if it is terminated. *)
Fixpoint cstr (buf : list Z) : option (list Z) :=
  match buf with
  | [] => None
  | c :: rest => if (c =? 0)%Z then Some [] else match cstr rest with Some l => Some (c :: l) | None => None end
  end.

(** A string a client may use, or one that has been moved from (about which
    C10 claims nothing until it is assigned or destroyed; see C14). *)
Inductive tstr := TLive (l : list Z) | TMoved.

Section Spec.
Notation tworld := (gmap nat tstr).

Definition with_str {X} (s : tworld) (id : nat) (k : list Z -> sres X) : sres X :=
  match s !! id with Some (TLive l) => k l | _ => SUnspec end.
Definition no_str {X} (s : tworld) (id : nat) (r : sres X) : sres X :=
  match s !! id with None => r | _ => SUnspec end.
Definition some_str {X} (s : tworld) (id : nat) (r : sres X) : sres X :=
  match s !! id with Some _ => r | None => SUnspec end.
(** Non-empty, terminated C strings (the empty one is C12). *)
Definition with_c {X} (buf : list Z) (k : list Z -> sres X) : sres X :=
  match cstr buf with Some (c :: l) => k (c :: l) | _ => SUnspec end.

Definition list_eqb (a b : list Z) : bool := bool_decide (a = b).

Definition t_step (o : top) (s : tworld) : sres (tout * tworld) :=
  match o with
  | TNew id => no_str s id (SVal (TUnit, <[id := TLive []]> s))
  | TLit id buf => no_str s id (with_c buf (fun l => SVal (TUnit, <[id := TLive l]> s)))
  | TCopyNew id src => no_str s id (with_str s src (fun l => SVal (TUnit, <[id := TLive l]> s)))
  | TMoveNew id src => no_str s id (with_str s src (fun l => SVal (TUnit, <[src := TMoved]> (<[id := TLive l]> s))))
  | TAssign id src => some_str s id (with_str s src (fun l => SVal (TUnit, <[id := TLive l]> s)))
  | TMoveAssign id src => some_str s id (with_str s src (fun l =>
      if Nat.eqb id src then SVal (TUnit, s) else SVal (TUnit, <[src := TMoved]> (<[id := TLive l]> s))))
  | TAssignC id buf => some_str s id (with_c buf (fun l => SVal (TUnit, <[id := TLive l]> s)))
  | TDestroy id => some_str s id (SVal (TUnit, delete id s))
  | TPush id c => with_str s id (fun l => SVal (TUnit, <[id := TLive (l ++ [c])]> s))
  | TSet id i c => with_str s id (fun l =>
      if (i <? 0)%Z then SUnspec
      else if (i <? Z.of_nat (length l))%Z then SVal (TUnit, <[id := TLive (<[Z.to_nat i := c]> l)]> s)
      else if (i =? Z.of_nat (length l))%Z then SUnspec else SAbort)
  | TClear id => with_str s id (fun _ => SVal (TUnit, <[id := TLive []]> s))
  | TAppend id src => with_str s id (fun a => with_str s src (fun b =>
      if Nat.eqb id src then SUnspec (* C13 *) else SVal (TUnit, <[id := TLive (a ++ b)]> s)))
  | TAppendC id buf => with_str s id (fun a => with_c buf (fun b => SVal (TUnit, <[id := TLive (a ++ b)]> s)))
  | TPlus id a b => no_str s id (with_str s a (fun x => with_str s b (fun y => SVal (TUnit, <[id := TLive (x ++ y)]> s))))
  | TPlusCR id a buf => no_str s id (with_str s a (fun x => with_c buf (fun y => SVal (TUnit, <[id := TLive (x ++ y)]> s))))
  | TPlusCL id buf b => no_str s id (with_c buf (fun x => with_str s b (fun y => SVal (TUnit, <[id := TLive (x ++ y)]> s))))
  | TEq a b => with_str s a (fun x => with_str s b (fun y => SVal (TBool (list_eqb x y), s)))
  | TEqCR a buf => with_str s a (fun x => with_c buf (fun y => SVal (TBool (list_eqb x y), s)))
  | TEqCL buf b => with_c buf (fun x => with_str s b (fun y => SVal (TBool (list_eqb x y), s)))
  | TNe a b => with_str s a (fun x => with_str s b (fun y => SVal (TBool (negb (list_eqb x y)), s)))
  | TNeCR a buf => with_str s a (fun x => with_c buf (fun y => SVal (TBool (negb (list_eqb x y)), s)))
  | TNeCL buf b => with_c buf (fun x => with_str s b (fun y => SVal (TBool (negb (list_eqb x y)), s)))
  | TSize id => with_str s id (fun l => SVal (TNum (Z.of_nat (length l) mod 2 ^ 64), s))
  | TEmpty id => with_str s id (fun l =>
      if (Z.of_nat (length l) <? 2 ^ 64)%Z then SVal (TBool (Nat.eqb (length l) 0), s) else SUnspec)
  | TBack id => with_str s id (fun l => match last l with Some c => SVal (TChar c, s) | None => SUnspec end)
  | TFront id => with_str s id (fun l => match l with c :: _ => SVal (TChar c, s) | [] => SVal (TChar 0%Z, s) end)
  | TGet id i => with_str s id (fun l =>
      if (i <? 0)%Z then SUnspec
      else match (l ++ [0%Z]) !! Z.to_nat i with Some c => SVal (TChar c, s) | None => SAbort end)
  | TIter id => with_str s id (fun l => SVal (TChars l, s))
  | TCstr id => with_str s id (fun l => SVal (TChars (l ++ [0%Z]), s))
  end.
End Spec.
