(** What disjoint sets should do.  Two specifications. *)
From Coq Require Import Relations.
From Verif Require Import Base VectorModel VectorSpec DSUModel.

(** (1) By links: [n] elements and the list of pairs connected so far. *)
Record dlinks := DLinks { dl_n : nat; dl_pairs : list (nat * nat) }.

(** Being linked: the reflexive-symmetric-transitive closure of the pairs. *)
Definition linked (E : list (nat * nat)) : nat -> nat -> Prop :=
  clos_refl_sym_trans nat (fun x y => In (x, y) E).

Section Step.
Notation dworld := (gmap nat dlinks).

Definition d_step (o : dop) (s : dworld) (r : sres (out Z * dworld)) : Prop :=
  match o with
  | DNew id n => match s !! id with
      | None => if Nat.eqb n 0 then r = SAbort else r = SVal (RUnit, <[id := DLinks n []]> s)
      | _ => r = SUnspec end
  | DCopyNew id src => match s !! id, s !! src with
      | None, Some d => r = SVal (RUnit, <[id := d]> s) | _, _ => r = SUnspec end
  | DMoveNew id src => match s !! id, s !! src with
      | None, Some d => r = SVal (RUnit, <[src := DLinks 0 []]> (<[id := d]> s)) | _, _ => r = SUnspec end
  | DAssign id src => match s !! id, s !! src with
      | Some _, Some d => r = SVal (RUnit, <[id := d]> s) | _, _ => r = SUnspec end
  | DMoveAssign id src => match s !! id, s !! src with
      | Some _, Some d => if Nat.eqb id src then r = SVal (RUnit, s)
                          else r = SVal (RUnit, <[src := DLinks 0 []]> (<[id := d]> s))
      | _, _ => r = SUnspec end
  | DDestroy id => match s !! id with Some _ => r = SVal (RUnit, delete id s) | _ => r = SUnspec end
  | DFind id x => match s !! id with
      | Some d => if Nat.ltb x (dl_n d) then
            exists y, y < dl_n d /\ linked (dl_pairs d) x y /\ r = SVal (RVal (Z.of_nat y), s)
          else r = SAbort
      | _ => r = SUnspec end
  | DConnected id x y => match s !! id with
      | Some d => if Nat.ltb x (dl_n d) && Nat.ltb y (dl_n d) then
            exists b, (b = true <-> linked (dl_pairs d) x y) /\ r = SVal (RBool b, s)
          else r = SAbort
      | _ => r = SUnspec end
  | DConnect id x y => match s !! id with
      | Some d => if Nat.ltb x (dl_n d) && Nat.ltb y (dl_n d) then
            (~ linked (dl_pairs d) x y /\ r = SVal (RUnit, <[id := DLinks (dl_n d) ((x, y) :: dl_pairs d)]> s)) \/
            (linked (dl_pairs d) x y /\ r = SUnspec)       (* see C23 *)
          else r = SAbort
      | _ => r = SUnspec end
  | DCount id => match s !! id with
      | Some d => r = SVal (RNat (dl_n d - length (dl_pairs d)), s) | _ => r = SUnspec end
  | DSize id => match s !! id with Some d => r = SVal (RNat (dl_n d), s) | _ => r = SUnspec end
  | DEmpty id => match s !! id with Some d => r = SVal (RBool (Nat.eqb (dl_n d) 0), s) | _ => r = SUnspec end
  end.

(** [d_run ops s r]: [r] is a right outcome of history [ops]. *)
Fixpoint d_run (ops : list dop) (s : dworld) (r : sres (list (out Z) * dworld)) : Prop :=
  match ops with
  | [] => r = SVal ([], s)
  | o :: ops => exists r1, d_step o s r1 /\
      match r1 with
      | SVal (x, s') => exists r2, d_run ops s' r2 /\
          r = match r2 with SVal (xs, s'') => SVal (x :: xs, s'') | SAbort => SAbort | SUnspec => SUnspec end
      | SAbort => r = SAbort
      | SUnspec => r = SUnspec
      end
  end.
End Step.

(** (2) By representatives: element number i is represented by the i-th entry. *)
Section Rep.
Notation rworld := (gmap nat (list nat)).

Definition rep (d : list nat) (x : nat) : nat := nth x d x.
Definition classes (d : list nat) : nat := length (List.filter (fun i => Nat.eqb (rep d i) i) (seq 0 (length d))).

Definition dr_step (o : dop) (s : rworld) : sres (out Z * rworld) :=
  match o with
  | DNew id n => match s !! id with
      | None => if Nat.eqb n 0 then SAbort else SVal (RUnit, <[id := seq 0 n]> s)
      | _ => SUnspec end
  | DCopyNew id src => match s !! id, s !! src with
      | None, Some d => SVal (RUnit, <[id := d]> s) | _, _ => SUnspec end
  | DMoveNew id src => match s !! id, s !! src with
      | None, Some d => SVal (RUnit, <[src := []]> (<[id := d]> s)) | _, _ => SUnspec end
  | DAssign id src => match s !! id, s !! src with
      | Some _, Some d => SVal (RUnit, <[id := d]> s) | _, _ => SUnspec end
  | DMoveAssign id src => match s !! id, s !! src with
      | Some _, Some d => if Nat.eqb id src then SVal (RUnit, s)
                          else SVal (RUnit, <[src := []]> (<[id := d]> s))
      | _, _ => SUnspec end
  | DDestroy id => match s !! id with Some _ => SVal (RUnit, delete id s) | _ => SUnspec end
  | DFind id x => match s !! id with
      | Some d => if Nat.ltb x (length d) then SVal (RVal (Z.of_nat (rep d x)), s) else SAbort
      | _ => SUnspec end
  | DConnected id x y => match s !! id with
      | Some d => if Nat.ltb x (length d) && Nat.ltb y (length d)
          then SVal (RBool (Nat.eqb (rep d x) (rep d y)), s) else SAbort
      | _ => SUnspec end
  | DConnect id x y => match s !! id with
      | Some d => if Nat.ltb x (length d) && Nat.ltb y (length d) then
            if Nat.eqb (rep d x) (rep d y) then SUnspec
            else SVal (RUnit, <[id := map (fun z => if Nat.eqb z (rep d y) then rep d x else z) d]> s)
          else SAbort
      | _ => SUnspec end
  | DCount id => match s !! id with Some d => SVal (RNat (classes d), s) | _ => SUnspec end
  | DSize id => match s !! id with Some d => SVal (RNat (length d), s) | _ => SUnspec end
  | DEmpty id => match s !! id with Some d => SVal (RBool (Nat.eqb (length d) 0), s) | _ => SUnspec end
  end.
End Rep.
