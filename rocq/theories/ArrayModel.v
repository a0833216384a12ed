(** Model of core/ds/array/Array.hpp: Array<T,N>.  The storage of one object is
    the member [T mC_d[N == 0 ? 1 : N]] (line 101), a list of [max 1 N] elements;
    an access outside it is undefined behaviour.  Element types are any [A];
    [junk] is what default construction leaves in an element, and [mvd x] is what
    a moved-from element holding [x] is left with. *)
From Verif Require Import Base VectorModel.

Section Array.
Context {A : Type} (N : nat) (junk : A) (mvd : A -> A).

Definition arr_len : nat := match N with O => 1 | _ => N end.
(** Element access mC_d[i]. *)
Definition ar_load (m : list A) (i : Z) : res A :=
  if (i <? 0)%Z then UB else match m !! Z.to_nat i with Some a => Ok a | None => UB end.
Definition ar_store (m : list A) (i : Z) (a : A) : res (list A) :=
  if (i <? 0)%Z then UB else if Nat.ltb (Z.to_nat i) (length m) then Ok (<[Z.to_nat i := a]> m) else UB.

(** Default constructor: Array.hpp 24. *)
Definition ar_new : list A := repeat junk arr_len.

(** for (int i = 0; i < N; i++) mC_d[i] = element: 27-29. *)
Fixpoint ar_fill_loop (k : nat) (i : Z) (a : A) (m : list A) : res (list A) :=
  match k with
  | O => Ok m
  | S k => match ar_store m i a with Ok m => ar_fill_loop k (i + 1)%Z a m | r => r end
  end.
(** Array(element): 26-30. *)
Definition ar_fill (a : A) : res (list A) := ar_fill_loop N 0 a ar_new.

(** for (int i = 0; i < N; i++) mC_d[i] = arr.mC_d[i]: 34-36; [self]: the two
    arrays are the same object. *)
Fixpoint ar_copy_loop (k : nat) (i : Z) (self : bool) (m src : list A) : res (list A) :=
  match k with
  | O => Ok m
  | S k => match ar_load (if self then m else src) i with
           | Ok a => match ar_store m i a with Ok m => ar_copy_loop k (i + 1)%Z self m src | r => r end
           | Abort => Abort | UB => UB | Diverge => Diverge
           end
  end.
(** operator=(const Array&): 33-38. *)
Definition ar_assign (self : bool) (m src : list A) : res (list A) := ar_copy_loop N 0 self m src.
(** operator=(Array&&): 41-44, for two different objects. *)
Fixpoint ar_move_loop (k : nat) (i : Z) (m src : list A) : res (list A * list A) :=
  match k with
  | O => Ok (m, src)
  | S k => match ar_load src i with
           | Ok a => match ar_store src i (mvd a), ar_store m i a with
                     | Ok src, Ok m => ar_move_loop k (i + 1)%Z m src
                     | _, _ => UB
                     end
           | Abort => Abort | UB => UB | Diverge => Diverge
           end
  end.

(** The element operator[](int index) designates: 70-74, 77-81. *)
Definition ar_index (index : Z) : Z := if (index <? 0)%Z then (Z.of_nat N + index)%Z else index.
Definition ar_get (m : list A) (index : Z) : res A := ar_load m (ar_index index).
Definition ar_set (m : list A) (index : Z) (a : A) : res (list A) := ar_store m (ar_index index) a.
(** back(): 62-64; N - 1 is a size_t, so N = 0 gives an index far outside. *)
Definition ar_back (m : list A) : res A := match N with O => UB | S n => ar_load m (Z.of_nat n) end.
(** front(): 66-68. *)
Definition ar_front (m : list A) : res A := ar_load m 0.
(** Range-for over [mC_d, mC_d + N): 84-98. *)
Fixpoint ar_iter_loop (k : nat) (i : Z) (m : list A) : res (list A) :=
  match k with
  | O => Ok []
  | S k => match ar_load m i with
           | Ok a => match ar_iter_loop k (i + 1)%Z m with Ok l => Ok (a :: l) | r => r end
           | Abort => Abort | UB => UB | Diverge => Diverge
           end
  end.
Definition ar_iter (m : list A) : res (list A) := ar_iter_loop N 0 m.

(** Calls on any number of arrays. *)
Inductive aop :=
| ANew (id : nat) | AFill (id : nat) (a : A)
| ACopyNew (id src : nat) | AMoveNew (id src : nat) | AAssign (id src : nat) | AMoveAssign (id src : nat)
| ASet (id : nat) (i : Z) (a : A) | AGet (id : nat) (i : Z) | ABack (id : nat) | AFront (id : nat)
| AIter (id : nat) | ASize (id : nat) | AEmpty (id : nat).

Notation aworld := (gmap nat (list A)).
Definition put {X} (w : aworld) (id : nat) (x : X) (r : res (list A)) : res (X * aworld) :=
  match r with Ok m => Ok (x, <[id := m]> w) | Abort => Abort | UB => UB | Diverge => Diverge end.
Definition val {X Y} (w : aworld) (f : X -> Y) (r : res X) : res (Y * aworld) :=
  match r with Ok a => Ok (f a, w) | Abort => Abort | UB => UB | Diverge => Diverge end.
Definition obj {X} (w : aworld) (id : nat) (k : list A -> res X) : res X :=
  match w !! id with Some m => k m | None => UB end.
Definition fresh {X} (w : aworld) (id : nat) (r : res X) : res X :=
  match w !! id with None => r | Some _ => UB end.

(** One call; size/capacity/empty: 49-59. *)
Definition ar_step (o : aop) (w : aworld) : res (out A * aworld) :=
  match o with
  | ANew id => fresh w id (Ok (RUnit, <[id := ar_new]> w))
  | AFill id a => fresh w id (put w id RUnit (ar_fill a))
  | ACopyNew id src => fresh w id (obj w src (fun s => put w id RUnit (ar_assign false ar_new s)))
  | AMoveNew id src => fresh w id (obj w src (fun s =>
      match ar_move_loop N 0 ar_new s with
      | Ok (m, s) => Ok (RUnit, <[src := s]> (<[id := m]> w)) | _ => UB end))
  | AAssign id src => obj w id (fun m => obj w src (fun s => put w id RUnit (ar_assign (Nat.eqb id src) m s)))
  | AMoveAssign id src => obj w id (fun m => obj w src (fun s =>
      if Nat.eqb id src then UB (* a self-move of each element: up to T; not modelled *)
      else match ar_move_loop N 0 m s with
           | Ok (m, s) => Ok (RUnit, <[src := s]> (<[id := m]> w)) | _ => UB end))
  | ASet id i a => obj w id (fun m => put w id RUnit (ar_set m i a))
  | AGet id i => obj w id (fun m => val w RVal (ar_get m i))
  | ABack id => obj w id (fun m => val w RVal (ar_back m))
  | AFront id => obj w id (fun m => val w RVal (ar_front m))
  | AIter id => obj w id (fun m => val w RList (ar_iter m))
  | ASize id => obj w id (fun _ => Ok (RNat N, w))
  | AEmpty id => obj w id (fun _ => Ok (RBool (Nat.eqb N 0), w))
  end.

Fixpoint ar_run (ops : list aop) (w : aworld) : res (list (out A) * aworld) :=
  match ops with
  | [] => Ok ([], w)
  | o :: ops => match ar_step o w with
      | Ok (r, w) => match ar_run ops w with
          | Ok (rs, w) => Ok (r :: rs, w) | Abort => Abort | UB => UB | Diverge => Diverge end
      | Abort => Abort | UB => UB | Diverge => Diverge
      end
  end.
End Array.
Arguments aop : clear implicits.
