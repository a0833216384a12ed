(** What for_each over a vector should do when its callback changes vectors,
    iterators and elements: positions designate, and end, as VecIterSpec.v says. *)
From Verif Require Import Base VectorModel VectorSpec VecProg VecIterModel VecIterSpec VecEachModel.

Section Spec.
Context {A C : Type} (triv : bool) (eqb : A -> A -> bool).
Notation state := (lworld A * gmap nat pos)%type.

Fixpoint vclient_spec (p : vclient A C) (s : state) : res (C * state) :=
  match p with
  | VDone c => Ok (c, s)
  | VDo o k =>
      match ys_step triv eqb o s with
      | Ok (r, s) => vclient_spec (k r) s
      | Abort => Abort | UB => UB | Diverge => Diverge
      end
  end.
(** [Diverge]: more than [fuel] rounds. *)
Fixpoint veach_spec (fuel : nat) (e it x : nat) (cb : C -> vclient A C) (c : C) (s : state) : res (C * state) :=
  match snd s !! it, snd s !! e with
  | Some q, Some r =>
      match pos_diff q r with
      | None => UB
      | Some d =>
          if (d =? 0)%Z then Ok (c, s) else
          match fuel, pos_get (fst s) q with
          | O, _ => Diverge
          | S _, None => UB
          | S f, Some _ =>
              match vclient_spec (cb c) (fst s, <[x := q]> (snd s)) with
              | Ok (c, s) =>
                  match snd s !! it with
                  | Some q =>
                      match pos_add (fst s) q 1 with
                      | Some q => veach_spec f e it x cb c (fst s, <[it := q]> (snd s))
                      | None => UB
                      end
                  | None => UB
                  end
              | Abort => Abort | UB => UB | Diverge => Diverge
              end
          end
      end
  | _, _ => UB
  end.
Definition veach_in_spec (ops1 : list (yop A)) (fuel : nat) (b e it x : nat) (cb : C -> vclient A C) (c : C) (ops2 : list (yop A))
  : res (list (yout A) * C * list (yout A) * state) :=
  match ys_run triv eqb ops1 (∅, ∅) with
  | Ok (rs1, s) =>
      match snd s !! b with
      | Some q =>
          match veach_spec fuel e it x cb c (fst s, <[it := q]> (snd s)) with
          | Ok (c, s) =>
              match ys_run triv eqb ops2 s with
              | Ok (rs2, s) => Ok (rs1, c, rs2, s)
              | Abort => Abort | UB => UB | Diverge => Diverge
              end
          | Abort => Abort | UB => UB | Diverge => Diverge
          end
      | None => UB
      end
  | Abort => Abort | UB => UB | Diverge => Diverge
  end.
End Spec.

Section Callbacks.
Context {A : Type}.
(** Reading the element through the callback's parameter. *)
Definition reading {C} (x : nat) (c : C) (k : A -> vclient A C) : vclient A C :=
  VDo (YRead x) (fun r => match r with YOut (RVal a) => k a | _ => VDone c end).
(** Appending values one after the other, then finishing. *)
Fixpoint appends {C} (id : nat) (xs : list A) (c : C) : vclient A C :=
  match xs with [] => VDone c | a :: xs => VDo (YVec (OPush id a)) (fun _ => appends id xs c) end.
(** Noting the elements, and appending to vector [id] what each gives rise to. *)
Definition growing (x id : nat) (kids : A -> list A) (seen : list A) : vclient A (list A) :=
  reading x seen (fun a => appends id (kids a) (seen ++ [a])).
(** Noting the elements, and appending to vector [id] each of them through the
    reference itself. *)
Definition doubling (x id : nat) (seen : list A) : vclient A (list A) :=
  reading x seen (fun a => VDo (YPush id x) (fun _ => VDone (seen ++ [a]))).
(** Noting the elements, and removing the last of vector [id]. *)
Definition shrinking (x id : nat) (seen : list A) : vclient A (list A) :=
  reading x seen (fun a => VDo (YVec (OPop id)) (fun _ => VDone (seen ++ [a]))).
(** Noting the elements, and on the first with [P] assigning the position after it to
    the iterator [e]. *)
Definition stopping (x e : nat) (P : A -> bool) (seen : list A) : vclient A (list A) :=
  reading x seen (fun a => if P a then VDo (YPlus e x 1) (fun _ => VDone (seen ++ [a])) else VDone (seen ++ [a])).
(** Noting the elements, and moving vector [id] into a new one on the first. *)
Definition moving (x id dst : nat) (seen : list A) : vclient A (list A) :=
  reading x seen (fun a => match seen with [] => VDo (YVec (OMoveNew dst id)) (fun _ => VDone [a]) | _ => VDone (seen ++ [a]) end).

(** The elements up to and including the first with [P]. *)
Fixpoint until (P : A -> bool) (l : list A) : list A :=
  match l with [] => [] | a :: l => if P a then [a] else a :: until P l end.
End Callbacks.
