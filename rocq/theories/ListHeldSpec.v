(** What the head node of a list object holds besides the elements.  T() is [junk].
    A push leaves a copy of the pushed value there and nothing but another push, a
    copy, a move into the object or its end takes it away. *)
From Verif Require Import Base VectorModel VectorSpec ListModel ListSpec ListIterModel ListIterSpec.

Section Spec.
Context {A : Type} (junk : A) (dbl : bool).
Notation held := (gmap nat A).

(** The value a copy pushes last. *)
Definition last_pushed (s : gmap nat (list (nat * A))) (src : nat) : option A :=
  match s !! src with Some l => snd <$> last l | None => None end.
Definition held_list (o : lop A) (s : gmap nat (list (nat * A))) (h : held) : held :=
  match o with
  | LNew id => <[id := junk]> h
  | LFill id n a => <[id := match n with O => junk | S _ => a end]> h
  | LCopyNew id src => <[id := default junk (last_pushed s src)]> h
  | LAssign id src => if Nat.eqb id src then h else match last_pushed s src with Some a => <[id := a]> h | None => h end
  | LMoveNew id src | LMoveAssign id src => if Nat.eqb id src then h else match h !! src with Some a => <[id := a]> h | None => h end
  | LPushFront id a | LPushBack id a | LPush id a => <[id := a]> h
  | LDestroy id => delete id h
  | _ => h
  end.

(** Lists with iterators (ListIterSpec.v); *it at the end of a list is what its head
    node holds. *)
Definition hs_step (o : iop A) (sh : @ispec A * held) : sres (out A * (@ispec A * held)) :=
  let (s, h) := sh in
  let dflt := match is_step dbl o s with
              | SVal (r, s') => SVal (r, (s', match o with IList o => held_list o (s_lists s) h | _ => h end))
              | SAbort => SAbort | SUnspec => SUnspec
              end in
  match o with
  | IRead k => match s_its s !! k with
               | Some (EndOf id) => match h !! id with Some a => SVal (RVal a, (s, h)) | None => SUnspec end
               | _ => dflt
               end
  | IWrite k a => match s_its s !! k with
                  | Some (EndOf id) => match h !! id with Some _ => SVal (RUnit, (s, <[id := a]> h)) | None => SUnspec end
                  | _ => dflt
                  end
  | _ => dflt
  end.
Definition hspec0 : @ispec A * held := (ispec0, ∅).
End Spec.
