(** Property C80 (iterators of and references into vectors). *)
From Verif Require Import Base VectorModel VectorSpec VecProg Hist VecIterModel VecIterSpec VecIter.

(** C80.  Every history of calls on vectors and of operations on iterators and
    references kept in variables ends exactly as specified: a variable designates a
    position of a vector until that vector's storage is replaced, and undefined
    behaviour comes exactly from using one that has been left behind or from leaving
    the storage or the elements. *)
Theorem C80_history : forall (A : Type) (triv : bool) (eqb : A -> A -> bool) (ops : list (yop A)),
  match ys_run triv eqb ops (∅, ∅) with
  | Ok (rs, s) => exists w, mrun (y_step triv eqb) ops y_init = Ok (rs, w) /\
      forall id, contents (fst w) id = l_seq <$> fst s !! id
  | Abort => mrun (y_step triv eqb) ops y_init = Abort
  | UB => mrun (y_step triv eqb) ops y_init = UB
  | Diverge => False
  end.
Proof. exact @y_contents. Qed.
Print Assumptions C80_history.

(** A reference to an element survives push_back exactly if there was room. *)
Theorem C80_push : forall (A : Type) (triv : bool) (eqb : A -> A -> bool) (ops : list (yop A)) rs w id v l a k i b,
  mrun (y_step triv eqb) ops y_init = Ok (rs, w) -> holds (fst w) id v l -> nth_error l i = Some b ->
  if Nat.eqb (length l) (v_cap v)
  then mrun (y_step triv eqb) (ops ++ [YRef k id (Z.of_nat i); YVec (OPush id a); YRead k]) y_init = UB
  else exists w', mrun (y_step triv eqb) (ops ++ [YRef k id (Z.of_nat i); YVec (OPush id a); YRead k]) y_init =
         Ok (rs ++ [YOut RUnit; YOut RUnit; YOut (RVal b)], w').
Proof. exact @y_push. Qed.
Print Assumptions C80_push.

(** Unlike in std::vector, pop_back can take away references to the elements that
    stay: exactly when it leaves less than a third of the capacity in use. *)
Theorem C80_pop : forall (A : Type) (triv : bool) (eqb : A -> A -> bool) (ops : list (yop A)) rs w id v l a k i b,
  mrun (y_step triv eqb) ops y_init = Ok (rs, w) -> holds (fst w) id v (l ++ [a]) -> nth_error l i = Some b ->
  if Nat.ltb (length l) (v_cap v / 3)
  then mrun (y_step triv eqb) (ops ++ [YRef k id (Z.of_nat i); YVec (OPop id); YRead k]) y_init = UB
  else exists w', mrun (y_step triv eqb) (ops ++ [YRef k id (Z.of_nat i); YVec (OPop id); YRead k]) y_init =
         Ok (rs ++ [YOut RUnit; YOut RUnit; YOut (RVal b)], w').
Proof. exact @y_pop. Qed.
Print Assumptions C80_pop.

(** Moving a vector into a new one or into an existing one takes references along. *)
Theorem C80_move : forall (A : Type) (triv : bool) (eqb : A -> A -> bool) (ops : list (yop A)) rs w id dst v u l k i b,
  mrun (y_step triv eqb) ops y_init = Ok (rs, w) -> holds (fst w) id v l -> id <> dst -> nth_error l i = Some b ->
  (w_objs (fst w) !! dst = None -> exists w', mrun (y_step triv eqb) (ops ++ [YRef k id (Z.of_nat i); YVec (OMoveNew dst id); YRead k]) y_init =
         Ok (rs ++ [YOut RUnit; YOut RUnit; YOut (RVal b)], w')) /\
  (w_objs (fst w) !! dst = Some u -> exists w', mrun (y_step triv eqb) (ops ++ [YRef k id (Z.of_nat i); YVec (OMoveAssign dst id); YRead k]) y_init =
         Ok (rs ++ [YOut RUnit; YOut RUnit; YOut (RVal b)], w')).
Proof. exact @y_move. Qed.
Print Assumptions C80_move.

(** Everything once: loops, find, arithmetic, writing through references, pushing an
    own element, moving the vector away under its iterators. *)
Example C80_case : exists w, mrun (y_step false Nat.eqb)
  [YVec (ONew 0); YVec (OResize 0 8); YVec (OPush 0 5); YVec (OPush 0 6); YVec (OPush 0 7); YCap 0; YBegin 0 0; YEnd 1 0; YDist 0 1; YEach 0 1 S;
   YFind 2 0 1 7; YRead 2; YFind 3 0 1 9; YEq 3 1; YPlus 4 0 2; YRead 4; YMinus 5 1 3; YNe 5 0; YRef 6 0 (-1); YWrite 6 1; YPush 0 2;
   YVec (OIter 0); YRead 1; YPostNext 7 0; YRead 7; YRead 0; YPrev 0; YVec (OMoveNew 1 0); YRead 6; YBegin 8 1; YEq 8 0; YVec (OSize 0); YNext 8; YRead 8]%nat y_init
  = Ok ([YOut RUnit; YOut RUnit; YOut RUnit; YOut RUnit; YOut RUnit; YOut (RNat 8); YOut RUnit; YOut RUnit; YInt 3; YOut (RList [5; 6; 7]);
   YOut RUnit; YOut (RVal 7); YOut RUnit; YOut (RBool true); YOut RUnit; YOut (RVal 8); YOut RUnit; YOut (RBool false); YOut RUnit; YOut RUnit; YOut RUnit;
   YOut (RList [6; 7; 1; 7]); YOut (RVal 7); YOut RUnit; YOut (RVal 6); YOut (RVal 7); YOut RUnit; YOut RUnit; YOut (RVal 1); YOut RUnit; YOut (RBool true); YOut (RNat 0); YOut RUnit; YOut (RVal 7)]%nat, w).
Proof. eexists. vm_compute. reflexivity. Qed.
(** A vector that C80_push, C80_pop and C80_move can start from: full, with
    twelve elements. *)
Example C80_case_start : exists rs w v, mrun (y_step true Nat.eqb)
  [YVec (ONew 0); YVec (OResizeFill 0 12 1)]%nat y_init = Ok (rs, w) /\ holds (fst w) 0 v (repeat 1 12)%nat /\ v_cap v = 12%nat /\ w_objs (fst w) !! 1%nat = None.
Proof. do 3 eexists. split; [vm_compute; reflexivity|]. split; [split; vm_compute; reflexivity|]. split; vm_compute; reflexivity. Qed.
Example C80_case_pop : exists rs w v, mrun (y_step true Nat.eqb)
  [YVec (ONew 0); YVec (OResize 0 12); YVec (OPush 0 1); YVec (OPush 0 2)]%nat y_init = Ok (rs, w) /\ holds (fst w) 0 v ([1] ++ [2])%nat /\ Nat.ltb 1 (v_cap v / 3) = true.
Proof. do 3 eexists. split; [vm_compute; reflexivity|]. split; [split; vm_compute; reflexivity|]. vm_compute. reflexivity. Qed.
