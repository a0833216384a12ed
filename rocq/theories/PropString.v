(** Properties C10-C14 (BasicString). *)
From Verif Require Import Base VectorModel VectorSpec VecProg Adapter StringModel StringSpec StringProofs.

(** C10.  Every history over any number of strings answers like the same history
    over character sequences; c_str() shows the characters and then a NUL;
    indices beyond the terminator assert; all storage is accounted for.  (The
    specification claims nothing for the empty literal, self-append and
    moved-from strings: C12-C14.) *)
Theorem C10_string_history : forall ops : list top,
  match srun t_step ops ∅ with
  | SVal (rs, s) => exists w, wrun true (arun st_step ops) world_init = Ok (rs, w) /\ storage_ok w
  | SAbort => wrun true (arun st_step ops) world_init = Abort
  | SUnspec => True
  end.
Proof. exact string_history. Qed.
Print Assumptions C10_string_history.

Example C10_case : exists s, srun t_step
  [TLit 0 [104; 105; 0]; TPush 0 33; TSize 0; TCopyNew 1 0; TSet 1 0 72; TAppend 0 1; TCstr 0; TIter 1; TBack 1;
   TAssignC 1 [120; 0; 121]; TCstr 1; TClear 0; TEmpty 0; TAppendC 0 [97; 98; 0]; TPlusCL 2 [99; 0] 0; TIter 2; TEqCR 2 [99; 97; 98; 0];
   TMoveNew 3 2; TAssign 2 3; TNe 2 3; TGet 2 3]%Z ∅
  = SVal ([TUnit; TUnit; TNum 3; TUnit; TUnit; TUnit; TChars [104; 105; 33; 72; 105; 33; 0]; TChars [72; 105; 33]; TChar 33;
   TUnit; TChars [120; 0]; TUnit; TBool true; TUnit; TUnit; TChars [99; 97; 98]; TBool true;
   TUnit; TUnit; TBool false; TChar 0]%Z, s).
Proof. eexists. vm_compute. reflexivity. Qed.
Example C10_case_abort : srun t_step [TLit 0 [104; 105; 0]; TGet 0 3]%Z ∅ = SAbort.
Proof. vm_compute. reflexivity. Qed.

(** C11.  After every history, for all strings a and b: == tells whether the
    characters are the same, != is its negation, a + b is the concatenation and
    leaves a and b as they were. *)
Theorem C11_eq_plus : forall (ops : list top) rs s a b x y r,
  srun t_step ops ∅ = SVal (rs, s) -> s !! a = Some (TLive x) -> s !! b = Some (TLive y) -> s !! r = None ->
  exists e w, (e = true <-> x = y) /\
    wrun true (arun st_step (ops ++ [TEq a b; TNe a b; TPlus r a b; TCstr r; TIter a; TIter b])) world_init =
    Ok (rs ++ [TBool e; TBool (negb e); TUnit; TChars (x ++ y ++ [0%Z]); TChars x; TChars y], w) /\ storage_ok w.
Proof. exact eq_plus. Qed.
Print Assumptions C11_eq_plus.

Example C11_case : exists rs s, srun t_step [TLit 0 [104; 105; 0]; TNew 1; TPush 1 104]%Z ∅ = SVal (rs, s) /\
  s !! 0 = Some (TLive [104; 105]%Z) /\ s !! 1 = Some (TLive [104]%Z) /\ s !! 2 = None.
Proof. do 2 eexists. split; [vm_compute; reflexivity|]. vm_compute. auto. Qed.

(** C12 is false for the empty C string: after every history, constructing,
    assigning, appending or comparing with the array "" is undefined behaviour;
    if the terminator lies inside a larger array, its following characters are
    taken as the string instead. *)
Theorem C12_empty_literal_refuted : forall (ops : list top) rs s id,
  srun t_step ops ∅ = SVal (rs, s) -> s !! id = None ->
  wrun true (arun st_step (ops ++ [TLit id [0%Z]])) world_init = UB /\
  (forall src l, s !! src = Some (TLive l) ->
     wrun true (arun st_step (ops ++ [TAssignC src [0%Z]])) world_init = UB /\
     wrun true (arun st_step (ops ++ [TAppendC src [0%Z]])) world_init = UB /\
     wrun true (arun st_step (ops ++ [TEqCR src [0%Z]])) world_init = UB) /\
  forall rest cs, cstr rest = Some cs ->
    exists w, wrun true (arun st_step (ops ++ [TLit id (0%Z :: rest); TIter id])) world_init = Ok (rs ++ [TUnit; TChars (0%Z :: cs)], w).
Proof. exact empty_literal. Qed.
Print Assumptions C12_empty_literal_refuted.

Example C12_case : exists rs s, srun t_step [TLit 0 [104; 105; 0]]%Z ∅ = SVal (rs, s) /\ s !! 1 = None /\
  s !! 0 = Some (TLive [104; 105]%Z) /\ cstr [65; 66; 0]%Z = Some [65; 66]%Z.
Proof. do 2 eexists. split; [vm_compute; reflexivity|]. vm_compute. auto. Qed.

(** C13 is false: after every history, s += s on a non-empty string is undefined
    behaviour (the loop chases its own end until the buffer is reallocated under
    the reference it is pushing). *)
Theorem C13_self_append_refuted : forall (ops : list top) rs s id c l,
  srun t_step ops ∅ = SVal (rs, s) -> s !! id = Some (TLive (c :: l)) ->
  wrun true (arun st_step (ops ++ [TAppend id id])) world_init = UB.
Proof. exact self_append. Qed.
Print Assumptions C13_self_append_refuted.

(** What remains of C13: the empty string can be appended to itself. *)
Theorem C13_self_append_partial : forall (ops : list top) rs s id,
  srun t_step ops ∅ = SVal (rs, s) -> s !! id = Some (TLive []) ->
  exists w, wrun true (arun st_step (ops ++ [TAppend id id; TCstr id])) world_init = Ok (rs ++ [TUnit; TChars [0%Z]], w) /\ storage_ok w.
Proof. exact self_append_empty. Qed.
Print Assumptions C13_self_append_partial.

Example C13_case : exists rs s, srun t_step [TLit 0 [104; 105; 0]; TNew 1]%Z ∅ = SVal (rs, s) /\
  s !! 0 = Some (TLive (104 :: [105]))%Z /\ s !! 1 = Some (TLive []).
Proof. do 2 eexists. split; [vm_compute; reflexivity|]. vm_compute. auto. Qed.

(** C14 is false: after every history, a moved-from string reports size 2^64-1,
    is not empty(), and push_back on it is undefined behaviour. *)
Theorem C14_moved_from_refuted : forall (ops : list top) rs s id src l,
  srun t_step ops ∅ = SVal (rs, s) -> s !! src = Some (TLive l) -> s !! id = None ->
  (exists w, wrun true (arun st_step (ops ++ [TMoveNew id src; TSize src; TEmpty src])) world_init =
    Ok (rs ++ [TUnit; TNum (2 ^ 64 - 1); TBool false], w)) /\
  wrun true (arun st_step (ops ++ [TMoveNew id src; TPush src 65])) world_init = UB.
Proof. exact moved_from. Qed.
Print Assumptions C14_moved_from_refuted.

Example C14_case : exists rs s, srun t_step [TLit 0 [104; 105; 0]]%Z ∅ = SVal (rs, s) /\
  s !! 0 = Some (TLive [104; 105]%Z) /\ s !! 1 = None.
Proof. do 2 eexists. split; [vm_compute; reflexivity|]. vm_compute. auto. Qed.
