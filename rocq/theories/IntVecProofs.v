(** Proofs about Vector with machine integers. *)
From Verif Require Import Base VectorModel VectorSpec VecProg VectorProofs VectorWorld VectorExtra Adapter LRun ArithModel IntModel IntProofs IntVecModel IntVecSpec.
Local Open Scope nat_scope.
Notation zn := Z.of_nat.

(** ** On the real vectors *)
Section World.
Context {A : Type} (triv : bool).
Notation wrun := (wrun triv).
Notation w_step := (w_step triv).
Implicit Types (w : world A).

Lemma wrun_bind {X Y} (p : wprog A X) (f : X -> wprog A Y) : forall w,
  wrun (wbind p f) w = match wrun p w with Ok (x, w') => wrun (f x) w' | Abort => Abort | UB => UB | Diverge => Diverge end.
Proof.
  induction p as [x| | | |o k IH]; intros w; try reflexivity. cbn [wbind VecProg.wrun]. unfold bind.
  destruct (w_step o w) as [[r w1]| | |]; [apply IH|reflexivity..].
Qed.
Lemma obj_in id w v : w_objs w !! id = Some v -> obj id w = Ok (v, w).
Proof. intros E. unfold obj. rewrite E. reflexivity. Qed.
Lemma obj_out id w : w_objs w !! id = None -> obj id w = UB.
Proof. intros E. unfold obj. rewrite E. reflexivity. Qed.
Lemma wsize_run id w : wrun (wsize id) w = match w_objs w !! id with Some v => Ok (v_size v, w) | None => UB end.
Proof.
  unfold wsize. cbn [VecProg.wrun VecProg.w_step v_step]. unfold bind, obj. destruct (w_objs w !! id); reflexivity.
Qed.
Lemma wcap_run id w : wrun (wcap id) w = match w_objs w !! id with Some v => Ok (v_cap v, w) | None => UB end.
Proof.
  unfold wcap. cbn [VecProg.wrun VecProg.w_step]. unfold bind, obj. destruct (w_objs w !! id); reflexivity.
Qed.
Lemma count_ok n : (zn n <= INT_MAX)%Z -> count (A := A) n = WRet tt.
Proof. intros H. unfold count. destruct (Z.leb_spec (zn n) INT_MAX); [reflexivity|lia]. Qed.
Lemma count_ub n : (INT_MAX < zn n)%Z -> count (A := A) n = WUB.
Proof. intros H. unfold count. destruct (Z.leb_spec (zn n) INT_MAX); [lia|reflexivity]. Qed.

Section Small.
Context (w : world A) (Hs : forall id v, w_objs w !! id = Some v -> (zn (v_size v) <= INT_MAX)%Z).
Notation there id := (match w_objs w !! id with Some _ => Ok (tt, w) | None => UB end).

Lemma walk_run id : wrun (walk id) w = there id.
Proof.
  unfold walk. rewrite wrun_bind, wsize_run. destruct (w_objs w !! id) as [v|] eqn:E; [|reflexivity].
  rewrite count_ok by (eapply Hs, E). reflexivity.
Qed.
Lemma grow_run id : wrun (grow id) w = there id.
Proof.
  unfold grow. rewrite wrun_bind, wsize_run. destruct (w_objs w !! id) as [v|] eqn:E; [|reflexivity].
  rewrite wrun_bind, wcap_run, E. rewrite count_ok by (eapply Hs, E). destruct (Nat.ltb _ _); reflexivity.
Qed.
Lemma shrink_run id : wrun (shrink id) w = there id.
Proof.
  unfold shrink. rewrite wrun_bind, wsize_run. destruct (w_objs w !! id) as [v|] eqn:E; [|reflexivity].
  rewrite wrun_bind, wcap_run, E. rewrite count_ok by (specialize (Hs _ _ E); lia). destruct (Nat.ltb _ _); reflexivity.
Qed.
(** The element that i counts to. *)
Lemma offset_run id i : (INT_MIN <= i <= INT_MAX)%Z ->
  wrun (offset id i) w =
    match w_objs w !! id with
    | None => UB
    | Some v => let j := (if i <? 0 then zn (v_size v) + i else i)%Z in
                if (j <? zn (v_size v))%Z then if (j <? 0)%Z then UB else Ok (j, w) else Abort
    end.
Proof.
  intros Hi. unfold offset. destruct (Z.leb_spec INT_MIN i), (Z.leb_spec i INT_MAX); try lia. cbn [andb].
  unfold moff. rewrite wrun_bind, wsize_run. destruct (w_objs w !! id) as [v|] eqn:E; [|reflexivity].
  rewrite int_index_spec by (eauto; lia). unfold py_index. specialize (Hs _ _ E).
  destruct (Z.leb_spec 0 i); destruct (Z.ltb_spec i 0); try lia; cbv zeta.
  - destruct (Z.ltb_spec i (zn (v_size v))).
    + destruct (Z.ltb_spec (zn (Z.to_nat i)) 0), (Z.ltb_spec i 0); try lia. rewrite Z2Nat.id by lia. reflexivity.
    + destruct (Z.leb_spec (zn (v_size v)) i); [reflexivity|lia].
  - destruct (Z.leb_spec (- zn (v_size v)) i), (Z.ltb_spec (zn (v_size v) + i) (zn (v_size v))); try lia.
    + destruct (Z.ltb_spec (zn (Z.to_nat (zn (v_size v) + i))) 0), (Z.ltb_spec (zn (v_size v) + i) 0); try lia.
      rewrite Z2Nat.id by lia. reflexivity.
    + destruct (Z.leb_spec (zn (v_size v)) i); [lia|].
      destruct (Z.ltb_spec (zn (v_size v) + i) 0); [reflexivity|lia].
Qed.
End Small.

(** Where index i leads. *)
Definition goes (v : vec) (i : Z) : Z := (if i <? 0 then zn (v_size v) + i else i)%Z.
Lemma index_run {X} v i (f : Z -> M (mem A) X) m :
  bind (v_index v i) f m = if (goes v i <? zn (v_size v))%Z then f (goes v i) m else Abort.
Proof. unfold v_index, bind. cbv zeta. fold (goes v i). destruct (goes v i <? zn (v_size v))%Z; reflexivity. Qed.
Lemma goes_again v i : (0 <= goes v i)%Z -> goes v (goes v i) = goes v i.
Proof. intros H. unfold goes at 1. destruct (Z.ltb_spec (goes v i) 0); [lia|reflexivity]. Qed.
Lemma set_run id i a w v : w_objs w !! id = Some v ->
  w_step (WOp (OSet id i a)) w =
    if (goes v i <? zn (v_size v))%Z then bind (lift (store_z (v_ptr v) (goes v i) a)) (fun _ => ret RUnit) w else Abort.
Proof.
  intros E. cbn [VecProg.w_step v_step]. unfold bind at 1. rewrite (obj_in _ _ _ E). unfold bind at 1, lift at 1, v_set.
  rewrite index_run. destruct (goes v i <? zn (v_size v))%Z; reflexivity.
Qed.
Lemma get_run id i w v : w_objs w !! id = Some v ->
  w_step (WOp (OGet id i)) w =
    if (goes v i <? zn (v_size v))%Z then bind (lift (load_z (v_ptr v) (goes v i))) (fun a => ret (RVal a)) w else Abort.
Proof.
  intros E. cbn [VecProg.w_step v_step]. unfold bind at 1. rewrite (obj_in _ _ _ E). unfold bind at 1, lift at 1, v_get.
  rewrite index_run. destruct (goes v i <? zn (v_size v))%Z; reflexivity.
Qed.
Lemma elem_run id src i w v u : w_objs w !! id = Some v -> w_objs w !! src = Some u ->
  w_step (WPushElem id src i) w =
    if (goes u i <? zn (v_size u))%Z then
      if (goes u i <? 0)%Z then UB
      else bind (lift (v_push_back triv (ARef (v_ptr u) (Z.to_nat (goes u i))) v)) (fun v' => bind (set_obj id v') (fun _ => ret RUnit)) w
    else Abort.
Proof.
  intros E1 E2. cbn [VecProg.w_step]. unfold bind at 1. rewrite (obj_in _ _ _ E1). unfold bind at 1. rewrite (obj_in _ _ _ E2).
  unfold bind at 1, lift at 1, v_index. cbv zeta. fold (goes u i). unfold dassert, bind at 1.
  destruct (goes u i <? zn (v_size u))%Z; [|reflexivity]. cbn. destruct (goes u i <? 0)%Z; destruct w; reflexivity.
Qed.

Ltac gone E := cbn [VecProg.wrun VecProg.w_step v_step]; unfold bind, obj; rewrite ?E; reflexivity.
Lemma machine_run o w {X} (f : out A -> wprog A X) : small_call o w ->
  wrun (wbind (machine o) (fun o' => WDo o' f)) w = wrun (WDo o f) w.
Proof.
  intros [Hs Ho]. rewrite wrun_bind. destruct o as [o|id|id src i]; [destruct o|..]; cbn [machine]; try reflexivity.
  - rewrite count_ok by exact Ho. reflexivity.
  - rewrite wrun_bind, walk_run by exact Hs. destruct (w_objs w !! src) eqn:E; [reflexivity|].
    cbn [VecProg.wrun VecProg.w_step v_step]. unfold bind, absent, obj. destruct (w_objs w !! id); [reflexivity|]. rewrite E. reflexivity.
  - destruct (Nat.eqb id src) eqn:En; [reflexivity|]. rewrite wrun_bind, walk_run by exact Hs.
    destruct (w_objs w !! id) eqn:E; [|cbn [VecProg.wrun VecProg.w_step v_step]; unfold bind, obj; rewrite E; reflexivity].
    rewrite wrun_bind, walk_run by exact Hs.
    destruct (w_objs w !! src) eqn:E2; [reflexivity|]. cbn [VecProg.wrun VecProg.w_step v_step]; unfold bind, obj; rewrite E, E2; reflexivity.
  - destruct (Nat.eqb id src) eqn:En; [reflexivity|]. rewrite wrun_bind, walk_run by exact Hs.
    destruct (w_objs w !! id) eqn:E; [reflexivity|cbn [VecProg.wrun VecProg.w_step v_step]; unfold bind, obj; rewrite E; reflexivity].
  - rewrite wrun_bind, grow_run by exact Hs.
    destruct (w_objs w !! id) eqn:E; [reflexivity|cbn [VecProg.wrun VecProg.w_step v_step]; unfold bind, obj; rewrite E; reflexivity].
  - rewrite wrun_bind, shrink_run by exact Hs.
    destruct (w_objs w !! id) eqn:E; [reflexivity|cbn [VecProg.wrun VecProg.w_step v_step]; unfold bind, obj; rewrite E; reflexivity].
  - rewrite wrun_bind, offset_run by eauto. destruct (w_objs w !! id) as [v|] eqn:E; [|gone E]. cbv zeta. fold (goes v i).
    cbn [VecProg.wrun]. unfold bind at 2. rewrite (set_run _ _ _ _ _ E).
    destruct (goes v i <? zn (v_size v))%Z eqn:E1; [|reflexivity]. unfold store_z. destruct (goes v i <? 0)%Z eqn:E0; [reflexivity|].
    cbn [VecProg.wrun]. unfold ret, bind at 1. rewrite (set_run _ _ _ _ _ E), goes_again, E1 by lia. unfold store_z. rewrite E0. reflexivity.
  - rewrite wrun_bind, walk_run by exact Hs. destruct (w_objs w !! id) eqn:E; [reflexivity|gone E].
  - rewrite wrun_bind, walk_run by exact Hs. destruct (w_objs w !! id) eqn:E; [|gone E].
    rewrite count_ok by exact Ho. reflexivity.
  - rewrite wrun_bind, walk_run by exact Hs. destruct (w_objs w !! id) eqn:E; [reflexivity|gone E].
  - rewrite wrun_bind, walk_run by exact Hs. destruct (w_objs w !! id) eqn:E; [reflexivity|gone E].
  - rewrite wrun_bind, offset_run by eauto. destruct (w_objs w !! id) as [v|] eqn:E; [|gone E]. cbv zeta. fold (goes v i).
    cbn [VecProg.wrun]. unfold bind at 2. rewrite (get_run _ _ _ _ E).
    destruct (goes v i <? zn (v_size v))%Z eqn:E1; [|reflexivity]. unfold load_z. destruct (goes v i <? 0)%Z eqn:E0; [reflexivity|].
    cbn [VecProg.wrun]. unfold ret, bind at 1. rewrite (get_run _ _ _ _ E), goes_again, E1 by lia. unfold load_z. rewrite E0. reflexivity.
  - rewrite wrun_bind, wsize_run. destruct (w_objs w !! id) as [v|] eqn:E; [|gone E].
    rewrite wrun_bind, offset_run by eauto. destruct (w_objs w !! src) as [u|] eqn:E2.
    2: { cbn [VecProg.wrun VecProg.w_step]. unfold bind, obj. rewrite E, E2. reflexivity. }
    cbv zeta. fold (goes u i). cbn [VecProg.wrun]. unfold bind at 2. rewrite (elem_run _ _ _ _ _ _ E E2).
    destruct (goes u i <? zn (v_size u))%Z eqn:E1; [|reflexivity]. destruct (goes u i <? 0)%Z eqn:E0; [reflexivity|].
    rewrite wrun_bind, grow_run, E by exact Hs. cbn [VecProg.wrun]. unfold ret at 1. cbn beta iota. unfold bind at 1.
    rewrite (elem_run _ _ _ _ _ _ E E2), goes_again, E1, E0 by lia. reflexivity.
Qed.

Lemma ints_run {X} (p : wprog A X) : forall w, (forall o w', calls triv p w o w' -> small_call o w') ->
  wrun (ints p) w = wrun p w.
Proof.
  induction p as [x| | | |o k IH]; intros w H; try reflexivity. cbn [ints].
  rewrite machine_run by (apply H; constructor). cbn [VecProg.wrun]. unfold bind.
  destruct (w_step o w) as [[r w1]| | |] eqn:E; try reflexivity. apply IH. intros o' w' Hc. apply H. econstructor; eauto.
Qed.
End World.

(** ** On sequences *)
Section Seq.
Context {A : Type} (triv : bool).
Notation lrun := (lrun triv).
Notation lw_step := (lw_step triv).
Implicit Types (s : lworld A).

Definition lsmall (o : wop A) s : Prop :=
  let short id := forall l, s !! id = Some l -> (zn (length (l_seq l)) <= INT_MAX)%Z in
  match o with
  | WOp (OFill _ n _) => (zn n <= INT_MAX)%Z
  | WOp (OCopyNew _ src) => short src
  | WOp (OAssign id src) => short id /\ short src
  | WOp (OMoveAssign id _) | WOp (OPush id _) | WOp (OPop id) | WOp (OResize id _) | WOp (OClear id) | WOp (ODestroy id) => short id
  | WOp (OResizeFill id n _) => short id /\ (zn n <= INT_MAX)%Z
  | WOp (OSet id i _) | WOp (OGet id i) => short id /\ (INT_MIN <= i <= INT_MAX)%Z
  | WPushElem id src i => short id /\ short src /\ (INT_MIN <= i <= INT_MAX)%Z
  | _ => True
  end.
Lemma lsize_run id s : lrun (wsize id) s = match s !! id with Some l => Ok (length (l_seq l), s) | None => UB end.
Proof. unfold wsize. cbn [VecProg.lrun VecProg.lw_step lv_step]. unfold lwith. destruct (s !! id); reflexivity. Qed.
Lemma lcap_run id s : lrun (wcap id) s = match s !! id with Some l => Ok (l_cap l, s) | None => UB end.
Proof. unfold wcap. cbn [VecProg.lrun VecProg.lw_step lv_step]. unfold lwith. destruct (s !! id); reflexivity. Qed.
Notation short s id := (forall l, s !! id = Some l -> (zn (length (l_seq l)) <= INT_MAX)%Z).
Notation there s id := (match s !! id with Some _ => Ok (tt, s) | None => UB end).
Lemma lwalk_run s id : short s id -> lrun (walk id) s = there s id.
Proof.
  intros H. unfold walk. rewrite lrun_bind, lsize_run. destruct (s !! id) as [l|] eqn:E; [|reflexivity].
  rewrite count_ok by auto. reflexivity.
Qed.
Lemma lgrow_run s id : short s id -> lrun (grow id) s = there s id.
Proof.
  intros H. unfold grow. rewrite lrun_bind, lsize_run. destruct (s !! id) as [l|] eqn:E; [|reflexivity].
  rewrite lrun_bind, lcap_run, E, count_ok by auto. destruct (Nat.ltb _ _); reflexivity.
Qed.
Lemma lshrink_run s id : short s id -> lrun (shrink id) s = there s id.
Proof.
  intros H. unfold shrink. rewrite lrun_bind, lsize_run. destruct (s !! id) as [l|] eqn:E; [|reflexivity].
  rewrite lrun_bind, lcap_run, E, count_ok by (specialize (H _ eq_refl); lia). destruct (Nat.ltb _ _); reflexivity.
Qed.
Lemma loffset_run s id i : short s id -> (INT_MIN <= i <= INT_MAX)%Z ->
  lrun (offset id i) s = match s !! id with None => UB | Some l => at_index (l_seq l) i (fun k => Ok (zn k, s)) end.
Proof.
  intros H Hi. unfold offset. destruct (Z.leb_spec INT_MIN i), (Z.leb_spec i INT_MAX); try lia. cbn [andb].
  unfold moff. rewrite lrun_bind, lsize_run. destruct (s !! id) as [l|] eqn:E; [|reflexivity]. specialize (H _ eq_refl).
  rewrite int_index_spec by (auto; lia). unfold at_index. destruct (py_index (length (l_seq l)) i) as [k|] eqn:Ep.
  - destruct (Z.ltb_spec (zn k) 0); [lia|reflexivity].
  - destruct (Z.leb_spec (zn (length (l_seq l))) i); [reflexivity|].
    unfold py_index in Ep. destruct (Z.leb_spec 0 i); [destruct (Z.ltb_spec i (zn (length (l_seq l)))); [discriminate|lia]|].
    destruct (Z.leb_spec (- zn (length (l_seq l))) i); [discriminate|].
    destruct (Z.ltb_spec (zn (length (l_seq l)) + i) 0); [reflexivity|lia].
Qed.
Lemma py_lt n i k : py_index n i = Some k -> k < n.
Proof.
  unfold py_index. destruct (Z.leb_spec 0 i).
  - destruct (Z.ltb_spec i (zn n)); [|discriminate]. intros [= <-]. lia.
  - destruct (Z.leb_spec (- zn n) i); [|discriminate]. intros [= <-]. lia.
Qed.
Ltac lgone E := cbn [VecProg.lrun VecProg.lw_step lv_step]; unfold lwith, lnew; rewrite ?E; reflexivity.
Lemma lmachine_run o s {X} (f : out A -> wprog A X) : lsmall o s ->
  lrun (wbind (machine o) (fun o' => WDo o' f)) s = lrun (WDo o f) s.
Proof.
  intros H. rewrite lrun_bind. destruct o as [o|id|id src i]; [destruct o|..]; cbn [machine lsmall] in *; try reflexivity.
  - rewrite count_ok by exact H. reflexivity.
  - rewrite lrun_bind, lwalk_run by exact H. destruct (s !! src) eqn:E; [reflexivity|].
    cbn [VecProg.lrun VecProg.lw_step lv_step]. unfold lwith, lnew. rewrite E. destruct (s !! id); reflexivity.
  - destruct (Nat.eqb id src) eqn:En; [reflexivity|]. rewrite lrun_bind, lwalk_run by apply H.
    destruct (s !! id) eqn:E; [|lgone E]. rewrite lrun_bind, lwalk_run by apply H.
    destruct (s !! src) eqn:E2; [reflexivity|]. cbn [VecProg.lrun VecProg.lw_step lv_step]. unfold lwith. rewrite E, E2. reflexivity.
  - destruct (Nat.eqb id src) eqn:En; [reflexivity|]. rewrite lrun_bind, lwalk_run by apply H. destruct (s !! id) eqn:E; [reflexivity|lgone E].
  - rewrite lrun_bind, lgrow_run by exact H. destruct (s !! id) eqn:E; [reflexivity|lgone E].
  - rewrite lrun_bind, lshrink_run by exact H. destruct (s !! id) eqn:E; [reflexivity|lgone E].
  - rewrite lrun_bind, loffset_run by apply H. destruct (s !! id) as [l|] eqn:E; [|lgone E].
    cbn [VecProg.lrun VecProg.lw_step lv_step]. unfold lwith. rewrite E. unfold at_index.
    destruct (py_index (length (l_seq l)) i) as [k|] eqn:Ep; [|destruct (_ <=? _)%Z; reflexivity].
    cbn [VecProg.lrun VecProg.lw_step lv_step]. unfold lwith. rewrite E, at_index_nat by (eapply py_lt, Ep). reflexivity.
  - rewrite lrun_bind, lwalk_run by exact H. destruct (s !! id) eqn:E; [reflexivity|lgone E].
  - rewrite lrun_bind, lwalk_run by apply H. destruct (s !! id) eqn:E; [|lgone E]. rewrite count_ok by apply H. reflexivity.
  - rewrite lrun_bind, lwalk_run by exact H. destruct (s !! id) eqn:E; [reflexivity|lgone E].
  - rewrite lrun_bind, lwalk_run by exact H. destruct (s !! id) eqn:E; [reflexivity|lgone E].
  - rewrite lrun_bind, loffset_run by apply H. destruct (s !! id) as [l|] eqn:E; [|lgone E].
    cbn [VecProg.lrun VecProg.lw_step lv_step]. unfold lwith. rewrite E. unfold at_index.
    destruct (py_index (length (l_seq l)) i) as [k|] eqn:Ep; [|destruct (_ <=? _)%Z; reflexivity].
    cbn [VecProg.lrun VecProg.lw_step lv_step]. unfold lwith. rewrite E, at_index_nat by (eapply py_lt, Ep). reflexivity.
  - destruct H as (H1 & H2 & H3). rewrite lrun_bind, lsize_run. destruct (s !! id) as [l|] eqn:E; [|lgone E].
    rewrite lrun_bind, loffset_run by auto. cbn [VecProg.lrun VecProg.lw_step]. unfold lwith. rewrite E.
    destruct (s !! src) as [u|] eqn:E2; [|reflexivity]. unfold at_index.
    destruct (py_index (length (l_seq u)) i) as [k|] eqn:Ep; [|destruct (_ <=? _)%Z; reflexivity].
    rewrite lrun_bind, lgrow_run by (rewrite E; exact H1). rewrite E. cbn [VecProg.lrun VecProg.lw_step].
    unfold lwith. rewrite E, E2, at_index_nat by (eapply py_lt, Ep). reflexivity.
Qed.

Fixpoint lsafe {X} (p : wprog A X) s : Prop :=
  match p with
  | WDo o k => lsmall o s /\ match lw_step o s with Ok (r, s') => lsafe (k r) s' | _ => True end
  | _ => True
  end.
Lemma lsafe_run {X} (p : wprog A X) : forall s, lsafe p s -> lrun (ints p) s = lrun p s.
Proof.
  induction p as [x| | | |o k IH]; intros s H; try reflexivity. destruct H as [H1 H2]. cbn [ints].
  rewrite lmachine_run by exact H1. cbn [VecProg.lrun]. destruct (lw_step o s) as [[r s1]| | |]; [apply IH, H2|reflexivity..].
Qed.
Lemma lsafe_bind {X Y} (p : wprog A X) (f : X -> wprog A Y) : forall s,
  lsafe p s -> (forall x s', lrun p s = Ok (x, s') -> lsafe (f x) s') -> lsafe (wbind p f) s.
Proof.
  induction p as [x| | | |o k IH]; intros s H1 H2; cbn [wbind lsafe] in *; auto. destruct H1 as [H1 H3]. split; [exact H1|].
  cbn [VecProg.lrun] in H2. destruct (lw_step o s) as [[r s1]| | |]; auto.
Qed.
Lemma lsafe_then {X Y} (p : wprog A X) (f : X -> wprog A Y) s x s' :
  lsafe p s -> lrun p s = Ok (x, s') -> lsafe (f x) s' -> lsafe (wbind p f) s.
Proof. intros H1 H2 H3. apply lsafe_bind; [exact H1|]. intros y s1 E. rewrite H2 in E. injection E as <- <-. exact H3. Qed.
Lemma ints_bind {X Y} (p : wprog A X) (f : X -> wprog A Y) : forall s,
  lrun (ints (wbind p f)) s = match lrun (ints p) s with Ok (x, s') => lrun (ints (f x)) s' | Abort => Abort | UB => UB | Diverge => Diverge end.
Proof.
  induction p as [x| | | |o k IH]; intros s; try reflexivity. cbn [wbind ints]. rewrite !lrun_bind.
  destruct (lrun (machine o) s) as [[o' s1]| | |]; try reflexivity. cbn [VecProg.lrun].
  destruct (lw_step o' s1) as [[r s2]| | |]; [apply IH|reflexivity..].
Qed.
End Seq.
