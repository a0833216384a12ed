(** Exactly which calls overflow. *)
From Verif Require Import Base VectorModel VectorSpec VecProg VectorProofs VectorWorld VectorExtra Adapter LRun ArithModel IntModel IntProofs IntVecModel IntVecSpec IntVecProofs.
Local Open Scope nat_scope.

Section Exact.
Context {A : Type} (triv : bool).
Notation wrun := (wrun triv).
Implicit Types (w : world A).

Lemma wwalk_at id w : wrun (walk id) w =
  match w_objs w !! id with Some v => if (zn (v_size v) <=? INT_MAX)%Z then Ok (tt, w) else UB | None => UB end.
Proof.
  unfold walk. rewrite wrun_bind, wsize_run. destruct (w_objs w !! id) as [v|]; [|reflexivity].
  unfold count. destruct (_ <=? _)%Z; reflexivity.
Qed.
Lemma wgrow_at id w : wrun (grow id) w =
  match w_objs w !! id with
  | Some v => if Nat.ltb (v_cap v) (v_size v + 1) && negb (zn (v_size v) <=? INT_MAX)%Z then UB else Ok (tt, w)
  | None => UB
  end.
Proof.
  unfold grow. rewrite wrun_bind, wsize_run. destruct (w_objs w !! id) as [v|] eqn:E; [|reflexivity].
  rewrite wrun_bind, wcap_run, E. destruct (Nat.ltb _ _); [|reflexivity]. unfold count. destruct (_ <=? _)%Z; reflexivity.
Qed.
Lemma wshrink_at id w : wrun (shrink id) w =
  match w_objs w !! id with
  | Some v => if Nat.ltb (v_size v - 1) (v_cap v / 3) && negb (zn (v_size v - 1) <=? INT_MAX)%Z then UB else Ok (tt, w)
  | None => UB
  end.
Proof.
  unfold shrink. rewrite wrun_bind, wsize_run. destruct (w_objs w !! id) as [v|] eqn:E; [|reflexivity].
  rewrite wrun_bind, wcap_run, E. destruct (Nat.ltb _ _); [|reflexivity]. unfold count. destruct (_ <=? _)%Z; reflexivity.
Qed.
Lemma vcall_run o w : wrun (ints (vcall o)) w =
  match wrun (machine (WOp o)) w with Ok (o', w') => wrun (WDo o' (fun r => WRet r)) w' | Abort => Abort | UB => UB | Diverge => Diverge end.
Proof. unfold vcall. cbn [ints]. apply wrun_bind. Qed.
Lemma count_at n w : wrun (count n) w = if (zn n <=? INT_MAX)%Z then Ok (tt, w) else UB.
Proof. unfold count. destruct (_ <=? _)%Z; reflexivity. Qed.
Lemma long_ub id w v : w_objs w !! id = Some v -> (INT_MAX < zn (v_size v))%Z -> wrun (walk id) w = UB.
Proof. intros E Hv. rewrite wwalk_at, E. destruct (Z.leb_spec (zn (v_size v)) INT_MAX); [lia|reflexivity]. Qed.

Lemma overflow_ub o w : overflows o w -> wrun (ints (vcall o)) w = UB.
Proof.
  intros H. rewrite vcall_run. destruct o; cbn [overflows machine] in *; try contradiction.
  - rewrite wrun_bind, count_at. destruct (Z.leb_spec (zn n) INT_MAX); [lia|reflexivity].
  - destruct H as (v & E & Hv). rewrite wrun_bind, (long_ub _ _ _ E Hv). reflexivity.
  - destruct H as [Hne H]. apply Nat.eqb_neq in Hne. rewrite Hne, wrun_bind. destruct H as [(v & E & Hv)|(v & E & Hv)].
    + rewrite (long_ub _ _ _ E Hv). reflexivity.
    + rewrite wwalk_at. destruct (w_objs w !! id); [|reflexivity]. destruct (_ <=? _)%Z; [|reflexivity].
      rewrite wrun_bind, (long_ub _ _ _ E Hv). reflexivity.
  - destruct H as [Hne (v & E & Hv)]. apply Nat.eqb_neq in Hne. rewrite Hne, wrun_bind, (long_ub _ _ _ E Hv). reflexivity.
  - destruct H as (v & E & Hv & Hc). rewrite wrun_bind, wgrow_at, E. destruct (Nat.ltb_spec (v_cap v) (v_size v + 1)); [|lia].
    destruct (Z.leb_spec (zn (v_size v)) INT_MAX); [lia|reflexivity].
  - destruct H as (v & E & Hv & Hc). rewrite wrun_bind, wshrink_at, E.
    destruct (Nat.ltb_spec (v_size v - 1) (v_cap v / 3)); [|unfold INT_MAX in Hv; lia].
    destruct (Z.leb_spec (zn (v_size v - 1)) INT_MAX); [lia|reflexivity].
  - destruct H as (v & E & Hv). rewrite wrun_bind, (long_ub _ _ _ E Hv). reflexivity.
  - rewrite wrun_bind. destruct H as [(v & E & Hv)|Hn]; [rewrite (long_ub _ _ _ E Hv); reflexivity|].
    rewrite wwalk_at. destruct (w_objs w !! id); [|reflexivity]. destruct (_ <=? _)%Z; [|reflexivity].
    rewrite wrun_bind, count_at. destruct (Z.leb_spec (zn n) INT_MAX); [lia|reflexivity].
  - destruct H as (v & E & Hv). rewrite wrun_bind, (long_ub _ _ _ E Hv). reflexivity.
  - destruct H as (v & E & Hv). rewrite wrun_bind, (long_ub _ _ _ E Hv). reflexivity.
Qed.

Lemma walk_not id w : ~ (exists v, w_objs w !! id = Some v /\ (INT_MAX < zn (v_size v))%Z) ->
  wrun (walk id) w = match w_objs w !! id with Some _ => Ok (tt, w) | None => UB end.
Proof.
  intros H. rewrite wwalk_at. destruct (w_objs w !! id) as [v|]; [|reflexivity].
  destruct (Z.leb_spec (zn (v_size v)) INT_MAX); [reflexivity|]. exfalso. eauto.
Qed.
Ltac gone E := cbn [VecProg.wrun w_step v_step]; unfold vcall; cbn [VecProg.wrun w_step v_step]; unfold bind, obj; rewrite ?E; reflexivity.
Lemma no_overflow o w : (forall id i, o <> OGet id i) -> (forall id i a, o <> OSet id i a) -> ~ overflows o w ->
  wrun (ints (vcall o)) w = wrun (vcall o) w.
Proof.
  intros Hg Hs H. rewrite vcall_run. destruct o; cbn [overflows machine] in *; try reflexivity.
  - rewrite wrun_bind, count_at. destruct (Z.leb_spec (zn n) INT_MAX); [reflexivity|contradiction].
  - rewrite wrun_bind, walk_not by exact H. destruct (w_objs w !! src) eqn:E; [reflexivity|].
    unfold vcall. cbn [VecProg.wrun w_step v_step]. unfold bind, absent, obj. destruct (w_objs w !! id); [reflexivity|]. rewrite E. reflexivity.
  - destruct (Nat.eqb_spec id src) as [->|Hne]; [reflexivity|]. rewrite wrun_bind, walk_not by (intros ?; apply H; auto).
    destruct (w_objs w !! id) eqn:E; [|gone E]. rewrite wrun_bind, walk_not by (intros ?; apply H; auto).
    destruct (w_objs w !! src) eqn:E2; [reflexivity|]. unfold vcall. cbn [VecProg.wrun w_step v_step]. unfold bind, obj. rewrite E, E2. reflexivity.
  - destruct (Nat.eqb_spec id src) as [->|Hne]; [reflexivity|]. rewrite wrun_bind, walk_not by (intros ?; apply H; auto).
    destruct (w_objs w !! id) eqn:E; [reflexivity|gone E].
  - rewrite wrun_bind, wgrow_at. destruct (w_objs w !! id) as [v|] eqn:E; [|gone E].
    destruct (Nat.ltb_spec (v_cap v) (v_size v + 1)), (Z.leb_spec (zn (v_size v)) INT_MAX); try reflexivity.
    exfalso. apply H. exists v. repeat split; auto; lia.
  - rewrite wrun_bind, wshrink_at. destruct (w_objs w !! id) as [v|] eqn:E; [|gone E].
    destruct (Nat.ltb_spec (v_size v - 1) (v_cap v / 3)), (Z.leb_spec (zn (v_size v - 1)) INT_MAX); try reflexivity.
    exfalso. apply H. exists v. repeat split; auto; unfold INT_MAX in *; lia.
  - destruct (Hs _ _ _ eq_refl).
  - rewrite wrun_bind, walk_not by exact H. destruct (w_objs w !! id) eqn:E; [reflexivity|gone E].
  - rewrite wrun_bind, walk_not by (intros ?; apply H; auto). destruct (w_objs w !! id) eqn:E; [|gone E].
    rewrite wrun_bind, count_at. destruct (Z.leb_spec (zn n) INT_MAX); [reflexivity|]. exfalso. auto.
  - rewrite wrun_bind, walk_not by exact H. destruct (w_objs w !! id) eqn:E; [reflexivity|gone E].
  - rewrite wrun_bind, walk_not by exact H. destruct (w_objs w !! id) eqn:E; [reflexivity|gone E].
  - destruct (Hg _ _ eq_refl).
Qed.
End Exact.

Lemma exact_calls {A} (triv : bool) (o : vop A) (w : world A) :
  (overflows o w -> wrun triv (ints (vcall o)) w = UB) /\
  ((forall id i, o <> OGet id i) -> (forall id i a, o <> OSet id i a) -> ~ overflows o w ->
   wrun triv (ints (vcall o)) w = wrun triv (vcall o) w).
Proof. split; [apply overflow_ub|apply no_overflow]. Qed.

(** Reading and writing elements. *)
Lemma do_run {A} triv (o : wop A) w : wrun triv (WDo o (fun r => WRet r)) w = w_step triv o w.
Proof. cbn [wrun]. unfold bind, ret. destruct (w_step triv o w) as [[? ?]| | |]; reflexivity. Qed.
Lemma exact_index {A} (triv : bool) (w : world A) id v i a :
  w_objs w !! id = Some v -> (INT_MIN <= i <= INT_MAX)%Z -> (zn (v_size v) < 2 ^ 32)%Z ->
  if (zn (v_size v) <=? INT_MAX)%Z
  then wrun triv (ints (vcall (OGet id i))) w = wrun triv (vcall (OGet id i)) w /\
       wrun triv (ints (vcall (OSet id i a))) w = wrun triv (vcall (OSet id i a)) w
  else (wrun triv (ints (vcall (OGet id i))) w = Abort \/ wrun triv (ints (vcall (OGet id i))) w = UB) /\
       (wrun triv (ints (vcall (OSet id i a))) w = Abort \/ wrun triv (ints (vcall (OSet id i a))) w = UB).
Proof.
  intros E Hi Hv. rewrite !vcall_run. cbn [machine]. rewrite !wrun_bind. destruct (Z.leb_spec (zn (v_size v)) INT_MAX) as [Hs|Hs].
  - assert (Ho : wrun triv (offset (A := A) id i) w = if (goes v i <? zn (v_size v))%Z then if (goes v i <? 0)%Z then UB else Ok (goes v i, w) else Abort).
    { unfold offset. destruct (Z.leb_spec INT_MIN i), (Z.leb_spec i INT_MAX); try lia. cbn [andb]. unfold moff. rewrite wrun_bind, wsize_run, E.
      unfold int_index. rewrite (to_int_id (zn (v_size v))) by (unfold INT_MIN, INT_MAX in *; lia). unfold goes.
      destruct (Z.ltb_spec i 0).
      - rewrite to_int_add, (to_int_id (zn (v_size v) + i)) by (unfold INT_MIN, INT_MAX in *; lia). destruct (_ <? _)%Z; [|reflexivity]. destruct (_ <? 0)%Z; reflexivity.
      - destruct (_ <? _)%Z; [|reflexivity]. destruct (_ <? 0)%Z; reflexivity. }
    rewrite !Ho. unfold vcall. rewrite !do_run, (set_run triv _ _ _ _ _ E), (get_run triv _ _ _ _ E).
    destruct (goes v i <? zn (v_size v))%Z eqn:E1; [|auto]. unfold load_z, store_z. destruct (goes v i <? 0)%Z eqn:E0; [auto|].
    change (wrun triv (WRet (WOp (OGet id (goes v i)))) w) with (Ok (WOp (OGet (A := A) id (goes v i)), w)). change (wrun triv (WRet (WOp (OSet id (goes v i) a))) w) with (Ok (WOp (OSet id (goes v i) a), w)). cbv iota beta.
    rewrite !do_run, (set_run triv _ _ _ _ _ E), (get_run triv _ _ _ _ E), goes_again, E1 by lia.
    unfold load_z, store_z. rewrite E0. auto.
  - assert (Ho : wrun triv (offset (A := A) id i) w = Abort \/ wrun triv (offset (A := A) id i) w = UB).
    { unfold offset. destruct (Z.leb_spec INT_MIN i), (Z.leb_spec i INT_MAX); try lia. cbn [andb]. unfold moff. rewrite wrun_bind, wsize_run, E.
      destruct (int_index_big (zn (v_size v)) i) as [->|(_ & j & -> & Hj)]; [lia|lia|left; reflexivity|].
      destruct (Z.ltb_spec j 0); [right; reflexivity|lia]. }
    destruct Ho as [-> | ->]; auto.
Qed.
