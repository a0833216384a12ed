(** Vectors and strings beyond the range of int. *)
From Verif Require Import Base VectorModel VectorSpec VecProg VectorProofs VectorWorld VectorExtra Adapter LRun StringModel StringSpec StringProofs ArithModel IntModel IntProofs IntVecModel IntVecSpec IntVecProofs.
Local Open Scope nat_scope.

Section Limit.
Context {A : Type} (triv : bool).
Notation lrun := (lrun triv).
Implicit Types (s : lworld A).

Lemma walk_at s id l : s !! id = Some l -> lrun (walk id) s = if (zn (length (l_seq l)) <=? INT_MAX)%Z then Ok (tt, s) else UB.
Proof. intros E. unfold walk. rewrite lrun_bind, lsize_run, E. unfold count. destruct (_ <=? _)%Z; reflexivity. Qed.
Lemma grow_at s id l : s !! id = Some l -> lrun (grow id) s =
  if negb (Nat.ltb (l_cap l) (length (l_seq l) + 1)) || (zn (length (l_seq l)) <=? INT_MAX)%Z then Ok (tt, s) else UB.
Proof.
  intros E. unfold grow. rewrite lrun_bind, lsize_run, E, lrun_bind, lcap_run, E. unfold count.
  destruct (Nat.ltb _ _); [|reflexivity]. cbn. destruct (_ <=? _)%Z; reflexivity.
Qed.
Lemma push_at s id a c cap : s !! id = Some (LVec c cap) ->
  (lrun (ints (wunit (OPush id a))) s = UB /\ (INT_MAX < zn (length c))%Z) \/
  exists cap', lrun (ints (wunit (OPush id a))) s = Ok (tt, <[id := LVec (c ++ [a]) cap']> s).
Proof.
  intros E. unfold wunit. cbn [ints machine]. rewrite lrun_bind, lrun_bind, (grow_at _ _ _ E). cbn [l_seq l_cap].
  destruct (negb _ || _) eqn:Eg.
  - right. cbn [VecProg.lrun lw_step lv_step]. unfold lwith. rewrite E. cbn. eauto.
  - left. split; [reflexivity|]. apply orb_false_iff in Eg as [_ Eg]. lia.
Qed.
Lemma drop_at s id c cap : s !! id = Some (LVec c cap) ->
  lrun (ints (wunit (ODestroy id))) s = if (zn (length c) <=? INT_MAX)%Z then Ok (tt, delete id s) else UB.
Proof.
  intros E. unfold wunit. cbn [ints machine]. rewrite lrun_bind, lrun_bind, (walk_at _ _ _ E). cbn [l_seq].
  destruct (_ <=? _)%Z; [|reflexivity]. cbn [VecProg.lrun lw_step lv_step]. unfold lwith. rewrite E. reflexivity.
Qed.
Lemma vcall_unit o s : (forall s, match lw_step triv (WOp o) s with Ok (r, _) => r = RUnit | _ => True end) ->
  (forall s r s', lrun (machine (WOp o)) s = Ok (r, s') -> r = WOp o) ->
  lrun (ints (vcall o)) s = match lrun (ints (wunit o)) s with Ok (_, s') => Ok (RUnit, s') | Abort => Abort | UB => UB | Diverge => Diverge end.
Proof.
  intros H Hm. unfold vcall, wunit. cbn [ints]. rewrite !lrun_bind. specialize (Hm s). destruct (lrun (machine (WOp o)) s) as [[o' s1]| | |]; try reflexivity.
  rewrite (Hm _ _ eq_refl). specialize (H s1). cbn [VecProg.lrun]. destruct (lw_step triv (WOp o) s1) as [[r s2]| | |]; try reflexivity. rewrite H. reflexivity.
Qed.
Lemma then_ret {X Y} (p : wprog A X) (y : Y) s o' s' : lrun (p ;;; WRet y)%wprog s = Ok (o', s') -> o' = y.
Proof. rewrite lrun_bind. destruct (lrun p s) as [[x s1]| | |]; cbn; congruence. Qed.

Lemma pushes_run l : forall s c cap, s !! 0 = Some (LVec c cap) ->
  lrun (ints (arun vcall (map (OPush 0) l ++ [ODestroy 0]))) s =
    if (zn (length c + length l) <=? INT_MAX)%Z then Ok (repeat RUnit (length l + 1), delete 0 s) else UB.
Proof.
  induction l as [|a l IH]; intros s c cap E; cbn [map app arun length]; rewrite ints_bind, vcall_unit;
    try (intros ? ? ? Hm; apply (then_ret _ _ _ _ _ Hm));
    try (intros s0; cbn [lw_step lv_step]; unfold lwith; destruct (s0 !! 0); exact I || reflexivity).
  - rewrite (drop_at _ _ _ _ E), Nat.add_0_r. destruct (_ <=? _)%Z; reflexivity.
  - destruct (push_at s 0 a c cap E) as [[-> Hbig]|(cap' & ->)].
    + destruct (Z.leb_spec (zn (length c + S (length l))) INT_MAX); [lia|reflexivity].
    + rewrite ints_bind, (IH _ (c ++ [a]) cap') by apply lookup_insert. rewrite app_length. cbn [length].
      replace (length c + 1 + length l) with (length c + S (length l)) by lia.
      destruct (_ <=? _)%Z; [|reflexivity]. rewrite delete_insert_delete. reflexivity.
Qed.
Lemma vector_limit (l : list A) :
  if (zn (length l) <=? INT_MAX)%Z
  then exists w, wrun triv (ints (arun vcall (ONew 0 :: map (OPush 0) l ++ [ODestroy 0]))) world_init = Ok (repeat RUnit (length l + 2), w) /\ storage_ok w
  else wrun triv (ints (arun vcall (ONew 0 :: map (OPush 0) l ++ [ODestroy 0]))) world_init = UB.
Proof.
  pose proof (program_from_scratch triv (ints (arun vcall (ONew 0 :: map (OPush 0) l ++ [ODestroy 0])))) as Hp.
  assert (H : lrun (ints (arun vcall (ONew 0 :: map (OPush 0) l ++ [ODestroy 0]))) ∅ =
    if (zn (length l) <=? INT_MAX)%Z then Ok (repeat RUnit (length l + 2), ∅) else UB).
  { cbn [arun]. rewrite ints_bind. change (lrun (ints (vcall (ONew 0))) ∅) with (Ok (RUnit (A := A), <[0 := LVec [] 0]> (∅ : lworld A))).
    cbv iota beta. rewrite ints_bind, (pushes_run l _ [] 0) by apply lookup_insert. cbn [length plus].
    destruct (_ <=? _)%Z; [|reflexivity]. replace (length l + 2) with (S (length l + 1)) by lia. cbn [ints VecProg.lrun].
    rewrite delete_insert by apply lookup_empty. reflexivity. }
  rewrite H in Hp. destruct (_ <=? _)%Z; [|exact Hp]. destruct Hp as (w & Hw & _ & Hst). eauto.
Qed.

(** Pushing alone: capacities are powers of two, and growing from 2^31 is too much. *)
Lemma push_exact s id a c cap : s !! id = Some (LVec c cap) ->
  lrun (ints (vcall (OPush id a))) s =
    if negb (Nat.ltb cap (length c + 1)) || (zn (length c) <=? INT_MAX)%Z
    then Ok (RUnit, <[id := LVec (c ++ [a]) (cap_push (length c) cap)]> s) else UB.
Proof.
  intros E. rewrite vcall_unit; [|intros s0; cbn [lw_step lv_step]; unfold lwith; destruct (s0 !! id); exact I || reflexivity
    |intros ? ? ? Hm; apply (then_ret _ _ _ _ _ Hm)].
  unfold wunit. cbn [ints machine]. rewrite lrun_bind, lrun_bind, (grow_at _ _ _ E). cbn [l_seq l_cap].
  destruct (negb _ || _); [|reflexivity]. cbn [VecProg.lrun lw_step lv_step]. unfold lwith. rewrite E. reflexivity.
Qed.
Lemma push_many l : forall s c cap k, s !! 0 = Some (LVec c cap) -> zn cap = (2 ^ k)%Z -> (1 <= k <= 31)%Z -> length c <= cap ->
  if (zn (length c + length l) <=? 2 ^ 31)%Z
  then exists cap', lrun (ints (arun vcall (map (OPush 0) l))) s = Ok (repeat RUnit (length l), <[0 := LVec (c ++ l) cap']> s)
  else lrun (ints (arun vcall (map (OPush 0) l))) s = UB.
Proof.
  induction l as [|a l IH]; intros s c cap k E Hk Hr Hc; cbn [map arun length].
  - destruct (Z.leb_spec (zn (length c + 0)) (2 ^ 31)).
    + exists cap. cbn. rewrite app_nil_r, insert_id by assumption. reflexivity.
    + assert (2 ^ k <= 2 ^ 31)%Z by (apply Z.pow_le_mono_r; lia). lia.
  - rewrite ints_bind, (push_exact _ _ _ _ _ E).
    assert (Hp : (2 ^ k <= 2 ^ 31)%Z) by (apply Z.pow_le_mono_r; lia).
    destruct (Nat.ltb_spec cap (length c + 1)); cbn [negb orb].
    + assert (Hcc : length c = cap) by lia. destruct (Z.leb_spec (zn (length c)) INT_MAX) as [Hs|Hs].
      * assert (k <> 31)%Z by (intros ->; unfold INT_MAX in Hs; lia).
        assert (Hcap : zn (cap_push (length c) cap) = (2 ^ (k + 1))%Z).
        { unfold cap_push. rewrite Hcc, Nat.eqb_refl. rewrite Z.pow_add_r by lia.
          assert (2 ^ 1 <= 2 ^ k)%Z by (apply Z.pow_le_mono_r; lia). lia. }
        specialize (IH (<[0 := LVec (c ++ [a]) (cap_push (length c) cap)]> s) (c ++ [a]) _ (k + 1)%Z (lookup_insert _ _ _) Hcap ltac:(lia)).
        rewrite app_length in IH. cbn [length] in IH. replace (length c + 1 + length l) with (length c + S (length l)) in IH by lia.
        assert (Hle : length c + 1 <= cap_push (length c) cap).
        { assert (2 ^ 1 <= 2 ^ k)%Z by (apply Z.pow_le_mono_r; lia). rewrite Z.pow_add_r in Hcap by lia. lia. }
        specialize (IH Hle). cbv iota beta. rewrite ints_bind. destruct (_ <=? 2 ^ 31)%Z.
        -- destruct IH as (cap' & ->). exists cap'. cbn [ints VecProg.lrun]. rewrite insert_insert, <- app_assoc. reflexivity.
        -- rewrite IH. reflexivity.
      * destruct (Z.leb_spec (zn (length c + S (length l))) (2 ^ 31)); [|reflexivity]. unfold INT_MAX in Hs. lia.
    + assert (Hcap : cap_push (length c) cap = cap) by (unfold cap_push; destruct (Nat.eqb_spec (length c) cap); [lia|reflexivity]).
      rewrite Hcap.
      specialize (IH (<[0 := LVec (c ++ [a]) cap]> s) (c ++ [a]) _ k (lookup_insert _ _ _) Hk Hr).
      rewrite app_length in IH. cbn [length] in IH. replace (length c + 1 + length l) with (length c + S (length l)) in IH by lia.
      specialize (IH ltac:(lia)). cbv iota beta. rewrite ints_bind. destruct (_ <=? 2 ^ 31)%Z.
      * destruct IH as (cap' & ->). exists cap'. cbn [ints VecProg.lrun]. rewrite insert_insert, <- app_assoc. reflexivity.
      * rewrite IH. reflexivity.
Qed.
Lemma list_of_length (a : A) (z : Z) : (0 <= z)%Z -> exists l : list A, Z.of_nat (length l) = z.
Proof. intros H. exists (repeat a (Z.to_nat z)). rewrite repeat_length. apply Z2Nat.id, H. Qed.

(** A vector that can be iterated over has the length of its contents. *)
Lemma iter_length fuel b last : forall cur (l : list A) (m m' : mem A), cur <= last ->
  v_iter_from fuel b cur last m = Ok (l, m') -> cur + length l = last.
Proof.
  induction fuel as [|f IH]; intros cur l m m' Hc; cbn [v_iter_from]; [discriminate|].
  destruct (Nat.eqb_spec cur last) as [->|Hn]; [unfold ret; intros [= <- _]; cbn; lia|].
  unfold bind. destruct (load b cur m) as [[a m1]| | |]; try discriminate.
  destruct (v_iter_from f b (S cur) last m1) as [[l1 m2]| | |] eqn:E; try discriminate.
  unfold ret. intros [= <- _]. apply IH in E; [|lia]. cbn. lia.
Qed.
Lemma contents_size (w : world A) id l : contents w id = Some l ->
  exists v, w_objs w !! id = Some v /\ v_size v = length l.
Proof.
  unfold contents. destruct (w_objs w !! id) as [v|]; [|discriminate].
  destruct (v_iter v (w_mem w)) as [[l1 m]| | |] eqn:E; try discriminate. intros [= ->].
  exists v. split; [reflexivity|]. unfold v_iter in E. apply iter_length in E; lia.
Qed.

Lemma push_limit (l : list A) :
  if (zn (length l) <=? 2 ^ 31)%Z
  then exists w, wrun triv (ints (arun vcall (ONew 0 :: map (OPush 0) l))) world_init = Ok (repeat RUnit (length l + 1), w) /\
         contents w 0 = Some l /\ storage_ok w
  else wrun triv (ints (arun vcall (ONew 0 :: map (OPush 0) l))) world_init = UB.
Proof.
  pose proof (program_from_scratch triv (ints (arun vcall (ONew 0 :: map (OPush 0) l)))) as Hp.
  assert (H : if (zn (length l) <=? 2 ^ 31)%Z
    then exists cap, lrun (ints (arun vcall (ONew 0 :: map (OPush 0) l))) ∅ = Ok (repeat RUnit (length l + 1), <[0 := LVec l cap]> ∅)
    else lrun (ints (arun vcall (ONew 0 :: map (OPush 0) l))) ∅ = UB).
  { cbn [arun]. rewrite ints_bind. change (lrun (ints (vcall (ONew 0))) ∅) with (Ok (RUnit (A := A), <[0 := LVec [] 0]> (∅ : lworld A))).
    cbv iota beta. rewrite ints_bind. destruct l as [|a l].
    - exists 0. reflexivity.
    - cbn [map arun]. rewrite ints_bind, (push_exact _ _ _ _ _ (lookup_insert _ _ _)).
      destruct (negb _ || _) eqn:Eb; [|exfalso; vm_compute in Eb; discriminate].
      rewrite ints_bind.
      pose proof (push_many l (<[0 := LVec ([] ++ [a]) (cap_push (length (@nil A)) 0)]> (<[0 := LVec [] 0]> ∅)) ([] ++ [a]) 2 1%Z (lookup_insert _ _ _) eq_refl ltac:(lia)) as Hm.
      specialize (Hm ltac:(cbn; lia)). change (length ([] ++ [a]) + length l) with (length (a :: l)) in Hm.
      destruct (_ <=? 2 ^ 31)%Z; [|rewrite Hm; reflexivity]. destruct Hm as (cap & ->). exists cap. cbn [ints VecProg.lrun].
      rewrite !insert_insert. replace (length (a :: l) + 1) with (S (S (length l))) by (cbn; lia). reflexivity. }
  destruct (_ <=? 2 ^ 31)%Z; [|rewrite H in Hp; exact Hp]. destruct H as (cap & H). rewrite H in Hp. destruct Hp as (w & Hw & Hv & Hst).
  exists w. split; [exact Hw|]. split; [|exact Hst].
  assert (Hx : view w !! 0 = Some (LVec l cap)) by (rewrite Hv; apply lookup_insert).
  unfold view in Hx. rewrite map_lookup_imap in Hx. destruct (w_objs w !! 0); [|discriminate]. cbn in Hx. destruct (contents w 0); congruence.
Qed.
End Limit.

(** A string made of a C string and destroyed again. *)
Lemma read_at rest : forall (s : lworld Z) v c cap cs, s !! v = Some (LVec c cap) -> cstr rest = Some cs ->
  (lrun true (ints (st_read v rest)) s = UB /\ (INT_MAX < zn (length c + length cs))%Z) \/
  exists cap', lrun true (ints (st_read v rest)) s = Ok (tt, <[v := LVec (c ++ cs) cap']> s).
Proof.
  induction rest as [|a rest IH]; intros s v c cap cs E Hc; [discriminate|]. cbn [cstr st_read] in *. destruct (Z.eqb_spec a 0).
  - injection Hc as <-. right. exists cap. rewrite app_nil_r, insert_id by assumption. reflexivity.
  - destruct (cstr rest) as [cs'|]; [|discriminate]. injection Hc as <-. rewrite ints_bind.
    destruct (push_at true s v a c cap E) as [[-> Hbig]|(cap1 & ->)]; [left; split; [reflexivity|cbn [length]; lia]|].
    destruct (IH (<[v := LVec (c ++ [a]) cap1]> s) v (c ++ [a]) cap1 cs' (lookup_insert _ _ _) eq_refl) as [[-> Hbig]|(cap' & ->)].
    + left. split; [reflexivity|]. rewrite app_length in Hbig. cbn [length] in *. lia.
    + right. exists cap'. rewrite insert_insert, <- app_assoc. reflexivity.
Qed.
Lemma string_limit buf c cs : cstr buf = Some (c :: cs) ->
  if (zn (length (c :: cs)) <? INT_MAX)%Z
  then exists w, wrun true (ints (arun st_step [TLit 0 buf; TDestroy 0])) world_init = Ok ([TUnit; TUnit], w) /\ storage_ok w
  else wrun true (ints (arun st_step [TLit 0 buf; TDestroy 0])) world_init = UB.
Proof.
  intros Hc. pose proof (program_from_scratch true (ints (arun st_step [TLit 0 buf; TDestroy 0]))) as Hp.
  destruct buf as [|a rest]; [discriminate|]. cbn [cstr] in Hc. destruct (Z.eqb_spec a 0); [discriminate|].
  destruct (cstr rest) as [cs'|] eqn:Er; [|discriminate]. injection Hc as -> ->.
  remember (arun st_step [TLit 0 (c :: rest); TDestroy 0]) as p eqn:Ep.
  assert (H : lrun true (ints p) ∅ = if (zn (length (c :: cs)) <? INT_MAX)%Z then Ok ([TUnit; TUnit], ∅) else UB).
  { subst p. cbn [arun st_step]. unfold st_from_c, st_destroy. rewrite !ints_bind.
    replace (lrun true (ints (st_init (sv 0))) ∅) with (lrun true (st_init (sv 0)) ∅) by (vm_compute; reflexivity).
    rewrite init_ok by apply lookup_empty. rewrite ints_bind.
    rewrite lsafe_run.
    2: { unfold wset, wunit. cbn [lsafe lsmall lw_step lv_step]. unfold lwith. rewrite lookup_insert. split; [|exact I]. split; [|unfold INT_MIN, INT_MAX; lia].
         intros l [= <-]. cbn. unfold INT_MAX. lia. }
    rewrite (wset_last _ _ [] 0%Z 15) by apply lookup_insert. rewrite ints_bind, insert_insert. change ([] ++ [c]) with [c].
    destruct (read_at rest (<[sv 0 := LVec [c] 15]> ∅) (sv 0) [c] 15 cs (lookup_insert _ _ _) Er) as [[-> Hbig]|(cap' & ->)].
    { cbn [length] in *. destruct (Z.ltb_spec (zn (S (length cs))) INT_MAX); [lia|reflexivity]. }
    destruct (push_at true (<[sv 0 := LVec ([c] ++ cs) cap']> (<[sv 0 := LVec [c] 15]> ∅)) (sv 0) 0%Z _ _ (lookup_insert _ _ _)) as [[-> Hbig]|(cap2 & ->)].
    { cbn [length app] in *. destruct (Z.ltb_spec (zn (S (length cs))) INT_MAX); [lia|reflexivity]. }
    cbn [ints VecProg.lrun]. rewrite !ints_bind. rewrite (drop_at true _ (sv 0) (([c] ++ cs) ++ [0%Z]) cap2) by apply lookup_insert.
    rewrite app_length. cbn [length app].
    destruct (Z.leb_spec (zn (S (length cs) + 1)) INT_MAX), (Z.ltb_spec (zn (S (length cs))) INT_MAX); try lia; [|reflexivity].
    cbn [ints VecProg.lrun]. do 2 f_equal. rewrite !insert_insert. apply delete_insert, lookup_empty. }
  rewrite H in Hp. destruct (_ <? _)%Z; [|exact Hp]. destruct Hp as (w & Hw & _ & Hst). eauto.
Qed.
