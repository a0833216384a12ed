(** DisjointSet by reference: every call, and histories. *)
From Verif Require Import Base VectorModel VectorSpec VecProg VectorProofs VectorWorld VectorExtra Adapter LRun Hist DSUModel DSUSpec DSUProofs
  DSUUnionModel DSUUnionSpec DSUUnionProofs VecIterModel VecIterSpec VecIterProofs DSURefModel DSURefSpec DSURefFind DSURefUnion DSURefProofs.

Notation lift := VectorModel.lift.

Section Hist.
Context (ord : order).
Implicit Types (st : rst) (ls : lZ) (s : rsp) (t : reps).

(** ** Calls on whole sets *)
(** The vector operation behind a call. *)
Definition vop_of (o : dop) : option (vop Z) :=
  match o with
  | DNew id n => Some (OFill id n (-1)%Z)
  | DCopyNew id src => Some (OCopyNew id src)
  | DMoveNew id src => Some (OMoveNew id src)
  | DAssign id src => Some (OAssign id src)
  | DMoveAssign id src => Some (OMoveAssign id src)
  | DDestroy id => Some (ODestroy id)
  | DCount id => Some (OIter id)
  | DSize id => Some (OSize id)
  | DEmpty id => Some (OEmpty id)
  | _ => None
  end.
Lemma vop_run o vo (w : world Z) r w' : vop_of o = Some vo -> wrun true (ds_step o) w = Ok (r, w') -> exists r0, v_step true vo w = Ok (r0, w').
Proof.
  intros Ho H. destruct o; cbn [vop_of] in Ho; try discriminate; injection Ho as <-;
    cbn [ds_step wbind wunit ds_count witer wsize wempty wrun w_step] in H; unfold bind in H;
    match goal with |- context[v_step ?b ?o ?w] => destruct (v_step b o w) as [[r0 w0]| | |] end; try discriminate;
    exists r0; try (injection H as _ <-; reflexivity); destruct r0; try discriminate; injection H as _ <-; reflexivity.
Qed.
Lemma vop_lrun o vo ls r ls' : vop_of o = Some vo -> lrun true (ds_step o) ls = Ok (r, ls') -> exists r0, lv_step true vo ls = Ok (r0, ls').
Proof.
  intros Ho H. destruct o; cbn [vop_of] in Ho; try discriminate; injection Ho as <-;
    cbn [ds_step wbind wunit ds_count witer wsize wempty lrun lw_step] in H;
    match goal with |- context[lv_step ?b ?o ?w] => destruct (lv_step b o w) as [[r0 w0]| | |] end; try discriminate;
    exists r0; try (injection H as _ <-; reflexivity); destruct r0; try discriminate; injection H as _ <-; reflexivity.
Qed.

Lemma rok_follow t t' i st ls w' ls' vo r id id2 n cur : (forall j, follow vo ls id j = PAt id2 j) -> ls' !! id2 = ls !! id -> t' !! id2 = t !! id ->
  (forall p id j, rvar (r_vecs st) p (PAt id j) -> rvar w' p (follow vo ls id j)) ->
  rok t i st ls r (SElem id n cur) -> rok t' i (RSt w' (r_ints st) (r_refs st)) ls' r (SElem id2 n cur).
Proof.
  intros Hf Hl Ht Hv (p & j & A & cap & d & y & -> & Hp & Hl' & Hd & Hj & Hn & Hy & Hc).
  exists p, j, A, cap, d, y. rewrite Hl, Ht. cbn [r_vecs]. split_and!; auto. rewrite <- Hf. apply Hv, Hp.
Qed.

Lemma rok_gone t t' i st ls w' ls' vo r id n cur : (forall j, follow vo ls id j = PGone) ->
  (forall p id j, rvar (r_vecs st) p (PAt id j) -> rvar w' p (follow vo ls id j)) ->
  rok t i st ls r (SElem id n cur) -> rok t' i (RSt w' (r_ints st) (r_refs st)) ls' r SGone.
Proof.
  intros Hf Hv (p & j & A & cap & d & y & -> & Hp & _). right. exists p. split; [reflexivity|]. cbn [r_vecs]. rewrite <- (Hf j). apply Hv, Hp.
Qed.

Lemma whole_agree s st o : rinv s st -> is_Some (vop_of o) -> magree rinv (call (UDo o) s) (on_sets (wrun true (ds_step o)) st).
Proof.
  intros [ls H] [vo Hvo]. unfold call. cbn [du_step].
  pose proof (ds_step_agree o _ _ (ri_rel _ _ _ H)) as Ha. pose proof (wrun_sim true (ds_step o) _ _ (ri_winv _ _ _ H)) as Hs. unfold sim_res in Hs.
  destruct (dr_step o (p_sets s)) as [[r t]| |] eqn:Edr; cbn [agree] in Ha; [| |exact I].
  2: { rewrite Ha in Hs. unfold on_sets. rewrite Hs. reflexivity. }
  destruct Ha as (ls' & Hlr & Hrel). rewrite Hlr in Hs. destruct Hs as (w' & Hwr & Hw).
  destruct (vop_run _ _ _ _ _ Hvo Hwr) as (r0 & Hvs). destruct (vop_lrun _ _ _ _ _ Hvo Hlr) as (r1 & Hls).
  destruct (v_step_follow _ _ _ _ _ _ _ (ri_winv _ _ _ H) Hw Hvs) as [Hel Hfol].
  exists (RSt w' (r_ints st) (r_refs st)). split; [unfold on_sets; rewrite Hwr; reflexivity|]. exists ls'.
  split; cbn [p_sets p_ints p_refs r_vecs r_ints r_refs]; [exact Hw|exact Hrel|apply H|].
  intros k. pose proof (ri_refs _ _ _ H k) as Hk. rewrite lookup_fmap.
  destruct (r_refs st !! k) as [c|], (p_refs s !! k) as [q|]; cbn; auto.
  destruct q as [x|id n cur|]; [exact Hk| |]; cycle 1.
  { destruct Hk as [->|(p & -> & Hp)]; [left; reflexivity|right]. exists p. split; [reflexivity|]. cbn [r_vecs]. eapply rvar_gone; eauto. }
  assert (Hin : is_Some (p_sets s !! id)) by (destruct Hk as (? & ? & ? & ? & d & ? & _ & _ & _ & Hd & _); eauto).
  assert (Hlin : is_Some (ls !! id)) by (destruct Hk as (? & ? & ? & ? & d & ? & _ & _ & Hl & _); eauto).
  destruct o; cbn [vop_of] in Hvo; try discriminate; injection Hvo as <-; cbn [sfollow];
    cbn [dr_step] in Edr; cbn [lv_step] in Hls; unfold lnew, lwith in Hls;
    repeat match type of Edr with context[p_sets s !! ?i] => destruct (p_sets s !! i) eqn:?; try discriminate end;
    repeat match type of Hls with context[ls !! ?i] => destruct (ls !! i) eqn:?; try discriminate end.
  - (* DNew *) destruct (Nat.eqb n0 0); [discriminate|]. injection Edr as <- <-. injection Hls as <- <-.
    assert (id0 <> id) by (intros ->; destruct Hin; congruence).
    unfold same_rep. rewrite lookup_insert_ne by assumption. destruct Hin as [d Hd]. rewrite Hd, Nat.eqb_refl, andb_true_r.
    eapply (rok_follow _ _ _ _ _ _ _ (OFill id0 n0 (-1)%Z)); [reflexivity| | |exact Hfol|exact Hk]; rewrite lookup_insert_ne by assumption; reflexivity.
  - (* DCopyNew *) destruct (copyable true _); [|discriminate]. injection Edr as <- <-. injection Hls as <- <-.
    assert (id0 <> id) by (intros ->; destruct Hin; congruence).
    unfold same_rep. rewrite lookup_insert_ne by assumption. destruct Hin as [d Hd]. rewrite Hd, Nat.eqb_refl, andb_true_r.
    eapply (rok_follow _ _ _ _ _ _ _ (OCopyNew id0 src)); [reflexivity| | |exact Hfol|exact Hk]; rewrite lookup_insert_ne by assumption; reflexivity.
  - (* DMoveNew *) injection Edr as <- <-. injection Hls as <- <-.
    assert (id0 <> id) by (intros ->; destruct Hin; congruence). assert (id0 <> src) by congruence.
    destruct (Nat.eqb_spec src id) as [->|Hne].
    + eapply (rok_follow _ _ _ _ _ _ _ (OMoveNew id0 id)); [intros j; cbn; rewrite Nat.eqb_refl; reflexivity| | |exact Hfol|exact Hk];
        rewrite lookup_insert_ne, lookup_insert by congruence; congruence.
    + eapply (rok_follow _ _ _ _ _ _ _ (OMoveNew id0 src)); [intros j; cbn; rewrite (proj2 (Nat.eqb_neq _ _) Hne); reflexivity| | |exact Hfol|exact Hk];
        rewrite !lookup_insert_ne by congruence; reflexivity.
  - (* DAssign *) injection Edr as <- <-. destruct (Nat.eqb_spec id0 id) as [->|Hne]; simpl andb.
    + destruct (Nat.eqb_spec id src) as [->|Hns]; simpl negb.
      * injection Hls as <- <-. rewrite insert_id by congruence.
        eapply (rok_follow _ _ _ _ _ _ _ (OAssign src src)); [intros j; cbn; rewrite Nat.eqb_refl; reflexivity| | |exact Hfol|exact Hk]; reflexivity.
      * eapply (rok_gone _ _ _ _ _ _ _ (OAssign id src)); [|exact Hfol|exact Hk]. intros j; cbn. rewrite Nat.eqb_refl, (proj2 (Nat.eqb_neq _ _) Hns). reflexivity.
    + eapply (rok_follow _ _ _ _ _ _ _ (OAssign id0 src)); [intros j; cbn; rewrite (proj2 (Nat.eqb_neq _ _) Hne); reflexivity| | |exact Hfol|exact Hk].
      * destruct (Nat.eqb id0 src); [congruence|]. destruct (copyable true _); [|discriminate]. injection Hls as <- <-. rewrite lookup_insert_ne by congruence. reflexivity.
      * rewrite lookup_insert_ne by congruence. reflexivity.
  - (* DMoveAssign *) destruct (Nat.eqb_spec id0 src) as [->|Hns].
    + injection Edr as <- <-. injection Hls as <- <-.
      eapply (rok_follow _ _ _ _ _ _ _ (OMoveAssign src src)); [intros j; cbn; rewrite Nat.eqb_refl; reflexivity| | |exact Hfol|exact Hk]; reflexivity.
    + injection Edr as <- <-. injection Hls as <- <-. destruct (Nat.eqb_spec src id) as [->|Hne].
      * eapply (rok_follow _ _ _ _ _ _ _ (OMoveAssign id0 id)); [intros j; cbn; rewrite (proj2 (Nat.eqb_neq _ _) Hns), Nat.eqb_refl; reflexivity| | |exact Hfol|exact Hk];
          rewrite lookup_insert_ne, lookup_insert by congruence; congruence.
      * destruct (Nat.eqb_spec id0 id) as [->|Hne0].
        -- eapply (rok_gone _ _ _ _ _ _ _ (OMoveAssign id src)); [|exact Hfol|exact Hk]. intros j; cbn.
           rewrite (proj2 (Nat.eqb_neq _ _) Hns), (proj2 (Nat.eqb_neq _ _) Hne), Nat.eqb_refl. reflexivity.
        -- eapply (rok_follow _ _ _ _ _ _ _ (OMoveAssign id0 src));
             [intros j; cbn; rewrite (proj2 (Nat.eqb_neq _ _) Hns), (proj2 (Nat.eqb_neq _ _) Hne), (proj2 (Nat.eqb_neq _ _) Hne0); reflexivity| | |exact Hfol|exact Hk];
             rewrite !lookup_insert_ne by congruence; reflexivity.
  - (* DDestroy *) injection Edr as <- <-. injection Hls as <- <-. destruct (Nat.eqb_spec id0 id) as [->|Hne].
    + eapply (rok_gone _ _ _ _ _ _ _ (ODestroy id)); [|exact Hfol|exact Hk]. intros j; cbn. rewrite Nat.eqb_refl. reflexivity.
    + eapply (rok_follow _ _ _ _ _ _ _ (ODestroy id0)); [intros j; cbn; rewrite (proj2 (Nat.eqb_neq _ _) Hne); reflexivity| | |exact Hfol|exact Hk];
        rewrite lookup_delete_ne by congruence; reflexivity.
  - (* DCount *) injection Edr as <- <-. injection Hls as <- <-. unfold same_rep. destruct Hin as [d Hd]. rewrite Hd, Nat.eqb_refl, andb_true_r.
    eapply (rok_follow _ _ _ _ _ _ _ (OIter id0)); [reflexivity| | |exact Hfol|exact Hk]; reflexivity.
  - (* DSize *) injection Edr as <- <-. injection Hls as <- <-. unfold same_rep. destruct Hin as [d Hd]. rewrite Hd, Nat.eqb_refl, andb_true_r.
    eapply (rok_follow _ _ _ _ _ _ _ (OSize id0)); [reflexivity| | |exact Hfol|exact Hk]; reflexivity.
  - (* DEmpty *) injection Edr as <- <-. injection Hls as <- <-. unfold same_rep. destruct Hin as [d Hd]. rewrite Hd, Nat.eqb_refl, andb_true_r.
    eapply (rok_follow _ _ _ _ _ _ _ (OEmpty id0)); [reflexivity| | |exact Hfol|exact Hk]; reflexivity.
Qed.

(** ** Every call *)
Lemma int_agree s st x n : rinv s st -> magree rinv (ps_step (PInt x n) s) (p_step ord (PInt x n) st).
Proof.
  intros [ls H]. eexists. split; [reflexivity|]. exists ls. split; cbn [p_sets p_ints p_refs r_vecs r_ints r_refs]; try apply H.
  - intros y. destruct (decide (x = y)) as [<-|Hne]; [rewrite !lookup_insert; reflexivity|]. rewrite !lookup_insert_ne by exact Hne. apply H.
  - intros k. pose proof (ri_refs _ _ _ H k) as Hk. destruct (r_refs st !! k), (p_refs s !! k) as [[y|id m cur|]|]; auto.
    destruct Hk as [-> Hs]. split; [reflexivity|]. destruct (decide (x = y)) as [<-|Hne]; [rewrite lookup_insert; eauto|rewrite lookup_insert_ne by exact Hne; exact Hs].
Qed.
Lemma read_agree s st k : rinv s st -> magree rinv (ps_step (PRead k) s) (p_step ord (PRead k) st).
Proof.
  intros [ls H]. cbn [ps_step p_step]. destruct (exact (ARef k) s) as [y|] eqn:E; [|exact I]. cbn [with1].
  destruct (bound_exact _ _ _ _ _ H E) as (r & Hb & Hr & _). rewrite (bind_ok _ _ _ _ _ Hb), (bind_ok _ _ _ _ _ (rd_ok _ _ _ _ (ri_winv _ _ _ H) Hr)).
  exists st. split; [reflexivity|]. exists ls. exact H.
Qed.

Lemma p_step_agree o s st : rinv s st -> magree rinv (ps_step o s) (p_step ord o st).
Proof.
  intros H. destruct o as [x n|o|k|id a|k id a|id a b|id a b|id a b].
  - apply int_agree, H.
  - destruct o as [id n|id src|id src|id src|id src|id|id x|id x y|id x y|id|id|id]; cbn [ps_step p_step];
      try (apply whole_agree; [exact H|eauto]).
    + exact (find_agree ord s st id (ALit x) H).
    + exact (connected_agree ord s st id (ALit x) (ALit y) H).
    + exact (connect_agree ord s st id (ALit x) (ALit y) H).
  - apply read_agree, H.
  - apply find_agree, H.
  - apply bind_agree, H.
  - apply connected_agree, H.
  - apply connect_agree, H.
  - apply union_agree, H.
Qed.

(** ** Histories *)
Lemma p_run_agree ops s st : rinv s st -> magree rinv (srun ps_step ops s) (mrun (p_step ord) ops st).
Proof. apply mrun_agree. exact p_step_agree. Qed.

Lemma ref_history : forall ops,
  match srun ps_step ops rsp0 with
  | SVal (rs, s) => exists st, mrun (p_step ord) ops r_init = Ok (rs, st) /\ storage_ok (r_vecs st)
  | SAbort => mrun (p_step ord) ops r_init = Abort
  | SUnspec => True
  end.
Proof.
  intros ops. pose proof (p_run_agree ops _ _ rinv_init) as H.
  destruct (srun ps_step ops rsp0) as [[rs s]| |]; cbn [magree] in H; auto. destruct H as (st & E & ls & Hi).
  exists st. split; [exact E|]. eapply winv_storage, Hi.
Qed.

(** What reading a kept reference gives. *)
Lemma read_gone s st ls k : rinvl s st ls -> p_refs s !! k = Some SGone -> p_step ord (PRead k) st = UB.
Proof.
  intros H Ek. destruct (ref_some _ _ _ _ _ H Ek) as (r & Hr & Hok). cbn [p_step].
  assert (Hb : bound (ARef k) st = Ok (r, st)) by (cbn; rewrite Hr; reflexivity). rewrite (bind_ok _ _ _ _ _ Hb).
  apply bind_ub. destruct Hok as [->|(p & -> & Hp)]; [reflexivity|].
  cbn [rd]. unfold on_sets, lift. rewrite (load_pos _ _ (ri_winv _ _ _ H) _ _ Hp). reflexivity.
Qed.
Lemma read_elem s st ls k id n cur : rinvl s st ls -> p_refs s !! k = Some (SElem id n cur) ->
  exists d y, p_sets s !! id = Some d /\ p_step ord (PRead k) st = Ok (RVal (Z.of_nat y), st) /\
    n < length d /\ y < length d /\ rep d y = rep d n /\ (cur = true -> y = rep d n).
Proof.
  intros H Ek. destruct (ref_some _ _ _ _ _ H Ek) as (r & Hr & p & j & A & cap & d & y & -> & Hp & Hl & Hd & Hj & Hn & Hy & Hc).
  destruct (wrel_some _ _ _ _ (ri_rel _ _ _ H) Hd) as (A0 & c0 & Hl0 & Hrel). assert (A0 = A) as -> by congruence.
  destruct (child _ _ _ _ Hrel Hj) as (Hyl & _). exists d, y. split_and!; auto.
  cbn [p_step]. assert (Hb : bound (ARef k) st = Ok (CSlot p, st)) by (cbn; rewrite Hr; reflexivity).
  rewrite (bind_ok _ _ _ _ _ Hb), (bind_ok _ _ _ _ _ (rd_slot _ _ _ _ _ _ _ _ (ri_winv _ _ _ H) Hp Hl Hj)). reflexivity.
Qed.

Lemma reached ops rs s : srun ps_step ops rsp0 = SVal (rs, s) -> exists st, mrun (p_step ord) ops r_init = Ok (rs, st) /\ rinv s st.
Proof. intros E. pose proof (p_run_agree ops _ _ rinv_init) as H. rewrite E in H. exact H. Qed.

Lemma then_one ops rs st o : mrun (p_step ord) ops r_init = Ok (rs, st) ->
  mrun (p_step ord) (ops ++ [o]) r_init = match p_step ord o st with Ok (r, st') => Ok (rs ++ [r], st') | Abort => Abort | UB => UB | Diverge => Diverge end.
Proof.
  intros E. rewrite (mrun_app _ _ _ _ _ _ E). cbn [mrun]. unfold bind. destruct (p_step ord o st) as [[r st']| | |]; reflexivity.
Qed.

Lemma ref_read : forall ops rs s k, srun ps_step ops rsp0 = SVal (rs, s) ->
  match p_refs s !! k with
  | Some (SInt x) => exists n st, p_ints s !! x = Some n /\ mrun (p_step ord) (ops ++ [PRead k]) r_init = Ok (rs ++ [RVal (Z.of_nat n)], st)
  | Some (SElem id n cur) => exists d y st, p_sets s !! id = Some d /\ n < length d /\ y < length d /\ rep d y = rep d n /\ (cur = true -> y = rep d n) /\
      mrun (p_step ord) (ops ++ [PRead k]) r_init = Ok (rs ++ [RVal (Z.of_nat y)], st)
  | Some SGone => mrun (p_step ord) (ops ++ [PRead k]) r_init = UB
  | None => True
  end.
Proof.
  intros ops rs s k E. destruct (reached _ _ _ E) as (st & Hm & ls & H). rewrite (then_one _ _ _ (PRead k) Hm).
  destruct (p_refs s !! k) as [[x|id n cur|]|] eqn:Ek; [| | |exact I].
  - destruct (ref_some _ _ _ _ _ H Ek) as (r & _ & _ & [n Hn]). exists n, st. split; [exact Hn|].
    assert (exact (ARef k) s = Some n) as Ex by (cbn; rewrite Ek; exact Hn).
    destruct (bound_exact _ _ _ _ _ H Ex) as (r' & Hb & Hr & _). cbn [p_step].
    rewrite (bind_ok _ _ _ _ _ Hb), (bind_ok _ _ _ _ _ (rd_ok _ _ _ _ (ri_winv _ _ _ H) Hr)). reflexivity.
  - destruct (read_elem _ _ _ _ _ _ _ H Ek) as (d & y & Hd & Hs & Hn & Hy & He & Hc). exists d, y, st. rewrite Hs. split_and!; auto.
  - rewrite (read_gone _ _ _ _ H Ek). reflexivity.
Qed.

(** ** By reference and by value *)
Lemma value_reads s st ls a r y : rinvl s st ls -> bound a st = Ok (r, st) -> rd r st = Ok (Z.of_nat y, st) -> reads st ls r y.
Proof.
  intros H Hb Hr. destruct a as [n|x|k]; cbn [bound] in Hb.
  - injection Hb as <-. injection Hr as E. exact E.
  - destruct (r_ints st !! x) as [z|] eqn:E; [|discriminate]. injection Hb as <-. cbn in Hr. rewrite E in Hr. cbn. congruence.
  - destruct (r_refs st !! k) as [c|] eqn:E; [|discriminate]. injection Hb as ->.
    pose proof (ri_refs _ _ _ H k) as Hk. rewrite E in Hk. destruct (p_refs s !! k) as [[x|id n cur|]|]; [| | |destruct Hk].
    + destruct Hk as [-> _]. cbn in *. destruct (r_ints st !! x); [|discriminate]. congruence.
    + destruct Hk as (p & j & A & cap & d & v & -> & Hp & Hl & Hd & Hj & _). exists id, j, A, cap.
      rewrite (rd_slot _ _ _ _ _ _ _ _ (ri_winv _ _ _ H) Hp Hl Hj) in Hr. split_and!; auto. congruence.
    + exfalso. destruct Hk as [->|(p & -> & Hp)]; [discriminate|]. cbn [rd] in Hr. unfold on_sets, lift in Hr.
      rewrite (load_pos _ _ (ri_winv _ _ _ H) _ _ Hp) in Hr. discriminate.
Qed.
Lemma bound_pure a st r st' : bound a st = Ok (r, st') -> st' = st.
Proof. destruct a as [n|x|k]; cbn; [injection 1; auto| |]; [destruct (r_ints st !! x)|destruct (r_refs st !! k)]; try discriminate; injection 1; auto. Qed.
Lemma value_bound s st ls a y : rinvl s st ls -> value a st y -> exists r, bound a st = Ok (r, st) /\ reads st ls r y.
Proof.
  intros H Hv. unfold value, bind in Hv. destruct (bound a st) as [[r st']| | |] eqn:Hb; try discriminate.
  pose proof (bound_pure _ _ _ _ Hb) as ->. exists r. split; [reflexivity|]. eapply value_reads; eauto.
Qed.
Lemma same_state st st' : later st st' -> st' = RSt (r_vecs st') (r_ints st) (r_refs st).
Proof. intros (E1 & E2 & _). destruct st'; cbn in *. congruence. Qed.

Lemma ref_value : forall ops rs s st id, srun ps_step ops rsp0 = SVal (rs, s) -> mrun (p_step ord) ops r_init = Ok (rs, st) -> is_Some (p_sets s !! id) ->
  (forall a x, value a st x -> p_step ord (PFind id a) st = on_sets (wrun true (ds_step (DFind id x))) st) /\
  (forall a b x y, value a st x -> value b st y -> p_step ord (PUnion id a b) st = on_sets (wrun true (us_step (UUnion id x y))) st).
Proof.
  intros ops rs s st id E Hm [d Hd]. destruct (reached _ _ _ E) as (st0 & Hm0 & ls & H). assert (st0 = st) as -> by congruence.
  destruct (wrel_some _ _ _ _ (ri_rel _ _ _ H) Hd) as (A & cap & Hl & Hrel). pose proof (proj1 Hrel) as Hlen. split.
  - intros a x Hv. destruct (value_bound _ _ _ _ _ H Hv) as (r & Hb & Hr). cbn [p_step ds_step]. unfold p_find. rewrite (bind_ok _ _ _ _ _ Hb).
    destruct (decide (x < length d)) as [Hx|Hx].
    + destruct (find_top_ref ord st ls id A cap d x r (ri_winv _ _ _ H) Hl Hrel Hx Hr) as (st' & A' & r' & Hrun & Hw & Hlt & Hval & _ & Hr' & _).
      rewrite (bind_ok _ _ _ _ _ Hrun), (bind_ok _ _ _ _ _ (rd_ok _ _ _ _ Hw Hr')). unfold on_sets.
      rewrite (wrun_wbind _ _ _ _ _ Hval). cbn [wrun ret]. rewrite (same_state _ _ Hlt) at 1. reflexivity.
    + rewrite (bind_abort _ _ _ (find_top_ref_abort ord st ls id A cap x r (ri_winv _ _ _ H) Hl ltac:(lia) Hr)).
      pose proof (wrun_sim true (r0 <- ds_find_top id (Z.of_nat x) ;; WRet (RVal r0))%wprog _ _ (ri_winv _ _ _ H)) as Hs.
      rewrite lrun_bind, (find_top_abort ls id A cap x Hl ltac:(lia)) in Hs. cbn [sim_res] in Hs. unfold on_sets. rewrite Hs. reflexivity.
  - intros a b x y Ha Hb. destruct (value_bound _ _ _ _ _ H Ha) as (r1 & Hb1 & Hr1). destruct (value_bound _ _ _ _ _ H Hb) as (r2 & Hb2 & Hr2).
    cbn [p_step us_step]. rewrite (bind_ok _ _ _ _ _ Hb1), (bind_ok _ _ _ _ _ Hb2).
    destruct (decide (x < length A /\ y < length A)) as [[Hx Hy]|Hxy].
    + destruct (lookup_lt_is_Some_2 A x Hx) as [va Hva]. destruct (lookup_lt_is_Some_2 A y Hy) as [vb Hvb].
      destruct (union_ref st ls id A cap d x y va vb r1 r2 (ri_winv _ _ _ H) Hl Hrel Hva Hvb Hr1 Hr2) as (st' & Hrun & Hlt & Hw & Hval).
      rewrite (bind_ok _ _ _ _ _ Hrun). unfold on_sets. rewrite (wrun_wbind _ _ _ _ _ Hval). cbn [wrun ret]. rewrite (same_state _ _ Hlt) at 1. reflexivity.
    + rewrite (bind_abort _ _ _ (union_ref_abort st ls id A cap x y r1 r2 (ri_winv _ _ _ H) Hl ltac:(lia) Hr1 Hr2)).
      pose proof (wrun_sim true (ds_union id (Z.of_nat x) (Z.of_nat y) ;;; WRet (RUnit : out Z))%wprog _ _ (ri_winv _ _ _ H)) as Hs.
      rewrite lrun_bind, (union_range ls id A cap x y Hl ltac:(lia)) in Hs. cbn [sim_res] in Hs. unfold on_sets. rewrite Hs. reflexivity.
Qed.

(** ** What goes wrong *)
Lemma ref_literal : forall ops rs s id d n k, srun ps_step ops rsp0 = SVal (rs, s) -> p_sets s !! id = Some d -> n < length d ->
  if Nat.eqb (rep d n) n then mrun (p_step ord) (ops ++ [PBind k id (ALit n); PRead k]) r_init = UB
  else exists st, mrun (p_step ord) (ops ++ [PBind k id (ALit n); PRead k]) r_init = Ok (rs ++ [RUnit; RVal (Z.of_nat (rep d n))], st).
Proof.
  intros ops rs s id d n k E Hd Hn.
  assert (E2 : srun ps_step (ops ++ [PBind k id (ALit n)]) rsp0 =
    SVal (rs ++ [RUnit], RSp (p_sets s) (p_ints s) (<[k := if Nat.eqb (rep d n) n then SGone else SElem id n true]> (p_refs s)))).
  { rewrite srun_app, E. cbn [srun ps_step]. rewrite Hd. unfold found. cbn [refers exact with1]. rewrite (proj2 (Nat.ltb_lt _ _) Hn). reflexivity. }
  pose proof (ref_read _ _ _ k E2) as Hr. cbn [p_refs p_sets] in Hr. rewrite lookup_insert, <- app_assoc in Hr. cbn [app] in Hr.
  destruct (Nat.eqb (rep d n) n); [exact Hr|]. destruct Hr as (d' & y & st & Hd' & _ & _ & _ & Hy & Hrun). exists st.
  assert (d' = d) as -> by congruence. rewrite Hrun, (Hy eq_refl), <- app_assoc. reflexivity.
Qed.

Lemma ref_variable : forall ops rs s id d n k x m, srun ps_step ops rsp0 = SVal (rs, s) -> p_sets s !! id = Some d -> n < length d ->
  exists st, mrun (p_step ord) (ops ++ [PInt x n; PBind k id (AInt x); PInt x m; PRead k]) r_init
    = Ok (rs ++ [RUnit; RUnit; RUnit; RVal (Z.of_nat (if Nat.eqb (rep d n) n then m else rep d n))], st).
Proof.
  intros ops rs s id d n k x m E Hd Hn. pose proof (ref_history (ops ++ [PInt x n; PBind k id (AInt x); PInt x m; PRead k])) as H.
  rewrite srun_app, E in H. cbn [srun ps_step p_sets p_ints p_refs] in H. rewrite Hd in H. unfold found in H.
  cbn [refers exact with1 p_ints p_refs] in H. rewrite lookup_insert in H. cbn [with1] in H. rewrite (proj2 (Nat.ltb_lt _ _) Hn) in H.
  cbn [p_sets p_ints p_refs] in H. rewrite lookup_insert in H.
  destruct (Nat.eqb (rep d n) n).
  - cbn [p_ints] in H. rewrite lookup_insert in H. destruct H as (st & H & _). eauto.
  - cbn [p_sets] in H. rewrite Hd in H. destruct H as (st & H & _). eauto.
Qed.

Lemma ref_stale : forall ops rs s k id n d x y, srun ps_step ops rsp0 = SVal (rs, s) -> p_refs s !! k = Some (SElem id n true) ->
  p_sets s !! id = Some d -> x < length d -> y < length d -> rep d x <> rep d y -> rep d n = rep d y ->
  exists st, mrun (p_step ord) (ops ++ [PDo (DConnect id x y); PRead k; PFind id (ARef k)]) r_init
    = Ok (rs ++ [RUnit; RVal (Z.of_nat (rep d n)); RVal (Z.of_nat (rep d x))], st).
Proof.
  intros ops rs s k id n d x y E Ek Hd Hx Hy Hxy Hn. destruct (reached _ _ _ E) as (st & Hm & ls & H).
  destruct (ref_some _ _ _ _ _ H Ek) as (r & Hr & p & j & A & cap & d0 & v & -> & Hp & Hl & Hd0 & Hj & Hnl & Hv & Hc).
  assert (d0 = d) as -> by congruence. specialize (Hc eq_refl). subst v.
  destruct (wrel_some _ _ _ _ (ri_rel _ _ _ H) Hd) as (A0 & c0 & Hl0 & Hrel).
  assert (Hrd : reads st ls (CSlot p) (rep d n)) by (exists id, j, A, cap; auto).
  pose proof (connect_run ord s st ls id d (CTmp (Z.of_nat x)) (CTmp (Z.of_nat y)) x y x y H Hd eq_refl eq_refl (or_introl eq_refl) (or_introl eq_refl)) as Hcr.
  rewrite (proj2 (Nat.ltb_lt _ _) Hx), (proj2 (Nat.ltb_lt _ _) Hy) in Hcr. cbn [andb] in Hcr.
  destruct (Hcr Hxy) as (st1 & ls1 & Hrun & Hlt & H1 & Hst). cbv zeta in H1.
  set (d' := map (fun z => if Nat.eqb z (rep d y) then rep d x else z) d) in *.
  destruct (Hst _ _ Hrd) as (v & Hrd1 & Hv1). apply (fixed_step _ _ _ n _ Hrel Hnl eq_refl) in Hv1. subst v.
  rewrite (mrun_app _ _ _ _ _ _ Hm).
  assert (S1 : p_step ord (PDo (DConnect id x y)) st = Ok (RUnit, st1)).
  { cbn [p_step]. unfold p_connect. cbn [bound]. rewrite (bind_ok _ _ _ _ _ (eq_refl : ret (CTmp (Z.of_nat x)) st = Ok (_, st))).
    rewrite (bind_ok _ _ _ _ _ (eq_refl : ret (CTmp (Z.of_nat y)) st = Ok (_, st))), (bind_ok _ _ _ _ _ Hrun). reflexivity. }
  assert (Hb : bound (ARef k) st1 = Ok (CSlot p, st1)). { cbn. destruct Hlt as (_ & -> & _). rewrite Hr. reflexivity. }
  assert (S2 : p_step ord (PRead k) st1 = Ok (RVal (Z.of_nat (rep d n)), st1)).
  { cbn [p_step]. rewrite (bind_ok _ _ _ _ _ Hb), (bind_ok _ _ _ _ _ (rd_ok _ _ _ _ (ri_winv _ _ _ H1) Hrd1)). reflexivity. }
  destruct (drel_wf _ _ Hrel n Hnl) as [Wn1 Wn2].
  assert (Hd' : p_sets (RSp (<[id := d']> (p_sets s)) (p_ints s) (keep (p_sets s) (<[id := d']> (p_sets s)) <$> p_refs s)) !! id = Some d') by apply lookup_insert.
  assert (Hld : length d' = length d) by apply map_length.
  destruct (find_call ord _ _ _ _ _ _ (rep d n) _ H1 Hd' Hrd1 (or_introl eq_refl) ltac:(lia)) as (st2 & ls2 & r2 & Hrun2 & H2 & Hr2 & _).
  assert (rep d' (rep d n) = rep d x) as E'.
  { unfold d'. rewrite (rep_map (fun z => if Nat.eqb z (rep d y) then rep d x else z)) by exact Wn1. rewrite Wn2, Hn, Nat.eqb_refl. reflexivity. }
  rewrite E' in Hr2.
  assert (S3 : p_step ord (PFind id (ARef k)) st1 = Ok (RVal (Z.of_nat (rep d x)), st2)).
  { cbn [p_step]. unfold p_find. rewrite (bind_ok _ _ _ _ _ Hb), (bind_ok _ _ _ _ _ Hrun2), (bind_ok _ _ _ _ _ (rd_ok _ _ _ _ (ri_winv _ _ _ H2) Hr2)). reflexivity. }
  exists st2. cbn [mrun]. rewrite (bind_ok _ _ _ _ _ S1). unfold bind at 1. rewrite (bind_ok _ _ _ _ _ S2). unfold bind at 1. rewrite (bind_ok _ _ _ _ _ S3). reflexivity.
Qed.
End Hist.
