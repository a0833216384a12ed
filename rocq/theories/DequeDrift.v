(** Capacity against the number of pushes, and queues that outgrow any bound. *)
From Verif Require Import Base VectorModel VectorSpec Adapter Hist ListModel DequeModel DequeSpec DequeProofs DequeResize DequeHist DequeHist2 DequeGeo.

Section Drift.
Context {A : Type} (N : nat) (HN : 0 < N).
Implicit Types (st : dst A) (l : list A) (q : dq) (t : list nat) (i : diter).
Notation sw := (gmap nat (list A * bool)).
Notation winv := (winv (A := A) N).

(** ** The bound *)
Definition balw (id : nat) (P : nat) st : Prop := forall q, d_obj st !! id = Some q -> bal N P id q.

Lemma step_bal o (s s' : sw) st r id P : winv s st -> balw id P st -> ds_step o s = SVal (r, s') ->
  exists st', dq_step N o st = Ok (r, st') /\ winv s' st' /\ balw id (P + puts_of id o s) st'.
Proof.
  intros Hw Hb Hs. pose proof (dq_step_ok N HN o s st Hw) as Hstep. rewrite Hs in Hstep. destruct Hstep as (st' & R & Hw'). exists st'. split; [exact R|]. split; [exact Hw'|].
  assert (Hsame : d_obj st' !! id = d_obj st !! id -> balw id (P + puts_of id o s) st') by (intros E q Hq; rewrite E in Hq; eapply (bal_mono N HN); [apply Hb, Hq|lia]).
  assert (Hread : st' = st -> balw id (P + puts_of id o s) st') by (intros ->; apply Hsame; reflexivity).
  assert (Hnone : s' !! id = None -> balw id (P + puts_of id o s) st').
  { intros E q Hq. rewrite (winv_none _ _ _ _ Hw' E) in Hq. discriminate. }
  assert (Hempty : forall l, s' !! id = Some (l, false) -> balw id (P + puts_of id o s) st').
  { intros l E q Hq. destruct (winv_get _ _ _ _ _ _ Hw' E) as (q' & t' & Hq' & Hd). rewrite Hq in Hq'. injection Hq' as <-. eapply dqok_none; exact Hd. }
  assert (Hpush : forall k l (rr : bool) x m, m st = Ok (tt, st') -> m = dq_push_back N k x \/ m = dq_push_front N k x -> s !! k = Some (l, rr) ->
    puts_of id o s = (if Nat.eqb k id then 1 else 0) -> balw id (P + puts_of id o s) st').
  { intros k l rr x m Rm Hm E Ep. rewrite Ep. destruct (Nat.eqb_spec k id) as [->|Hne].
    - rewrite Nat.add_1_r. destruct Hm as [-> | ->].
      + destruct (push_back_bal N HN s st id l rr x P Hw E Hb) as (st2 & R2 & _ & _ & Hb2). rewrite Rm in R2. injection R2 as <-. exact Hb2.
      + destruct (push_front_bal N HN s st id l rr x P Hw E Hb) as (st2 & R2 & _ & _ & Hb2). rewrite Rm in R2. injection R2 as <-. exact Hb2.
    - intros q Hq. eapply (bal_mono N HN); [|apply Nat.le_add_r]. apply Hb. rewrite <- Hq. symmetry.
      destruct Hm as [-> | ->].
      + destruct (push_back_geo N HN s st k l rr x Hw E) as (st2 & q2 & t2 & p2 & R2 & _ & Ho & _). rewrite Rm in R2. injection R2 as <-. rewrite Ho, lookup_insert_ne by congruence. reflexivity.
      + destruct (push_front_geo N HN s st k l rr x Hw E) as (st2 & q2 & t2 & p2 & R2 & _ & Ho & _). rewrite Rm in R2. injection R2 as <-. rewrite Ho, lookup_insert_ne by congruence. reflexivity. }
  assert (Hpop : forall k x l (rr : bool) m, m st = Ok (tt, st') -> (m = dq_pop_front N k /\ s !! k = Some (x :: l, rr)) \/ (m = dq_pop_back N k /\ s !! k = Some (l ++ [x], rr)) ->
    balw id (P + puts_of id o s) st').
  { intros k x l rr m Rm Hm q0 Hq0.
    assert (HX : exists q q' t p p', d_obj st' = <[k := q']> (d_obj st) /\ d_obj st !! k = Some q /\ geom N k q t p /\ geom N k q' t p' /\ p <= p' /\ q_size q' + p' <= q_size q + p).
    { destruct Hm as [[-> E]|[-> E]].
      - destruct (pop_front_geo N HN s st k x l rr Hw E) as (st2 & q & q' & t & p & R2 & Hw2 & Ho & Hq & G & G' & Hsz). rewrite Rm in R2. injection R2 as <-.
        exists q, q', t, p, (S p). repeat (split; [first [assumption|lia]|]). rewrite Hsz. destruct (winv_get _ _ _ _ _ _ Hw E) as (qq & tt' & Hqq & Hd). rewrite Hq in Hqq. injection Hqq as <-.
        rewrite (dqok_size _ _ _ _ _ _ _ Hd). simpl. lia.
      - destruct (pop_back_geo N HN s st k x l rr Hw E) as (st2 & q & q' & t & p & R2 & Hw2 & Ho & Hq & G & G' & Hsz). rewrite Rm in R2. injection R2 as <-.
        exists q, q', t, p, p. repeat (split; [first [assumption|lia]|]). rewrite Hsz. destruct (winv_get _ _ _ _ _ _ Hw E) as (qq & tt' & Hqq & Hd). rewrite Hq in Hqq. injection Hqq as <-.
        rewrite (dqok_size _ _ _ _ _ _ _ Hd), app_length. simpl. lia. }
    destruct HX as (q & q' & t & p & p' & Ho & Hq & G & G' & Hp & Hsz). eapply (bal_mono N HN); [|apply Nat.le_add_r]. rewrite Ho in Hq0. destruct (decide (k = id)) as [->|Hne].
    - rewrite lookup_insert in Hq0. injection Hq0 as <-. destruct (Hb _ Hq) as [B|(t1 & p1 & G1 & B)].
      + destruct G as (_ & Eq & HB & _). assert (2 * N <= length t * N) by (apply Nat.mul_le_mono_r; lia). lia.
      + destruct (geom_unique _ _ _ _ _ _ _ G G1) as [-> ->]. right. exists t, p'. split; [exact G'|]. destruct G as (_ & Eq & _), G' as (_ & Eq' & _). rewrite Eq' in *. rewrite Eq in B. lia.
    - rewrite lookup_insert_ne in Hq0 by exact Hne. apply Hb, Hq0. }
  assert (Hun : forall (m : M (dst A) unit), dq_unit m st = Ok (r, st') -> m st = Ok (tt, st')).
  { intros m Hm. unfold dq_unit, bind in Hm. destruct (m st) as [[[] w]| | |]; try discriminate. injection Hm as _ ->. reflexivity. }
  destruct o as [k|k src|k src|k src|k src|k|k|k x|k x|k x|k|k|k|k|k|k z|k|k|k|k]; cbn [ds_step dq_step] in Hs, R; unfold with_dq, no_dq, some_or in Hs.
  - (* new *) destruct (s !! k) eqn:E; [discriminate|]. injection Hs as <- <-. apply Hun in R. destruct (decide (k = id)) as [->|Hne]; [apply (Hempty []), lookup_insert|].
    apply Hsame. unfold dq_new in R. rewrite (winv_none _ _ _ _ Hw E) in R. injection R as <-. cbn [d_obj]. apply lookup_insert_ne. congruence.
  - (* copy-construct *) destruct (s !! k) eqn:E; [discriminate|]. destruct (s !! src) as [[l [|]]|] eqn:Es; try discriminate. injection Hs as <- <-. apply Hun in R.
    assert (Hne : k <> src) by congruence. set (q0 := DQ 0 0 [] (It 0 PUninit None) (It 0 PUninit None)) in *.
    assert (Hw0 : winv (<[k := ([], false)]> s) (DSt (d_blk st) (d_fresh st) (d_cnt st) (<[k := q0]> (d_obj st)))) by (apply winv_new; auto).
    destruct (assign_bal N HN _ _ k src [] false l Hw0 (lookup_insert _ _ _)) as (st2 & R2 & _ & Hs2 & Hb2); [rewrite lookup_insert_ne by congruence; exact Es|exact Hne|].
    rewrite (bind_ok _ _ st tt (DSt (d_blk st) (d_fresh st) (d_cnt st) (<[k := q0]> (d_obj st)))) in R by (unfold dq_new; rewrite (winv_none _ _ _ _ Hw E); reflexivity).
    rewrite R in R2. injection R2 as <-. destruct (decide (k = id)) as [->|Hne2].
    + intros q Hq. eapply (bal_mono N HN); [apply Hb2, Hq|]. cbn [puts_of]. rewrite Nat.eqb_refl, (proj2 (Nat.eqb_neq _ _) Hne), Es. cbn [negb andb]. lia.
    + apply Hsame. rewrite Hs2 by congruence. cbn [d_obj]. apply lookup_insert_ne. congruence.
  - discriminate.
  - (* assign *) destruct (s !! k) as [[l0 r0]|] eqn:E; [|discriminate]. destruct (s !! src) as [[l rr]|] eqn:Es; [|discriminate]. apply Hun in R || idtac. destruct (Nat.eqb_spec k src) as [->|Hne].
    + injection Hs as <- <-. apply Hun in R || idtac. apply Hread. unfold dq_assign in R. rewrite Nat.eqb_refl in R. injection R as <-. reflexivity.
    + destruct rr; [|discriminate]. injection Hs as <- <-. apply Hun in R || idtac.
      destruct (assign_bal N HN _ _ _ _ _ _ _ Hw E Es Hne) as (st2 & R2 & _ & Hs2 & Hb2). rewrite R in R2. injection R2 as <-. destruct (decide (k = id)) as [->|Hne2].
      * intros q Hq. eapply (bal_mono N HN); [apply Hb2, Hq|]. cbn [puts_of]. rewrite Nat.eqb_refl, (proj2 (Nat.eqb_neq _ _) Hne), Es. cbn [negb andb]. lia.
      * apply Hsame. apply Hs2. congruence.
  - (* move-assign to itself *) destruct (s !! k) as [[l0 r0]|] eqn:E; [|discriminate]. destruct (Nat.eqb_spec k src) as [->|Hne]; [|discriminate]. injection Hs as <- <-.
    apply Hun in R. apply Hread. unfold dq_move in R. rewrite Nat.eqb_refl in R. injection R as <-. reflexivity.
  - (* destroy *) destruct (s !! k) as [[l0 r0]|] eqn:E; [|discriminate]. injection Hs as <- <-. apply Hun in R. destruct (decide (k = id)) as [->|Hne]; [apply Hnone, lookup_delete|].
    apply Hsame. destruct (clear_w N HN _ _ _ _ _ Hw E) as (st1 & R1 & _ & Hs1). unfold dq_destroy in R. rewrite (bind_ok _ _ _ _ _ R1) in R. injection R as <-. cbn [d_obj].
    rewrite lookup_delete_ne by exact Hne. apply Hs1. congruence.
  - (* clear *) destruct (s !! k) as [[l0 r0]|] eqn:E; [|discriminate]. injection Hs as <- <-. apply Hun in R. destruct (decide (k = id)) as [->|Hne]; [apply (Hempty []), lookup_insert|].
    apply Hsame. destruct (clear_w N HN _ _ _ _ _ Hw E) as (st1 & R1 & _ & Hs1). rewrite R in R1. injection R1 as <-. apply Hs1. congruence.
  - destruct (s !! k) as [[l0 r0]|] eqn:E; [|discriminate]. injection Hs as <- <-. apply Hun in R. eapply Hpush; [exact R|left; reflexivity|exact E|reflexivity].
  - destruct (s !! k) as [[l0 r0]|] eqn:E; [|discriminate]. injection Hs as <- <-. apply Hun in R. eapply Hpush; [exact R|right; reflexivity|exact E|reflexivity].
  - destruct (s !! k) as [[l0 r0]|] eqn:E; [|discriminate]. injection Hs as <- <-. apply Hun in R. eapply Hpush; [exact R|left; reflexivity|exact E|reflexivity].
  - destruct (s !! k) as [[l0 r0]|] eqn:E; [|discriminate]. destruct l0 as [|y l0]; [discriminate|]. injection Hs as <- <-. apply Hun in R.
    destruct (exists_last (l := y :: l0)) as (l1 & x1 & El); [discriminate|]. rewrite El in E. eapply Hpop; [exact R|right; split; [reflexivity|exact E]].
  - destruct (s !! k) as [[l0 r0]|] eqn:E; [|discriminate]. destruct l0 as [|y l0]; [discriminate|]. injection Hs as <- <-. apply Hun in R. eapply Hpop; [exact R|left; split; [reflexivity|exact E]].
  - destruct (s !! k) as [[l0 r0]|] eqn:E; [|discriminate]. destruct l0 as [|y l0]; [discriminate|]. injection Hs as <- <-. apply Hun in R. eapply Hpop; [exact R|left; split; [reflexivity|exact E]].
  - apply Hread. clear - R. unfold dq_front, bind in R. destruct (q_get k st) as [[q w]| | |] eqn:E1; try discriminate. unfold q_get in E1. destruct (d_obj st !! k); [|discriminate]. injection E1 as <- <-.
    unfold cell_ld in R. destruct (i_cur _); try discriminate. destruct (_ !! b); try discriminate. destruct (_ !! off) as [[a|]|]; try discriminate. injection R as _ <-. reflexivity.
  - apply Hread. destruct (s !! k) as [[l0 r0]|] eqn:E; [|discriminate]. destruct (last l0) as [x|] eqn:El; [|discriminate].
    rewrite last_lookup in El. destruct (at_w N HN _ _ _ _ _ _ x Hw E El) as (q & Hq & _ & R1).
    assert (Hl : 0 < length l0) by (destruct l0; [discriminate|simpl; lia]). replace (length l0 - pred (length l0)) with 1 in R1 by lia.
    unfold dq_back in R. rewrite bind_assoc, (bind_ok _ _ _ _ _ (q_get_ok _ _ _ Hq)), (bind_ok _ _ _ _ _ R1) in R. injection R as _ <-. reflexivity.
  - apply Hread. destruct (s !! k) as [[l0 r0]|] eqn:E; [|discriminate]. cbv zeta in Hs. set (j := (if z <? 0 then Z.of_nat (length l0) + z else z)%Z) in *.
    destruct (Z.ltb_spec j 0) as [Hj|Hj]; [discriminate|]. destruct (l0 !! Z.to_nat j) as [x|] eqn:Ex; [|discriminate].
    destruct (at_w N HN _ _ _ _ _ _ x Hw E Ex) as (q & Hq & R1 & R2). unfold dq_at in R. rewrite bind_assoc, (bind_ok _ _ _ _ _ (q_get_ok _ _ _ Hq)) in R.
    unfold j in *. destruct (Z.ltb_spec z 0) as [Hz|Hz].
    + replace (length l0 - Z.to_nat (Z.of_nat (length l0) + z)) with (Z.to_nat (- z)) in R2 by lia. rewrite (bind_ok _ _ _ _ _ R2) in R. injection R as _ <-. reflexivity.
    + rewrite (bind_ok _ _ _ _ _ R1) in R. injection R as _ <-. reflexivity.
  - apply Hread. unfold bind, q_get in R. destruct (d_obj st !! k); [|discriminate]. injection R as _ <-. reflexivity.
  - apply Hread. unfold bind, q_get in R. destruct (d_obj st !! k); [|discriminate]. injection R as _ <-. reflexivity.
  - discriminate.
  - apply Hread. destruct (s !! k) as [[l0 [|]]|] eqn:E; [|discriminate|discriminate]. rewrite (bind_ok _ _ _ _ _ (iter_w N HN _ _ _ _ Hw E)) in R. injection R as _ <-. reflexivity.
Qed.

Lemma run_bal (ops : list (dop A)) : forall (s s' : sw) st rs id P, winv s st -> balw id P st -> srun ds_step ops s = SVal (rs, s') ->
  exists st', mrun (dq_step N) ops st = Ok (rs, st') /\ winv s' st' /\ balw id (P + puts id ops s) st'.
Proof.
  induction ops as [|o ops IH]; intros s s' st rs id P Hw Hb H.
  - injection H as <- <-. exists st. split; [reflexivity|]. split; [exact Hw|]. cbn [puts]. rewrite Nat.add_0_r. exact Hb.
  - cbn [srun] in H. destruct (ds_step o s) as [[r s1]| |] eqn:E; try discriminate. destruct (srun ds_step ops s1) as [[rs1 s2]| |] eqn:E2; try discriminate. injection H as <- <-.
    destruct (step_bal _ _ _ _ _ id P Hw Hb E) as (st1 & R1 & Hw1 & Hb1). destruct (IH _ _ _ _ id _ Hw1 Hb1 E2) as (st2 & R2 & Hw2 & Hb2).
    exists st2. split; [rewrite (mrun_cons _ _ _ _ _ _ R1), R2; reflexivity|]. split; [exact Hw2|]. cbn [puts]. rewrite E, Nat.add_assoc. exact Hb2.
Qed.
Theorem capacity_bound (ops : list (dop A)) rs (s : sw) id : srun ds_step ops ∅ = SVal (rs, s) -> is_Some (s !! id) ->
  exists c w, mrun (dq_step N) (ops ++ [DCapacity id]) dst_init = Ok (rs ++ [RNat c], w) /\ c <= 8 * (puts id ops ∅ + N).
Proof.
  intros H [[l r] E]. assert (Hb0 : balw id 0 (dst_init : dst A)) by (intros q Hq; discriminate Hq).
  destruct (run_bal ops _ _ _ _ id 0 (winv_empty N) Hb0 H) as (st & R & Hw & Hb). destruct (winv_get _ _ _ _ _ _ Hw E) as (q & t & Hq & _).
  exists (q_cap q), st. split; [rewrite (mrun_app _ _ _ _ _ _ R), (mrun_cons _ _ _ _ _ _ (cap_step N _ _ _ Hq)); reflexivity|].
  cbn [plus] in Hb. destruct (Hb _ Hq) as [->|(t' & p' & _ & Hc & _)]; lia.
Qed.

(** ** Drift *)
Definition pairs (id : nat) (x : A) (n : nat) : list (dop A) := mjoin (replicate n [DPush id x; DPop id]).
Lemma pair_step (s : sw) st id l x m : winv s st -> s !! id = Some (l, true) ->
  (forall q t p, d_obj st !! id = Some q -> geom N id q t p -> m + length t * N <= 2 * (length t * N) + (p + length l)) ->
  exists st', mrun (dq_step N) [DPush id x; DPop id] st = Ok ([RUnit; RUnit], st') /\ exists l', length l' = length l /\ winv (<[id := (l', true)]> s) st' /\
    (forall q t p, d_obj st' !! id = Some q -> geom N id q t p -> S m + length t * N <= 2 * (length t * N) + (p + length l')).
Proof.
  intros Hw E Hm. destruct (push_back_geo N HN s st id l true x Hw E) as (st1 & q1 & t1 & p1 & R1 & Hw1 & Ho1 & G1 & Hs1 & q & t & p & Hq & G & Hg).
  specialize (Hm _ _ _ Hq G).
  assert (Hl : exists y l', l ++ [x] = y :: l' /\ length l' = length l).
  { destruct l as [|y l']; [exists x, []; auto|]. exists y, (l' ++ [x]). split; [reflexivity|]. rewrite app_length. simpl. lia. }
  destruct Hl as (y & l' & El & Hl). rewrite El in Hw1.
  destruct (pop_front_geo N HN _ st1 id y l' true Hw1 (lookup_insert _ _ _)) as (st2 & q1' & q2 & t2 & p2 & R2 & Hw2 & Ho2 & Hq1 & G1' & G2 & Hs2).
  rewrite Ho1, lookup_insert in Hq1. injection Hq1 as <-. destruct (geom_unique _ _ _ _ _ _ _ G1 G1') as [-> ->]. rewrite insert_insert in Hw2.
  exists st2. split; [rewrite (mrun_cons (dq_step N) (DPush id x) _ _ _ _ (dq_unit_ok _ _ _ R1)), (mrun_cons (dq_step N) (DPop id) _ _ _ _ (dq_unit_ok _ _ _ R2)); reflexivity|].
  exists l'. split; [exact Hl|]. split; [exact Hw2|]. intros q3 t3 p3 Hq3 G3. rewrite Ho2, lookup_insert in Hq3. injection Hq3 as <-.
  destruct (geom_unique _ _ _ _ _ _ _ G2 G3) as [-> ->]. rewrite Hl. destruct Hg as [(-> & ->)|(Hfull & Hlen & _)]; [lia|]. rewrite Hlen. replace (2 * length t * N) with (2 * (length t * N)) by lia. lia.
Qed.
Lemma pairs_step n : forall (s : sw) st id l x m, winv s st -> s !! id = Some (l, true) ->
  (forall q t p, d_obj st !! id = Some q -> geom N id q t p -> m + length t * N <= 2 * (length t * N) + (p + length l)) ->
  exists st', mrun (dq_step N) (pairs id x n) st = Ok (replicate (2 * n) RUnit, st') /\ exists l', length l' = length l /\ winv (<[id := (l', true)]> s) st' /\
    (forall q t p, d_obj st' !! id = Some q -> geom N id q t p -> n + m + length t * N <= 2 * (length t * N) + (p + length l')).
Proof.
  induction n as [|n IH]; intros s st id l x m Hw E Hm.
  - exists st. split; [reflexivity|]. exists l. split; [reflexivity|]. rewrite insert_id by exact E. auto.
  - destruct (pair_step s st id l x m Hw E Hm) as (st1 & R1 & l1 & Hl1 & Hw1 & Hm1).
    destruct (IH _ st1 id l1 x (S m) Hw1 (lookup_insert _ _ _) Hm1) as (st2 & R2 & l2 & Hl2 & Hw2 & Hm2). rewrite insert_insert in Hw2.
    exists st2. split.
    + change (pairs id x (S n)) with ([DPush id x; DPop id] ++ pairs id x n). rewrite (mrun_app _ _ _ _ _ _ R1), R2. replace (2 * S n) with (2 + 2 * n) by lia. reflexivity.
    + exists l2. split; [congruence|]. split; [exact Hw2|]. intros q t p Hq G. specialize (Hm2 q t p Hq G). lia.
Qed.
Theorem drift (ops : list (dop A)) rs (s : sw) id l r x n : srun ds_step ops ∅ = SVal (rs, s) -> s !! id = Some (l, r) ->
  exists c w, mrun (dq_step N) (ops ++ pairs id x n ++ [DSize id; DCapacity id]) dst_init = Ok (rs ++ replicate (2 * n) RUnit ++ [RNat (length l); RNat c], w) /\ n <= 2 * c.
Proof.
  intros Hrun E. destruct (dq_reached N HN _ _ _ Hrun) as (st & Hw & Hthen). rewrite Hthen. clear Hthen.
  assert (HX : exists st' l', mrun (dq_step N) (pairs id x n) st = Ok (replicate (2 * n) RUnit, st') /\ length l' = length l /\ exists r', winv (<[id := (l', r')]> s) st' /\
    (forall q, d_obj st' !! id = Some q -> n <= 2 * q_cap q)).
  { destruct r.
    - destruct (pairs_step n s st id l x 0 Hw E) as (st' & R & l' & Hl & Hw' & Hm); [intros; lia|]. exists st', l'. split; [exact R|]. split; [exact Hl|]. exists true. split; [exact Hw'|].
      intros q Hq. destruct (winv_geom N HN _ _ _ _ Hw' (lookup_insert _ _ _)) as (q' & t & p & Hq' & G & _). rewrite Hq in Hq'. injection Hq' as <-.
      specialize (Hm _ _ _ Hq G). destruct (winv_get _ _ _ _ _ _ Hw' (lookup_insert _ _ _)) as (q'' & t'' & Hq'' & Hd). rewrite Hq in Hq''. injection Hq'' as <-.
      apply dqok_size in Hd. destruct G as (_ & -> & _ & _ & Hf). lia.
    - destruct (winv_get _ _ _ _ _ _ Hw E) as (q & t & Hq & -> & _). destruct n as [|n].
      + exists st, []. split; [reflexivity|]. split; [reflexivity|]. exists false. rewrite insert_id by exact E. split; [exact Hw|]. intros; lia.
      + destruct (push_back_geo N HN s st id [] false x Hw E) as (st1 & q1 & t1 & p1 & R1 & Hw1 & Ho1 & G1 & Hs1 & Hlen1 & Hp1). cbn [app] in Hw1.
        destruct (pop_front_geo N HN _ st1 id x [] true Hw1 (lookup_insert _ _ _)) as (st2 & q1' & q2 & t2 & p2 & R2 & Hw2 & Ho2 & Hq1 & G1' & G2 & Hs2).
        rewrite Ho1, lookup_insert in Hq1. injection Hq1 as <-. destruct (geom_unique _ _ _ _ _ _ _ G1 G1') as [-> ->]. rewrite insert_insert in Hw2.
        destruct (pairs_step n _ st2 id [] x 1 Hw2 (lookup_insert _ _ _)) as (st' & R & l' & Hl & Hw' & Hm).
        { intros q3 t3 p3 Hq3 G3. rewrite Ho2, lookup_insert in Hq3. injection Hq3 as <-. destruct (geom_unique _ _ _ _ _ _ _ G2 G3) as [-> ->]. lia. }
        rewrite insert_insert in Hw'. exists st', l'. split.
        { change (pairs id x (S n)) with (DPush id x :: DPop id :: pairs id x n). rewrite (mrun_cons (dq_step N) (DPush id x) _ _ _ _ (dq_unit_ok _ _ _ R1)), (mrun_cons (dq_step N) (DPop id) _ _ _ _ (dq_unit_ok _ _ _ R2)), R.
          replace (2 * S n) with (2 + 2 * n) by lia. reflexivity. }
        split; [exact Hl|]. exists true. split; [exact Hw'|].
        intros q4 Hq4. destruct (winv_geom N HN _ _ _ _ Hw' (lookup_insert _ _ _)) as (q' & t5 & p5 & Hq' & G & _). rewrite Hq4 in Hq'. injection Hq' as <-.
        specialize (Hm _ _ _ Hq4 G). destruct (winv_get _ _ _ _ _ _ Hw' (lookup_insert _ _ _)) as (q'' & t'' & Hq'' & Hd). rewrite Hq4 in Hq''. injection Hq'' as <-.
        apply dqok_size in Hd. destruct G as (_ & -> & _ & _ & Hf). lia. }
  destruct HX as (st' & l' & R & Hl & r' & Hw' & Hc). destruct (winv_get _ _ _ _ _ _ Hw' (lookup_insert _ _ _)) as (q & t & Hq & Hd).
  exists (q_cap q), st'. split; [|apply Hc, Hq]. rewrite (mrun_app _ _ _ _ _ _ R).
  assert (Hsz : dq_step N (DSize id) st' = Ok (RNat (length l), st')) by (cbn [dq_step]; rewrite (bind_ok _ _ _ _ _ (q_get_ok _ _ _ Hq)), (dqok_size _ _ _ _ _ _ _ Hd), Hl; reflexivity).
  rewrite (mrun_cons _ _ _ _ _ _ Hsz), (mrun_cons _ _ _ _ _ _ (cap_step N _ _ _ Hq)). reflexivity.
Qed.
Lemma no_bound (x : A) (f : nat -> nat) :
  ~ (forall (ops : list (dop A)) rs (s : sw) id l r c w, srun ds_step ops ∅ = SVal (rs, s) -> s !! id = Some (l, r) ->
     mrun (dq_step N) (ops ++ [DCapacity id]) dst_init = Ok (rs ++ [RNat c], w) -> c <= f (length l)).
Proof.
  intros H. set (n := S (2 * f 0)).
  assert (HX : forall m (s : sw) r, s !! 0 = Some ([], r) -> exists r', srun ds_step (pairs 0 x m) s = SVal (replicate (2 * m) RUnit, <[0 := ([], r')]> s)).
  { clear. induction m as [|m IH]; intros s r E; [exists r; rewrite insert_id by exact E; reflexivity|].
    change (pairs 0 x (S m)) with (DPush 0 x :: DPop 0 :: pairs 0 x m). cbn [srun ds_step]. unfold with_dq. rewrite E, lookup_insert. cbn [app]. rewrite insert_insert.
    destruct (IH (<[0 := ([], true)]> s) true (lookup_insert _ _ _)) as (r' & ->). rewrite insert_insert. exists r'. replace (2 * S m) with (2 + 2 * m) by lia. reflexivity. }
  destruct (drift [DNew 0] [RUnit] (<[0 := ([], false)]> ∅) 0 [] false x n) as (c & w & R & Hc); [reflexivity|reflexivity|].
  destruct (HX n (<[0 := ([], false)]> ∅) false (lookup_insert _ _ _)) as (r' & Hs). rewrite insert_insert in Hs.
  assert (Hs2 : srun ds_step (DNew 0 :: pairs 0 x n ++ [DSize 0]) ∅ = SVal ((RUnit :: replicate (2 * n) RUnit) ++ [RNat 0], <[0 := ([], r')]> ∅)).
  { change (srun ds_step (DNew 0 :: pairs 0 x n ++ [DSize 0]) ∅) with (match srun ds_step (pairs 0 x n ++ [DSize 0]) (<[0 := ([], false)]> ∅ : sw) with SVal (rs, s) => SVal (RUnit :: rs, s) | SAbort => SAbort | SUnspec => SUnspec end).
    rewrite srun_app, Hs. reflexivity. }
  specialize (H (DNew 0 :: pairs 0 x n ++ [DSize 0]) _ _ 0 [] r' c w Hs2 (lookup_insert _ _ _)). cbn [length] in H.
  enough (c <= f 0) by (unfold n in Hc; lia). apply H. rewrite <- !app_comm_cons, <- !app_assoc. exact R.
Qed.
End Drift.
