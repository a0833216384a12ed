(** Histories of deque calls, storage accounting, moves and empty deques. *)
From Verif Require Import Base VectorModel VectorSpec Adapter Hist ListModel ListHist2 DequeModel DequeSpec DequeProofs DequeResize DequeHist.
From Verif Require ListHist.

Section Hist.
Context {A : Type} (N : nat) (HN : 0 < N).
Implicit Types (st : dst A) (l : list A) (q : dq) (t : list nat) (i : diter).
Notation sw := (gmap nat (list A * bool)).
Notation winv := (winv (A := A) N).

Lemma winv_empty : winv ∅ dst_init.
Proof.
  unfold DequeHist.winv, dst_init, keys_below. cbn [d_obj d_blk d_fresh]. split; [intros id; rewrite !lookup_empty; reflexivity|].
  split; [intros id id' q q' b H; rewrite lookup_empty in H; discriminate|]. split; intros b [c H]; rewrite lookup_empty in H; discriminate.
Qed.

Lemma winv_new s st id q : winv s st -> s !! id = None -> q_tab q = [] -> q_size q = 0 -> q_cap q = 0 ->
  winv (<[id := ([], false)]> s) (DSt (d_blk st) (d_fresh st) (d_cnt st) (<[id := q]> (d_obj st))).
Proof.
  intros Hw E Et Es Ec. pose proof (winv_none _ _ _ _ Hw E) as Hn. destruct Hw as (W1 & W2 & W3 & W4). split; [|split; [|split]]; cbn [d_blk d_obj d_fresh].
  - intros id2. destruct (decide (id2 = id)) as [->|Hne]; [rewrite !lookup_insert; exists q, []; split; [reflexivity|cbn [dqok]; auto]|].
    rewrite !lookup_insert_ne by congruence. apply W1.
  - intros id1 id2 q1 q2 b H1 H2 Hb1 Hb2. destruct (decide (id1 = id)) as [->|Hne1]; [rewrite lookup_insert in H1; injection H1 as <-; rewrite Et in Hb1; inversion Hb1|].
    destruct (decide (id2 = id)) as [->|Hne2]; [rewrite lookup_insert in H2; injection H2 as <-; rewrite Et in Hb2; inversion Hb2|].
    rewrite lookup_insert_ne in H1, H2 by congruence. eapply W2; eassumption.
  - intros b Hb. destruct (W3 b Hb) as (id2 & q2 & Hq2 & Hb2). exists id2, q2. rewrite lookup_insert_ne by congruence. auto.
  - exact W4.
Qed.
Lemma winv_delete s st id : winv s st -> s !! id = Some ([], false) -> winv (delete id s) (DSt (d_blk st) (d_fresh st) (d_cnt st) (delete id (d_obj st))).
Proof.
  intros Hw E. destruct (winv_get _ _ _ _ _ _ Hw E) as (q & t & Hq & _ & -> & Et & _). destruct Hw as (W1 & W2 & W3 & W4). split; [|split; [|split]]; cbn [d_blk d_obj d_fresh].
  - intros id2. destruct (decide (id2 = id)) as [->|Hne]; [rewrite !lookup_delete; reflexivity|]. rewrite !lookup_delete_ne by congruence. apply W1.
  - intros id1 id2 q1 q2 b H1 H2 Hb1 Hb2. apply lookup_delete_Some in H1 as [_ H1], H2 as [_ H2]. eapply W2; eassumption.
  - intros b Hb. destruct (W3 b Hb) as (id2 & q2 & Hq2 & Hb2). exists id2, q2. split; [|exact Hb2]. rewrite lookup_delete_ne; [exact Hq2|].
    intros <-. rewrite Hq in Hq2. injection Hq2 as <-. rewrite Et in Hb2. inversion Hb2.
  - exact W4.
Qed.

Lemma push_back_w s st id l r x : winv s st -> s !! id = Some (l, r) ->
  exists st', dq_push_back N id x st = Ok (tt, st') /\ winv (<[id := (l ++ [x], true)]> s) st' /\ (forall id2, id2 <> id -> d_obj st' !! id2 = d_obj st !! id2).
Proof.
  intros Hw E. destruct (winv_get _ _ _ _ _ _ Hw E) as (q & t & Hq & Hd).
  destruct (push_back_ok N HN st id l r q t x Hq Hd (winv_keys _ _ _ Hw)) as (st' & q' & t' & R & Hobj & Hd' & Ho & Hk & _).
  exists st'. split; [exact R|]. split; [eapply lift; try eassumption; eapply dqok_tab; eassumption|]. intros id2 Hne. rewrite Hobj, lookup_insert_ne by congruence. reflexivity.
Qed.
Lemma clear_w s st id l r : winv s st -> s !! id = Some (l, r) ->
  exists st', dq_clear N id st = Ok (tt, st') /\ winv (<[id := ([], false)]> s) st' /\ (forall id2, id2 <> id -> d_obj st' !! id2 = d_obj st !! id2).
Proof.
  intros Hw E. destruct (winv_get _ _ _ _ _ _ Hw E) as (q & t & Hq & Hd).
  destruct (clear_ok N HN st id l r q t Hq Hd (winv_keys _ _ _ Hw)) as (st' & q' & R & Hobj & _ & _ & Hd' & Ho & Hk).
  exists st'. split; [exact R|]. split; [eapply lift; try eassumption; eapply dqok_tab; eassumption|]. intros id2 Hne. rewrite Hobj, lookup_insert_ne by congruence. reflexivity.
Qed.

Lemma at_pos_pos id t p p' i : at_pos N id t p i -> at_pos N id t p' i -> p = p'.
Proof. intros (b & o & _ & Hc & _ & -> & _) (b' & o' & _ & Hc' & _ & -> & _). rewrite Hc in Hc'. injection Hc' as _ ->. reflexivity. Qed.
Lemma tabof_inj t t' : tabof t = tabof t' -> t = t'.
Proof. apply (inj (fmap Some)). Qed.

Lemma assign_w s st id src l0 r0 l : winv s st -> s !! id = Some (l0, r0) -> s !! src = Some (l, true) -> id <> src ->
  exists st', dq_assign N id src st = Ok (tt, st') /\ winv (<[id := (l, nonempty l)]> s) st'.
Proof.
  intros Hw Ei Es Hne. unfold dq_assign. rewrite (proj2 (Nat.eqb_neq id src) Hne).
  destruct (clear_w _ _ _ _ _ Hw Ei) as (st1 & R1 & Hw1 & Hsame). rewrite (bind_ok _ _ _ _ _ R1).
  assert (Es1 : <[id := ([], false)]> s !! src = Some (l, true)) by (rewrite lookup_insert_ne by congruence; exact Es).
  destruct (winv_get _ _ _ _ _ _ Hw1 Es1) as (q & t & Hq & p & Hr).
  destruct (range_for_ok N HN (fun _ a => dq_push_back N id a) src q t p l st1 tt
    (fun done _ st => winv (<[id := (done, nonempty done)]> s) st /\ d_obj st !! src = Some q)) as ([] & st2 & R2 & Hw2 & _).
  { exact Hq. } { exact Hr. } { split; [exact Hw1|exact Hq]. }
  { intros done [] st2 [Hw2 Hq2]. exists q. split; [exact Hq2|]. split; [apply Hr|].
    assert (Es2 : <[id := (done, nonempty done)]> s !! src = Some (l, true)) by (rewrite lookup_insert_ne by congruence; exact Es).
    destruct (winv_get _ _ _ _ _ _ Hw2 Es2) as (q' & t' & Hq' & p' & Hr'). rewrite Hq2 in Hq'. injection Hq' as <-.
    destruct Hr as (Et & _ & _ & _ & _ & Hb & _). destruct Hr' as (Et' & _ & _ & _ & _ & Hb' & _ & Hh). rewrite Et in Et'. apply tabof_inj in Et' as <-.
    rewrite (at_pos_pos _ _ _ _ _ Hb Hb'). exact Hh. }
  { intros done x rest [] st2 El [Hw2 Hq2].
    destruct (push_back_w _ _ id done (nonempty done) x Hw2 (lookup_insert _ _ _)) as (st3 & R3 & Hw3 & Hs3). exists tt, st3. split; [exact R3|].
    rewrite insert_insert in Hw3. split; [destruct done; exact Hw3|]. rewrite Hs3 by congruence. exact Hq2. }
  exists st2. split; [exact R2|exact Hw2].
Qed.

Lemma iter_w s st id l : winv s st -> s !! id = Some (l, true) -> dq_iter N id st = Ok (l, st).
Proof.
  intros Hw E. destruct (winv_get _ _ _ _ _ _ Hw E) as (q & t & Hq & p & Hr). unfold dq_iter.
  destruct (range_for_ok N HN (fun acc a => ret (acc ++ [a])) id q t p l st [] (fun done acc st' => acc = done /\ st' = st)) as (acc & st' & R & -> & ->).
  { exact Hq. } { exact Hr. } { auto. } { intros done acc st' [-> ->]. exists q. split; [exact Hq|]. split; apply Hr. }
  { intros done x rest acc st' _ [-> ->]. eexists _, _. split; [reflexivity|]. auto. }
  exact R.
Qed.

Lemma unit_ok {X} (m : M (dst A) X) st x st' (w : out A) : m st = Ok (x, st') -> (m ;;; ret w)%cpp st = Ok (w, st').
Proof. intros H. rewrite (bind_ok _ _ _ _ _ H). reflexivity. Qed.
Lemma dq_unit_ok (m : M (dst A) unit) st st' : m st = Ok (tt, st') -> dq_unit m st = Ok (RUnit, st').
Proof. intros H. unfold dq_unit. rewrite (bind_ok _ _ _ _ _ H). reflexivity. Qed.

Lemma at_w s st id l r k x : winv s st -> s !! id = Some (l, r) -> l !! k = Some x ->
  exists q, d_obj st !! id = Some q /\ (i' <- it_add N k (q_beg q) ;; cell_ld (i_cur i'))%cpp st = Ok (x, st) /\
    (i' <- it_sub N (length l - k) (q_end q) ;; cell_ld (i_cur i'))%cpp st = Ok (x, st).
Proof.
  intros Hw E Hx. apply lookup_lt_Some in Hx as Hk. destruct (winv_get _ _ _ _ _ _ Hw E) as (q & t & Hq & Hd).
  destruct r; [|destruct Hd as [-> _]; simpl in Hk; lia]. destruct Hd as (p & Et & Esz & Ecap & Hnd & HB & Hbeg & Hend & Hhold).
  pose proof (at_pos_le N HN _ _ _ _ Hend) as Hle. exists q. split; [exact Hq|]. split.
  - destruct (it_add_ok N HN st id q t k Hq Et Hnd p _ Hbeg) as (i1 & R & Hi1); [lia|]. rewrite (bind_ok _ _ _ _ _ R). eapply cell_ld_ok; eassumption.
  - destruct (it_sub_ok N HN st id q t (length l - k) Hq Et Hnd (p + k) (q_end q)) as (i1 & R & Hi1); [replace (p + k + (length l - k)) with (p + length l) by lia; exact Hend|].
    rewrite (bind_ok _ _ _ _ _ R). eapply cell_ld_ok; eassumption.
Qed.

Lemma dq_step_ok o s st : winv s st -> magree winv (ds_step o s) (dq_step N o st).
Proof.
  intros Hw. assert (Hself : forall x, exists w, Ok (x, st) = Ok (x : out A, w) /\ winv s w) by (intros; exists st; auto).
  assert (Hfr : forall id l r, s !! id = Some (l, r) -> exists q, q_get id st = Ok (q, st) /\ q_size q = length l).
  { intros id l r E. destruct (winv_get _ _ _ _ _ _ Hw E) as (q & t & Hq & Hd). exists q. split; [apply q_get_ok; exact Hq|eapply dqok_size; exact Hd]. }
  destruct o; cbn [ds_step dq_step]; unfold with_dq, no_dq, magree.
  - (* new *) destruct (s !! id) as [[l r]|] eqn:E; [exact I|]. eexists. split; [apply dq_unit_ok; unfold dq_new; rewrite (winv_none _ _ _ _ Hw E); reflexivity|]. apply winv_new; auto.
  - (* copy-construct *) destruct (s !! id) as [[l r]|] eqn:E; [exact I|]. destruct (s !! src) as [[l [|]]|] eqn:Es; [|exact I|exact I].
    assert (Hne : id <> src) by congruence.
    set (q0 := DQ 0 0 [] (It 0 PUninit None) (It 0 PUninit None)). assert (Hw0 : winv (<[id := ([], false)]> s) (DSt (d_blk st) (d_fresh st) (d_cnt st) (<[id := q0]> (d_obj st)))) by (apply winv_new; auto).
    destruct (assign_w _ _ id src [] false l Hw0 (lookup_insert _ _ _)) as (st' & R & Hw'); [rewrite lookup_insert_ne by congruence; exact Es|exact Hne|].
    rewrite insert_insert in Hw'. exists st'. split; [apply dq_unit_ok|exact Hw'].
    rewrite (bind_ok _ _ st tt (DSt (d_blk st) (d_fresh st) (d_cnt st) (<[id := q0]> (d_obj st)))) by (unfold dq_new; rewrite (winv_none _ _ _ _ Hw E); reflexivity). exact R.
  - exact I.
  - (* assign *) destruct (s !! id) as [[l0 r0]|] eqn:E; [|exact I]. destruct (s !! src) as [[l r]|] eqn:Es; [|exact I]. destruct (Nat.eqb_spec id src) as [->|Hne].
    + exists st. split; [apply dq_unit_ok; unfold dq_assign; rewrite Nat.eqb_refl; reflexivity|exact Hw].
    + destruct r; [|exact I]. destruct (assign_w _ _ _ _ _ _ _ Hw E Es Hne) as (st' & R & Hw'). exists st'. split; [apply dq_unit_ok; exact R|exact Hw'].
  - (* move-assign to itself *) destruct (s !! id) as [[l0 r0]|] eqn:E; [|exact I]. destruct (Nat.eqb_spec id src) as [->|Hne]; [|exact I].
    exists st. split; [apply dq_unit_ok; unfold dq_move; rewrite Nat.eqb_refl; reflexivity|exact Hw].
  - (* destroy *) destruct (s !! id) as [[l r]|] eqn:E; [|exact I]. destruct (clear_w _ _ _ _ _ Hw E) as (st1 & R1 & Hw1 & _).
    eexists. split; [apply dq_unit_ok; unfold dq_destroy; rewrite (bind_ok _ _ _ _ _ R1); reflexivity|].
    pose proof (winv_delete _ _ id Hw1 (lookup_insert _ _ _)) as H. rewrite delete_insert_delete in H. exact H.
  - (* clear *) destruct (s !! id) as [[l r]|] eqn:E; [|exact I]. destruct (clear_w _ _ _ _ _ Hw E) as (st1 & R1 & Hw1 & _). exists st1. split; [apply dq_unit_ok; exact R1|exact Hw1].
  - (* push_back *) destruct (s !! id) as [[l r]|] eqn:E; [|exact I]. destruct (push_back_w _ _ _ _ _ a Hw E) as (st1 & R1 & Hw1 & _). exists st1. split; [apply dq_unit_ok; exact R1|exact Hw1].
  - (* push_front *) destruct (s !! id) as [[l r]|] eqn:E; [|exact I]. destruct (winv_get _ _ _ _ _ _ Hw E) as (q & t & Hq & Hd).
    destruct (push_front_ok N HN st id l r q t a Hq Hd (winv_keys _ _ _ Hw)) as (st' & q' & t' & R & Hobj & Hd' & Ho & Hk & _).
    exists st'. split; [apply dq_unit_ok; exact R|]. eapply lift; try eassumption; eapply dqok_tab; eassumption.
  - (* push *) destruct (s !! id) as [[l r]|] eqn:E; [|exact I]. destruct (push_back_w _ _ _ _ _ a Hw E) as (st1 & R1 & Hw1 & _). exists st1. split; [apply dq_unit_ok; exact R1|exact Hw1].
  - (* pop_back *) destruct (s !! id) as [[l r]|] eqn:E; [|exact I]. destruct l as [|x l] using rev_ind; [exact I|]. clear IHl.
    assert (Hm : forall Y (a b : Y), match l ++ [x] with [] => a | _ => b end = b) by (intros; destruct l; reflexivity). rewrite Hm. rewrite removelast_last.
    destruct (winv_get _ _ _ _ _ _ Hw E) as (q & t & Hq & Hd).
    destruct (pop_back_ok N HN st id x l r q t Hq Hd (winv_keys _ _ _ Hw)) as (st' & q' & R & Hobj & -> & Hd' & Ho & Hk).
    exists st'. split; [apply dq_unit_ok; exact R|]. eapply lift; try eassumption; eapply dqok_tab; eassumption.
  - (* pop_front *) destruct (s !! id) as [[l r]|] eqn:E; [|exact I]. destruct l as [|x l]; [exact I|].
    destruct (winv_get _ _ _ _ _ _ Hw E) as (q & t & Hq & Hd).
    destruct (pop_front_ok N HN st id x l r q t Hq Hd (winv_keys _ _ _ Hw)) as (st' & q' & R & Hobj & -> & Hd' & Ho & Hk).
    exists st'. split; [apply dq_unit_ok; exact R|]. eapply lift; try eassumption; eapply dqok_tab; eassumption.
  - (* pop *) destruct (s !! id) as [[l r]|] eqn:E; [|exact I]. destruct l as [|x l]; [exact I|].
    destruct (winv_get _ _ _ _ _ _ Hw E) as (q & t & Hq & Hd).
    destruct (pop_front_ok N HN st id x l r q t Hq Hd (winv_keys _ _ _ Hw)) as (st' & q' & R & Hobj & -> & Hd' & Ho & Hk).
    exists st'. split; [apply dq_unit_ok; exact R|]. eapply lift; try eassumption; eapply dqok_tab; eassumption.
  - (* front *) destruct (s !! id) as [[l r]|] eqn:E; [|exact I]. destruct l as [|x l]; [exact I|]. cbn [head some_or].
    destruct (at_w _ _ _ _ _ 0 x Hw E eq_refl) as (q & Hq & R & _). cbn [it_add] in R. rewrite bind_ret in R.
    unfold dq_front. erewrite unit_ok || idtac. rewrite bind_assoc, (bind_ok _ _ _ _ _ (q_get_ok _ _ _ Hq)), (bind_ok _ _ _ _ _ R). apply Hself.
  - (* back *) destruct (s !! id) as [[l r]|] eqn:E; [|exact I]. destruct (last l) as [x|] eqn:El; [|exact I]. cbn [some_or].
    rewrite last_lookup in El. destruct (at_w _ _ _ _ _ _ x Hw E El) as (q & Hq & _ & R).
    assert (Hl : 0 < length l) by (destruct l; [discriminate|simpl; lia]). replace (length l - pred (length l)) with 1 in R by lia.
    unfold dq_back. rewrite bind_assoc, (bind_ok _ _ _ _ _ (q_get_ok _ _ _ Hq)), (bind_ok _ _ _ _ _ R). apply Hself.
  - (* operator[] *) destruct (s !! id) as [[l r]|] eqn:E; [|exact I]. cbv zeta. set (j := (if z <? 0 then Z.of_nat (length l) + z else z)%Z).
    destruct (Z.ltb_spec j 0) as [Hj|Hj]; [exact I|]. destruct (l !! Z.to_nat j) as [x|] eqn:Ex; [|exact I]. cbn [some_or].
    destruct (at_w _ _ _ _ _ _ x Hw E Ex) as (q & Hq & R1 & R2). unfold dq_at. rewrite bind_assoc, (bind_ok _ _ _ _ _ (q_get_ok _ _ _ Hq)).
    unfold j in *. destruct (Z.ltb_spec z 0) as [Hz|Hz].
    + replace (length l - Z.to_nat (Z.of_nat (length l) + z)) with (Z.to_nat (- z)) in R2 by lia. rewrite (bind_ok _ _ _ _ _ R2). apply Hself.
    + rewrite (bind_ok _ _ _ _ _ R1). apply Hself.
  - (* size *) destruct (s !! id) as [[l r]|] eqn:E; [|exact I]. destruct (Hfr _ _ _ E) as (q & R & Hs). rewrite (bind_ok _ _ _ _ _ R), Hs. apply Hself.
  - (* empty *) destruct (s !! id) as [[l r]|] eqn:E; [|exact I]. destruct (Hfr _ _ _ E) as (q & R & Hs). rewrite (bind_ok _ _ _ _ _ R), Hs.
    exists st. split; [|exact Hw]. destruct l; reflexivity.
  - exact I.
  - (* iteration *) destruct (s !! id) as [[l [|]]|] eqn:E; [|exact I|exact I]. rewrite (bind_ok _ _ _ _ _ (iter_w _ _ _ _ Hw E)). apply Hself.
Qed.

(** ** Storage *)
Lemma winv_obj s st id q : winv s st -> d_obj st !! id = Some q -> exists l r t, s !! id = Some (l, r) /\ dqok N (d_blk st) id l r q t.
Proof.
  intros (W1 & _) Hq. specialize (W1 id). destruct (s !! id) as [[l r]|]; [|congruence]. destruct W1 as (q' & t & Hq' & Hd). rewrite Hq in Hq'. injection Hq' as <-. eauto.
Qed.
(** The blocks are those of the deques' tables, each once. *)
Lemma blocks_perm s st : winv s st -> Some <$> (map_to_list (d_blk st)).*1 ≡ₚ map_to_list (d_obj st) ≫= (fun iq => q_tab iq.2).
Proof.
  intros Hw. pose proof Hw as (W1 & W2 & W3 & W4).
  assert (Hq : forall id q, d_obj st !! id = Some q -> exists t, q_tab q = tabof t /\ NoDup t /\ q_cap q = length t * N).
  { intros id q Hq. specialize (W1 id). destruct (s !! id) as [[l r]|]; [|congruence]. destruct W1 as (q' & t & Hq' & Hd). rewrite Hq in Hq'. injection Hq' as <-.
    exists t. split; [eapply dqok_tab; exact Hd|]. split; [eapply dqok_nodup; exact Hd|eapply dqok_cap; exact Hd]. }
  apply NoDup_Permutation.
    - apply NoDup_fmap_2; [apply _|]. apply NoDup_fst_map_to_list.
    - apply ListHist.nodup_bind; [| |apply NoDup_map_to_list].
      + intros [i q] [i' q'] y Hi%elem_of_map_to_list Hi'%elem_of_map_to_list Hy Hy'. cbn [snd] in *. destruct (Hq _ _ Hi) as (t & Et & _).
        rewrite Et in Hy. unfold tabof in Hy. apply elem_of_list_fmap in Hy as (b & -> & Hb). assert (i = i') as <- by (eapply (W2 i i' q q' b); [assumption|assumption|rewrite Et; apply tabof_elem; exact Hb|exact Hy']). congruence.
      + intros [i q] Hi%elem_of_map_to_list. cbn [snd]. destruct (Hq _ _ Hi) as (t & -> & Hnd & _). apply NoDup_fmap_2; [apply _|exact Hnd].
    - intros y. rewrite elem_of_list_fmap, elem_of_list_bind. split.
      + intros (b & -> & Hb). apply elem_of_list_fmap in Hb as ([b' c] & -> & Hb%elem_of_map_to_list). cbn [fst]. destruct (W3 b') as (i & q & Hi & Hb'); [eauto|].
        exists (i, q). split; [exact Hb'|apply elem_of_map_to_list; exact Hi].
      + intros ([i q] & Hy & Hi%elem_of_map_to_list). cbn [snd] in Hy. destruct (Hq _ _ Hi) as (t & Et & _). pose proof Hy as Hy0. rewrite Et in Hy. unfold tabof in Hy.
        apply elem_of_list_fmap in Hy as (b & -> & Hb). exists b. split; [reflexivity|]. destruct (winv_other_live _ _ _ _ _ _ Hw Hi Hy0) as [c Hc].
        apply elem_of_list_fmap. exists (b, c). split; [reflexivity|]. apply elem_of_map_to_list. exact Hc.
Qed.
Lemma storage_exact s st : winv s st -> blocks_allocated st * N = capacity_total st.
Proof.
  intros Hw. pose proof Hw as (W1 & W2 & W3 & W4). unfold blocks_allocated, capacity_total.
  assert (Hq : forall id q, d_obj st !! id = Some q -> exists t, q_tab q = tabof t /\ NoDup t /\ q_cap q = length t * N).
  { intros id q Hq. specialize (W1 id). destruct (s !! id) as [[l r]|]; [|congruence]. destruct W1 as (q' & t & Hq' & Hd). rewrite Hq in Hq'. injection Hq' as <-.
    exists t. split; [eapply dqok_tab; exact Hd|]. split; [eapply dqok_nodup; exact Hd|eapply dqok_cap; exact Hd]. }
  pose proof (blocks_perm _ _ Hw) as Hp.
  apply Permutation_length in Hp. rewrite !fmap_length in Hp. rewrite map_size_list || idtac.
  assert (Hsz : size (d_blk st) = length (map_to_list (d_blk st))) by reflexivity. rewrite Hsz, Hp. clear Hsz Hp.
  assert (Hall : forall iq, iq ∈ map_to_list (d_obj st) -> q_cap iq.2 = length (q_tab iq.2) * N).
  { intros [i q] Hi%elem_of_map_to_list. cbn [snd]. destruct (Hq _ _ Hi) as (t & -> & _ & ->). rewrite tabof_length. reflexivity. }
  revert Hall. generalize (map_to_list (d_obj st)). intros L. induction L as [|iq L IH]; intros Hall; [reflexivity|].
  cbn [mbind list_bind sum_list_with]. rewrite app_length, Nat.mul_add_distr_r. rewrite <- IH by (intros x Hx; apply Hall; right; exact Hx). rewrite Hall by left. reflexivity.
Qed.

(** ** Elements *)
Definition live_in (c : list (option A)) : nat := length (filter is_Some c).
Lemma live_in_app c c' : live_in (c ++ c') = live_in c + live_in c'.
Proof. unfold live_in. rewrite filter_app, app_length. reflexivity. Qed.
Lemma live_in_none k : live_in (replicate k None) = 0.
Proof. induction k as [|k IH]; [reflexivity|]. unfold live_in in *. cbn [replicate]. rewrite filter_cons_False by (intros [? ?]; discriminate). exact IH. Qed.
Lemma live_in_some (l : list A) : live_in (Some <$> l) = length l.
Proof. induction l as [|x l IH]; [reflexivity|]. unfold live_in in *. cbn [fmap list_fmap]. rewrite filter_cons_True by eauto. cbn [length]. f_equal. exact IH. Qed.
Lemma cells_split p (l : list A) K : p + length l <= K -> cellval p l <$> seq 0 K = replicate p None ++ (Some <$> l) ++ replicate (K - p - length l) None.
Proof.
  intros H. apply list_eq. intros k. rewrite list_lookup_fmap. destruct (decide (k < K)) as [Hk|Hk].
  - rewrite lookup_seq_lt by exact Hk. simpl. unfold cellval. destruct (Nat.ltb_spec k p) as [Hp|Hp].
    + rewrite lookup_app_l by (rewrite replicate_length; exact Hp). rewrite lookup_replicate_2 by exact Hp. reflexivity.
    + rewrite lookup_app_r, replicate_length by (rewrite replicate_length; exact Hp). destruct (decide (k - p < length l)) as [Hl|Hl].
      * rewrite lookup_app_l by (rewrite fmap_length; exact Hl). rewrite list_lookup_fmap. destruct (lookup_lt_is_Some_2 l _ Hl) as [x ->]. reflexivity.
      * rewrite lookup_app_r, fmap_length by (rewrite fmap_length; lia). rewrite lookup_replicate_2 by lia. rewrite lookup_ge_None_2 by lia. reflexivity.
  - rewrite lookup_seq_ge by lia. symmetry. apply lookup_ge_None_2. rewrite !app_length, !replicate_length, fmap_length. lia.
Qed.
Lemma live_blocks p (l : list A) k : forall j, sum_list_with (fun m : nat => live_in (blockat N p l m)) (seq j k) = live_in (cellval p l <$> seq (j * N) (k * N)).
Proof.
  induction k as [|k IH]; intros j; [reflexivity|]. cbn [seq sum_list_with]. rewrite IH. replace (S k * N) with (N + k * N) by lia. rewrite seq_app, fmap_app, live_in_app.
  unfold blockat. replace (j * N + N) with (S j * N) by lia. reflexivity.
Qed.
Lemma live_table H t p (l : list A) : holds N H t p l -> p + length l <= length t * N ->
  sum_list_with (fun b => live_in (default [] (H !! b))) t = length l.
Proof.
  intros Hh Hp. transitivity (sum_list_with (fun m : nat => live_in (blockat N p l m)) (seq 0 (length t))).
  - clear Hp. assert (Hg : forall j t', (forall m b, t' !! m = Some b -> H !! b = Some (blockat N p l (j + m))) ->
      sum_list_with (fun b => live_in (default [] (H !! b))) t' = sum_list_with (fun m : nat => live_in (blockat N p l m)) (seq j (length t'))); [|apply Hg; exact Hh].
    intros j t'. revert j. induction t' as [|b t' IH]; intros j Hb; [reflexivity|]. cbn [sum_list_with length seq]. rewrite (IH (S j)).
    + rewrite (Hb 0 b eq_refl), Nat.add_0_r. reflexivity.
    + intros i b' Hi. replace (S j + i) with (j + S i) by lia. apply (Hb (S i) b' Hi).
  - rewrite live_blocks. simpl. rewrite cells_split by exact Hp. rewrite !live_in_app, !live_in_none, live_in_some. lia.
Qed.
Lemma sum_perm {X} (f : X -> nat) (l l' : list X) : l ≡ₚ l' -> sum_list_with f l = sum_list_with f l'.
Proof. induction 1; simpl; lia. Qed.
Lemma sum_bind {X Y} (g : X -> list Y) (f : Y -> nat) (l : list X) : sum_list_with f (l ≫= g) = sum_list_with (fun x => sum_list_with f (g x)) l.
Proof. induction l as [|x l IH]; [reflexivity|]. cbn [mbind list_bind sum_list_with]. rewrite sum_list_with_app. f_equal. exact IH. Qed.
Lemma sum_ext {X} (f g : X -> nat) (l : list X) : (forall x, x ∈ l -> f x = g x) -> sum_list_with f l = sum_list_with g l.
Proof. induction l as [|x l IH]; intros H; [reflexivity|]. simpl. rewrite (H x) by left. f_equal. apply IH. intros y Hy. apply H. right. exact Hy. Qed.
Lemma sum_fmap {X Y} (h : X -> Y) (f : Y -> nat) (l : list X) : sum_list_with f (h <$> l) = sum_list_with (fun x => f (h x)) l.
Proof. induction l as [|x l IH]; [reflexivity|]. simpl. f_equal. exact IH. Qed.

Lemma dqok_elems H id l r q t : dqok N H id l r q t -> sum_list_with (fun b => live_in (default [] (H !! b))) t = length l.
Proof.
  destruct r; [|intros (-> & -> & _); reflexivity]. intros (p & _ & _ & _ & _ & _ & _ & Hend & Hh). eapply live_table; [exact Hh|].
  eapply (at_pos_le N HN). exact Hend.
Qed.
Lemma keys_perm s st : winv s st -> (map_to_list (d_obj st)).*1 ≡ₚ (map_to_list s).*1.
Proof.
  intros Hw. apply NoDup_Permutation; [apply NoDup_fst_map_to_list|apply NoDup_fst_map_to_list|]. intros id. rewrite !elem_of_list_fmap. split.
  - intros ([i q] & -> & Hq%elem_of_map_to_list). destruct (winv_obj _ _ _ _ Hw Hq) as (l & r & t & Hs & _). exists (i, (l, r)). split; [reflexivity|]. apply elem_of_map_to_list, Hs.
  - intros ([i [l r]] & -> & Hs%elem_of_map_to_list). destruct Hw as (W1 & _). specialize (W1 i). rewrite Hs in W1. destruct W1 as (q & t & Hq & _). exists (i, q). split; [reflexivity|]. apply elem_of_map_to_list, Hq.
Qed.
Lemma elements_exact s st : winv s st -> elements_live st = elements_total s.
Proof.
  intros Hw. set (g := fun o : option nat => match o with Some b => live_in (default [] (d_blk st !! b)) | None => 0 end).
  set (h := fun id : nat => match s !! id with Some (l, _) => length l | None => 0 end).
  unfold elements_live, elements_total.
  rewrite (sum_ext _ (fun bc : nat * list (option A) => g (Some bc.1))).
  2:{ intros [b c] Hb%elem_of_map_to_list. unfold g. cbn [fst snd]. rewrite Hb. reflexivity. }
  rewrite <- (sum_fmap fst (fun b => g (Some b))), <- (sum_fmap Some g), (sum_perm g _ _ (blocks_perm _ _ Hw)), sum_bind.
  rewrite (sum_ext _ (fun iq : nat * dq => h iq.1)).
  2:{ intros [id q] Hq%elem_of_map_to_list. cbn [fst snd]. destruct (winv_obj _ _ _ _ Hw Hq) as (l & r & t & Hs & Hd). unfold h. rewrite Hs, (dqok_tab _ _ _ _ _ _ _ Hd).
      unfold tabof. rewrite sum_fmap. exact (dqok_elems _ _ _ _ _ _ Hd). }
  rewrite (sum_ext _ (fun ic : nat * (list A * bool) => h ic.1) (map_to_list s)).
  2:{ intros [id [l r]] Hs%elem_of_map_to_list. unfold h. cbn [fst snd]. rewrite Hs. reflexivity. }
  rewrite <- (sum_fmap fst h (map_to_list s)), <- (sum_fmap fst h (map_to_list (d_obj st))). apply sum_perm. exact (keys_perm _ _ Hw).
Qed.

Theorem deque_history (ops : list (dop A)) : match srun ds_step ops ∅ with
  | SVal (rs, s) => exists w, mrun (dq_step N) ops dst_init = Ok (rs, w) /\ blocks_allocated w * N = capacity_total w /\ elements_live w = elements_total s
  | SAbort => mrun (dq_step N) ops dst_init = Abort
  | SUnspec => True end.
Proof.
  pose proof (mrun_agree (dq_step N) ds_step winv dq_step_ok ops ∅ dst_init winv_empty) as H. unfold magree in H.
  destruct (srun ds_step ops ∅) as [[rs s]| |]; [|exact H|exact I]. destruct H as (w & R & Hw). exists w. split; [exact R|]. split; [eapply storage_exact; exact Hw|apply elements_exact; exact Hw].
Qed.
Lemma dq_reached (ops : list (dop A)) rs (s : sw) : srun ds_step ops ∅ = SVal (rs, s) ->
  exists w, winv s w /\ forall ops2, mrun (dq_step N) (ops ++ ops2) dst_init =
    match mrun (dq_step N) ops2 w with Ok (rs2, w2) => Ok (rs ++ rs2, w2) | Abort => Abort | UB => UB | Diverge => Diverge end.
Proof. intros H. eapply mhistory_then; [|exact H]. apply mrun_agree; [apply dq_step_ok|apply winv_empty]. Qed.

(** ** Capacity *)
Lemma cap_step st id q : d_obj st !! id = Some q -> dq_step N (DCapacity id) st = Ok (RNat (q_cap q), st).
Proof. intros Hq. cbn [dq_step]. rewrite (bind_ok _ _ _ _ _ (q_get_ok _ _ _ Hq)). reflexivity. Qed.
Definition cap_after (N : nat) (o : dop A) (l : list A) (c c' : nat) : Prop :=
  match o with
  | DPush _ _ | DPushBack _ _ | DPushFront _ _ => (c = 0 /\ c' = 2 * N) \/ (0 < c /\ (c' = c \/ c' = 2 * c))
  | DPop _ | DPopBack _ | DPopFront _ => c' = c
  | DClear _ => c' = 0
  | _ => False
  end.
Theorem capacity_ok (ops : list (dop A)) rs (s : sw) id l r o :
  srun ds_step ops ∅ = SVal (rs, s) -> s !! id = Some (l, r) ->
  (exists x, o = DPushBack id x \/ o = DPushFront id x \/ o = DPush id x) \/ (l <> [] /\ (o = DPopBack id \/ o = DPopFront id \/ o = DPop id)) \/ o = DClear id ->
  exists c c' w, mrun (dq_step N) (ops ++ [DCapacity id; o; DCapacity id]) dst_init = Ok (rs ++ [RNat c; RUnit; RNat c'], w) /\
    length l <= c /\ cap_after N o l c c'.
Proof.
  intros Hrun E Ho. destruct (dq_reached _ _ _ Hrun) as (w & Hw & Hthen). rewrite Hthen. clear Hthen.
  destruct (winv_get _ _ _ _ _ _ Hw E) as (q & t & Hq & Hd). pose proof (winv_keys _ _ _ Hw) as Hk.
  rewrite (mrun_cons _ _ _ _ _ _ (cap_step _ _ _ Hq)).
  assert (Hc : q_cap q = length t * N) by (eapply dqok_cap; exact Hd).
  assert (Hlen : length l <= q_cap q).
  { destruct r; [|destruct Hd as [-> _]; simpl; lia]. destruct Hd as (p & _ & _ & -> & _ & _ & _ & He & _). apply (at_pos_le N HN) in He. lia. }
  assert (Hend : forall w1 q1 t1 l1 r1, dq_step N o w = Ok (RUnit, w1) -> d_obj w1 = <[id := q1]> (d_obj w) -> dqok N (d_blk w1) id l1 r1 q1 t1 -> cap_after N o l (length t * N) (length t1 * N) ->
    exists c c' w', match mrun (dq_step N) [o; DCapacity id] w with Ok (rs0, w2) => Ok (RNat (q_cap q) :: rs0, w2) | Abort => Abort | UB => UB | Diverge => Diverge end
      = Ok ([RNat c; RUnit; RNat c'], w') /\ length l <= c /\ cap_after N o l c c').
  { intros w1 q1 t1 l1 r1 R1 Hobj Hd1 Hcap. rewrite (mrun_cons _ _ _ _ _ _ R1). assert (Hq1 : d_obj w1 !! id = Some q1) by (rewrite Hobj; apply lookup_insert).
    rewrite (mrun_cons _ _ _ _ _ _ (cap_step _ _ _ Hq1)). cbn [mrun]. exists (q_cap q), (q_cap q1), w1. split; [reflexivity|]. split; [exact Hlen|].
    rewrite Hc, (dqok_cap _ _ _ _ _ _ _ Hd1). exact Hcap. }
  assert (Hgrow : forall t1, 2 <= length t1 -> grown t t1 -> ((length t * N = 0 /\ length t1 * N = 2 * N) \/ (0 < length t * N /\ (length t1 * N = length t * N \/ length t1 * N = 2 * (length t * N))))).
  { intros t1 H2 Hg. destruct r.
    - destruct Hd as (p & _ & _ & _ & _ & HB & _). assert (2 * N <= length t * N) by (apply Nat.mul_le_mono_r; lia). right. split; [lia|].
      destruct Hg as [->|[->|[Hg _]]]; [left; reflexivity|right; lia|lia].
    - destruct Hd as (_ & -> & _). left. destruct Hg as [Hg|[Hg|[_ Hg]]]; cbn [length] in *; [lia|lia|split; [reflexivity|rewrite Hg; reflexivity]]. }
  assert (Hres : exists c c' w', match mrun (dq_step N) [o; DCapacity id] w with Ok (rs0, w2) => Ok (RNat (q_cap q) :: rs0, w2) | Abort => Abort | UB => UB | Diverge => Diverge end
      = Ok ([RNat c; RUnit; RNat c'], w') /\ length l <= c /\ cap_after N o l c c').
  { destruct Ho as [(x & Ho)|[(Hl & Ho)|Ho]].
    - destruct (push_back_ok N HN w id l r q t x Hq Hd Hk) as (st1 & q1 & t1 & R1 & O1 & D1 & _ & _ & G1).
      destruct (push_front_ok N HN w id l r q t x Hq Hd Hk) as (st2 & q2 & t2 & R2 & O2 & D2 & _ & _ & G2).
      assert (B1 : 2 <= length t1) by (destruct D1 as (p & _ & _ & _ & _ & HB & _); exact HB).
      assert (B2 : 2 <= length t2) by (destruct D2 as (p & _ & _ & _ & _ & HB & _); exact HB).
      destruct Ho as [-> | [-> | ->]].
      + eapply (Hend st1 q1 t1); [apply dq_unit_ok; exact R1|exact O1|exact D1|apply Hgrow; assumption].
      + eapply (Hend st2 q2 t2); [apply dq_unit_ok; exact R2|exact O2|exact D2|apply Hgrow; assumption].
      + eapply (Hend st1 q1 t1); [apply dq_unit_ok; exact R1|exact O1|exact D1|apply Hgrow; assumption].
    - destruct Ho as [->|Ho].
      + destruct l as [|x l _] using rev_ind; [exfalso; apply Hl; reflexivity|].
        destruct (pop_back_ok N HN w id x l r q t Hq Hd Hk) as (st1 & q1 & R1 & O1 & _ & D1 & _).
        eapply (Hend st1 q1 t); [apply dq_unit_ok; exact R1|exact O1|exact D1|reflexivity].
      + destruct l as [|x l]; [contradiction|]. destruct (pop_front_ok N HN w id x l r q t Hq Hd Hk) as (st1 & q1 & R1 & O1 & _ & D1 & _).
        destruct Ho as [->| ->]; eapply (Hend st1 q1 t); [apply dq_unit_ok; exact R1|exact O1|exact D1|reflexivity|apply dq_unit_ok; exact R1|exact O1|exact D1|reflexivity].
    - subst o. destruct (clear_ok N HN w id l r q t Hq Hd Hk) as (st1 & q1 & R1 & O1 & _ & _ & D1 & _).
      eapply (Hend st1 q1 []); [apply dq_unit_ok; exact R1|exact O1|exact D1|reflexivity]. }
  destruct Hres as (c & c' & w' & -> & Hle & Hcap). exists c, c', w'. auto.
Qed.
End Hist.
