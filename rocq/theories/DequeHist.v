(** Histories of deque calls agree with sequences. *)
From Verif Require Import Base VectorModel VectorSpec Adapter Hist ListModel DequeModel DequeSpec DequeProofs DequeResize.

Section Hist.
Context {A : Type} (N : nat) (HN : 0 < N).
Implicit Types (st : dst A) (l : list A) (q : dq) (t : list nat) (i : diter).
Notation heap := (gmap nat (list (option A))).
Notation sw := (gmap nat (list A * bool)).

Definition dqok (H : heap) (id : nat) l (r : bool) q t : Prop :=
  if r then exists p, rdy_ok N H id l q t p else l = [] /\ t = [] /\ q_tab q = [] /\ q_size q = 0 /\ q_cap q = 0.
Lemma dqok_tab H id l r q t : dqok H id l r q t -> q_tab q = tabof t.
Proof. destruct r; [intros (p & E & _); exact E|intros (_ & -> & -> & _); reflexivity]. Qed.
Lemma dqok_size H id l r q t : dqok H id l r q t -> q_size q = length l.
Proof. destruct r; [intros (p & _ & E & _); exact E|intros (-> & _ & _ & -> & _); reflexivity]. Qed.
Lemma dqok_cap H id l r q t : dqok H id l r q t -> q_cap q = length t * N.
Proof. destruct r; [intros (p & _ & _ & E & _); exact E|intros (_ & -> & _ & _ & ->); reflexivity]. Qed.
Lemma dqok_nodup H id l r q t : dqok H id l r q t -> NoDup t.
Proof. destruct r; [intros (p & _ & _ & _ & E & _); exact E|intros (_ & -> & _); apply NoDup_nil_2]. Qed.
Lemma dqok_live H id l r q t b : dqok H id l r q t -> b ∈ t -> is_Some (H !! b).
Proof.
  destruct r; [|intros (_ & -> & _) Hb; inversion Hb]. intros (p & _ & _ & _ & _ & _ & _ & _ & Hh) Hb. apply elem_of_list_lookup in Hb as [j Hj]. rewrite (Hh _ _ Hj). eauto.
Qed.
Lemma dqok_frame H H' id l r q t : dqok H id l r q t -> (forall b, b ∈ t -> H' !! b = H !! b) -> dqok H' id l r q t.
Proof. destruct r; [|intros E _; exact E]. intros (p & E) Hb. exists p. eapply rdy_frame; eassumption. Qed.

Definition winv (s : sw) st : Prop :=
  (forall id, match s !! id with
              | Some (l, r) => exists q t, d_obj st !! id = Some q /\ dqok (d_blk st) id l r q t
              | None => d_obj st !! id = None end) /\
  (forall id id' q q' b, d_obj st !! id = Some q -> d_obj st !! id' = Some q' -> Some b ∈ q_tab q -> Some b ∈ q_tab q' -> id = id') /\
  (forall b, is_Some (d_blk st !! b) -> exists id q, d_obj st !! id = Some q /\ Some b ∈ q_tab q) /\
  keys_below (d_blk st) (d_fresh st).

Lemma winv_get s st id l r : winv s st -> s !! id = Some (l, r) -> exists q t, d_obj st !! id = Some q /\ dqok (d_blk st) id l r q t.
Proof. intros (H & _) E. specialize (H id). rewrite E in H. exact H. Qed.
Lemma winv_none s st id : winv s st -> s !! id = None -> d_obj st !! id = None.
Proof. intros (H & _) E. specialize (H id). rewrite E in H. exact H. Qed.
Lemma winv_keys s st : winv s st -> keys_below (d_blk st) (d_fresh st).
Proof. intros (_ & _ & _ & H). exact H. Qed.

Lemma winv_other_live s st id q b : winv s st -> d_obj st !! id = Some q -> Some b ∈ q_tab q -> is_Some (d_blk st !! b).
Proof.
  intros (H & _) Hq Hb. specialize (H id). destruct (s !! id) as [[l r]|]; [|congruence]. destruct H as (q' & t & Hq' & Hd). rewrite Hq in Hq'. injection Hq' as <-.
  rewrite (dqok_tab _ _ _ _ _ _ Hd) in Hb. apply tabof_elem in Hb. eapply dqok_live; eassumption.
Qed.

Lemma lift s st st' id l r q t q' t' l' r' :
  winv s st -> s !! id = Some (l, r) -> d_obj st !! id = Some q -> q_tab q = tabof t ->
  d_obj st' = <[id := q']> (d_obj st) -> dqok (d_blk st') id l' r' q' t' -> own_step (d_blk st) (d_blk st') t t' -> keys_below (d_blk st') (d_fresh st') ->
  winv (<[id := (l', r')]> s) st'.
Proof.
  intros Hw Es Hq Et Hobj Hd (O1 & O2 & O3) Hk. pose proof Hw as (W1 & W2 & W3 & W4). pose proof (dqok_tab _ _ _ _ _ _ Hd) as Et'.
  assert (Hother : forall id2 q2 b, id2 <> id -> d_obj st !! id2 = Some q2 -> Some b ∈ q_tab q2 -> b ∉ t /\ b ∉ t').
  { intros id2 q2 b Hne Hq2 Hb. assert (Hbt : b ∉ t).
    { intros Hb'. apply Hne. eapply (W2 id2 id q2 q b Hq2 Hq Hb). rewrite Et. apply tabof_elem. exact Hb'. }
    split; [exact Hbt|]. intros Hb'. destruct (winv_other_live _ _ _ _ _ Hw Hq2 Hb) as [c Hc]. rewrite (O3 b Hb' Hbt) in Hc. discriminate. }
  split; [|split; [|split]].
  - intros id2. destruct (decide (id2 = id)) as [->|Hne].
    + rewrite lookup_insert, Hobj, lookup_insert. eauto.
    + rewrite lookup_insert_ne, Hobj, lookup_insert_ne by congruence. specialize (W1 id2). destruct (s !! id2) as [[l2 r2]|]; [|exact W1].
      destruct W1 as (q2 & t2 & Hq2 & Hd2). exists q2, t2. split; [exact Hq2|]. eapply dqok_frame; [exact Hd2|]. intros b Hb.
      destruct (Hother id2 q2 b Hne Hq2) as [B1 B2]; [rewrite (dqok_tab _ _ _ _ _ _ Hd2); apply tabof_elem; exact Hb|]. apply O1; assumption.
  - intros id1 id2 q1 q2 b. rewrite Hobj. destruct (decide (id1 = id)) as [->|H1], (decide (id2 = id)) as [->|H2].
    + reflexivity.
    + rewrite lookup_insert, lookup_insert_ne by congruence. intros [= <-] Hq2 Hb1 Hb2. exfalso. destruct (Hother id2 q2 b H2 Hq2 Hb2) as [_ B2]. apply B2.
      apply tabof_elem. rewrite <- Et'. exact Hb1.
    + rewrite lookup_insert, lookup_insert_ne by congruence. intros Hq1 [= <-] Hb1 Hb2. exfalso. destruct (Hother id1 q1 b H1 Hq1 Hb1) as [_ B2]. apply B2.
      apply tabof_elem. rewrite <- Et'. exact Hb2.
    + rewrite !lookup_insert_ne by congruence. apply W2.
  - intros b Hb. destruct (decide (b ∈ t')) as [Hbt'|Hbt'].
    + exists id, q'. rewrite Hobj, lookup_insert. split; [reflexivity|]. rewrite Et'. apply tabof_elem. exact Hbt'.
    + destruct (decide (b ∈ t)) as [Hbt|Hbt]; [rewrite (O2 b Hbt Hbt') in Hb; destruct Hb; discriminate|]. rewrite (O1 b Hbt Hbt') in Hb.
      destruct (W3 b Hb) as (id2 & q2 & Hq2 & Hb2). exists id2, q2. rewrite Hobj, lookup_insert_ne; [auto|]. intros <-. rewrite Hq in Hq2. injection Hq2 as <-.
      apply Hbt, tabof_elem. rewrite <- Et. exact Hb2.
  - exact Hk.
Qed.

(** ** Room for one more element *)
Lemma init_ok st id q : d_obj st !! id = Some q -> q_tab q = [] -> q_cap q = 0 -> keys_below (d_blk st) (d_fresh st) ->
  exists st' q' t', dq_init N id st = Ok (tt, st') /\ d_obj st' = <[id := q']> (d_obj st) /\ rdy_ok N (d_blk st') id [] q' t' N /\ length t' = 2 /\
    own_step (d_blk st) (d_blk st') [] t' /\ keys_below (d_blk st') (d_fresh st').
Proof.
  intros Hq Et Ec Hk. set (f := d_fresh st).
  set (st' := DSt (<[S f := replicate N None]> (<[f := replicate N None]> (d_blk st))) (S (S f)) (tal_block N (tal_block N (d_cnt st)))
    (<[id := DQ 0 (2 * N) [Some f; Some (S f)] (It 1 (PAt (S f) 0) (Some id)) (It 1 (PAt (S f) 0) (Some id))]> (d_obj st))).
  exists st', (DQ 0 (2 * N) [Some f; Some (S f)] (It 1 (PAt (S f) 0) (Some id)) (It 1 (PAt (S f) 0) (Some id))), [f; S f].
  split; [|split; [reflexivity|]]; [|split; [|split; [reflexivity|split]]].
  - unfold dq_init. rewrite (bind_ok _ _ _ _ _ (q_get_ok _ _ _ Hq)). rewrite Et, Ec. cbn [length Nat.eqb andb dassert]. rewrite bind_ret. unfold new_arr, bind. cbn [d_fresh d_blk d_obj].
    erewrite q_put_ok by exact Hq. reflexivity.
  - unfold rdy_ok. cbn [q_tab q_size q_cap q_beg q_end length]. split; [reflexivity|]. split; [reflexivity|]. split; [reflexivity|].
    split; [apply NoDup_cons_2; [rewrite elem_of_list_singleton; lia|apply NoDup_singleton]|]. split; [lia|].
    assert (Hat : at_pos N id [f; S f] N (It 1 (PAt (S f) 0) (Some id))) by (exists (S f), 0; cbn [i_map i_cur i_tab]; repeat split; simpl; lia).
    split; [exact Hat|]. split; [rewrite Nat.add_0_r; exact Hat|].
    assert (Hrep : forall j, replicate N None = blockat N N (@nil A) j).
    { intros j. apply list_eq. intros o. destruct (decide (o < N)) as [Ho|Ho].
      - rewrite lookup_replicate_2, blockat_lookup by exact Ho. f_equal. unfold cellval. destruct (_ <? _); reflexivity.
      - rewrite !lookup_ge_None_2; [reflexivity|rewrite blockat_length; lia|rewrite replicate_length; lia]. }
    intros [|[|j]] b Hb; cbn in Hb; try discriminate; injection Hb as <-; simpl.
    + rewrite lookup_insert_ne, lookup_insert by lia. f_equal. apply Hrep.
    + rewrite lookup_insert. f_equal. apply Hrep.
  - split; [|split].
    + intros b _ Hb. rewrite !elem_of_cons, elem_of_nil in Hb. unfold st'. cbn [d_blk]. rewrite !lookup_insert_ne by (intros <-; apply Hb; auto). reflexivity.
    + intros b Hb. inversion Hb.
    + intros b Hb _. destruct (d_blk st !! b) eqn:E; [|reflexivity]. exfalso. assert (b < f) by (apply Hk; eauto). rewrite !elem_of_cons, elem_of_nil in Hb. destruct Hb as [->|[->|[]]]; lia.
  - intros b Hb. unfold st' in *. cbn [d_blk d_fresh] in *. destruct (decide (b = S f)) as [->|H1]; [lia|]. destruct (decide (b = f)) as [->|H2]; [lia|].
    rewrite !lookup_insert_ne in Hb by congruence. apply Hk in Hb. fold f in Hb. lia.
Qed.

Lemma own_refl (H : heap) t : own_step H H t t.
Proof. split; [reflexivity|]. split; intros; contradiction. Qed.
Lemma own_inside (H H' H2 : heap) t t' : own_step H H' t t' -> (forall b, b ∉ t' -> H2 !! b = H' !! b) -> own_step H H2 t t'.
Proof.
  intros (O1 & O2 & O3) Hi. split; [|split; [|exact O3]].
  - intros b Hb Hb'. rewrite Hi by exact Hb'. apply O1; assumption.
  - intros b Hb Hb'. rewrite Hi by exact Hb'. apply O2; assumption.
Qed.

Lemma last_tab t b : t !! (length t - 1) = Some b -> last (tabof t) = Some (Some b).
Proof. intros H. rewrite last_lookup, tabof_length, tabof_lookup. replace (pred (length t)) with (length t - 1) by lia. rewrite H. reflexivity. Qed.

Lemma room_back_gen st id tid l q t p : d_obj st !! id = Some q -> rdy_ok N (d_blk st) tid l q t p -> keys_below (d_blk st) (d_fresh st) ->
  exists st' q' t' p', room_back N id st = Ok (tt, st') /\ d_obj st' = <[id := q']> (d_obj st) /\
    rdy_ok N (d_blk st') tid l q' t' p' /\ own_step (d_blk st) (d_blk st') t t' /\ keys_below (d_blk st') (d_fresh st') /\ p' + length l < length t' * N /\
    ((st' = st /\ q' = q /\ t' = t /\ p' = p) \/ (p + length l = length t * N /\ length t' = 2 * length t /\ kept N t p (length l) t' p' /\ roomy N t' p' (length l))).
Proof.
  intros Hq Hr Hk. unfold room_back. rewrite (bind_ok _ _ _ _ _ (q_get_ok _ _ _ Hq)).
  pose proof Hr as (Et & Esz & Ecap & Hnd & HB & Hbeg & Hend & Hhold).
  assert (HBN : 2 * N <= length t * N) by (apply Nat.mul_le_mono_r; lia).
  rewrite (proj2 (Nat.eqb_neq (q_cap q) 0)) by lia.
  destruct (lookup_lt_is_Some_2 t (length t - 1)) as [bl Hbl]; [lia|]. rewrite Et, (last_tab _ _ Hbl). cbn [arr_end]. rewrite bind_ret.
  pose proof Hend as (be & oe & Hte & Hce & Htabe & Ee & Hoe). rewrite Hce. cbn [rd]. rewrite bind_ret. rewrite <- Hce.
  assert (Hat : at_pos N tid t (length t * N) (It (length t - 1) (PAt bl N) (Some tid))).
  { exists bl, N. cbn [i_map i_cur i_tab]. split; [exact Hbl|]. split; [reflexivity|]. split; [reflexivity|]. split; [|right; split; lia]. rewrite Nat.mul_sub_distr_r. lia. }
  pose proof (at_pos_eqp N HN _ _ _ _ _ _ _ Hnd Hend Hat) as Heq. cbn [i_cur] in Heq. rewrite Heq. clear Heq.
  destruct (Nat.eqb_spec (p + length l) (length t * N)) as [E|E].
  + destruct (resize_gen N HN st id tid l q t p Hq Hr Hk (or_intror E)) as (st' & q' & t' & p' & R & Hobj & Hr' & Hlen & Ho & Hk' & Hp & Hroom & Hkeep & Hspace).
    exists st', q', t', p'. repeat (split; [assumption|]). right. auto.
  + exists st, q, t, p. split; [reflexivity|]. split; [rewrite insert_id by exact Hq; reflexivity|]. split; [exact Hr|]. split; [apply own_refl|]. split; [exact Hk|].
    split; [|left; auto]. pose proof (at_pos_le N HN _ _ _ _ Hend). lia.
Qed.
Lemma room_front_gen st id tid l q t p : d_obj st !! id = Some q -> rdy_ok N (d_blk st) tid l q t p -> keys_below (d_blk st) (d_fresh st) ->
  exists st' q' t' p', room_front N id st = Ok (tt, st') /\ d_obj st' = <[id := q']> (d_obj st) /\
    rdy_ok N (d_blk st') tid l q' t' p' /\ own_step (d_blk st) (d_blk st') t t' /\ keys_below (d_blk st') (d_fresh st') /\ 0 < p' /\
    ((st' = st /\ q' = q /\ t' = t /\ p' = p) \/ (p = 0 /\ length t' = 2 * length t /\ kept N t p (length l) t' p' /\ roomy N t' p' (length l))).
Proof.
  intros Hq Hr Hk. unfold room_front. rewrite (bind_ok _ _ _ _ _ (q_get_ok _ _ _ Hq)).
  pose proof Hr as (Et & Esz & Ecap & Hnd & HB & Hbeg & Hend & Hhold).
  assert (HBN : 2 * N <= length t * N) by (apply Nat.mul_le_mono_r; lia).
  rewrite (proj2 (Nat.eqb_neq (q_cap q) 0)) by lia.
  destruct (lookup_lt_is_Some_2 t 0) as [bl Hbl]; [lia|]. rewrite Et.
  rewrite (bind_ok _ _ _ _ _ (tab_at_ok _ _ _ (Some bl) ltac:(rewrite tabof_lookup, Hbl; reflexivity))). cbn [arr_begin]. rewrite bind_ret.
  pose proof Hbeg as (be & oe & Hte & Hce & Htabe & Ee & Hoe). rewrite Hce. cbn [rd]. rewrite bind_ret. rewrite <- Hce.
  assert (Hat : at_pos N tid t 0 (It 0 (PAt bl 0) (Some tid))).
  { exists bl, 0. cbn [i_map i_cur i_tab]. split; [exact Hbl|]. split; [reflexivity|]. split; [reflexivity|]. split; [reflexivity|left; exact HN]. }
  pose proof (at_pos_eqp N HN _ _ _ _ _ _ _ Hnd Hbeg Hat) as Heq. cbn [i_cur] in Heq. rewrite Heq. clear Heq.
  destruct (Nat.eqb_spec p 0) as [E|E].
  + destruct (resize_gen N HN st id tid l q t p Hq Hr Hk (or_introl E)) as (st' & q' & t' & p' & R & Hobj & Hr' & Hlen & Ho & Hk' & Hp & Hroom & Hkeep & Hspace).
    exists st', q', t', p'. repeat (split; [assumption|]). right. auto.
  + exists st, q, t, p. split; [reflexivity|]. split; [rewrite insert_id by exact Hq; reflexivity|]. split; [exact Hr|]. split; [apply own_refl|]. split; [exact Hk|].
    split; [lia|left; auto].
Qed.

Definition grown (t t' : list nat) : Prop := length t' = length t \/ length t' = 2 * length t \/ (length t = 0 /\ length t' = 2).

(** ** Pushes *)
Lemma push_back_at st id l q t x st1 q1 t1 p1 : d_obj st !! id = Some q -> room_back N id st = Ok (tt, st1) -> d_obj st1 = <[id := q1]> (d_obj st) ->
  rdy_ok N (d_blk st1) id l q1 t1 p1 -> own_step (d_blk st) (d_blk st1) t t1 -> keys_below (d_blk st1) (d_fresh st1) -> p1 + length l < length t1 * N ->
  exists st' q', dq_push_back N id x st = Ok (tt, st') /\ d_obj st' = <[id := q']> (d_obj st) /\
    rdy_ok N (d_blk st') id (l ++ [x]) q' t1 p1 /\ own_step (d_blk st) (d_blk st') t t1 /\ keys_below (d_blk st') (d_fresh st').
Proof.
  intros Hq R Hobj Hr Ho Hk1 Hroom. rename p1 into p.
  destruct Hr as (Et & Esz & Ecap & Hnd & HB & Hbeg & Hend & Hhold).
  unfold dq_push_back. rewrite (bind_ok _ _ _ _ _ R). assert (Hq1 : d_obj st1 !! id = Some q1) by (rewrite Hobj; apply lookup_insert).
  rewrite (bind_ok _ _ _ _ _ (q_get_ok _ _ _ Hq1)).
  destruct (cell_construct_ok N HN st1 id t1 p l p (l ++ [x]) (p + length l) (q_end q1) x Hhold Hnd Hend Hroom) as (H2 & R2 & Hhold2 & Hfr & Hsome).
  { apply (cellval_out N HN). right. lia. }
  { rewrite cellval_in by lia. replace (p + length l - p) with (length l) by lia. rewrite lookup_app_r, Nat.sub_diag by lia. reflexivity. }
  { intros k Hne. unfold cellval. destruct (Nat.ltb_spec k p); [reflexivity|]. destruct (Nat.lt_ge_cases (k - p) (length l)); [rewrite lookup_app_l by lia; reflexivity|].
    rewrite !lookup_ge_None_2; [reflexivity|lia|rewrite app_length; simpl; lia]. }
  rewrite (bind_ok _ _ _ _ _ R2).
  destruct (it_next_ok N HN (DSt H2 (d_fresh st1) (tal_in (d_cnt st1)) (d_obj st1)) id q1 t1 _ _ Hq1 Et Hnd Hend Hroom) as (e' & R3 & He'). rewrite (bind_ok _ _ _ _ _ R3).
  erewrite q_put_ok by exact Hq1. cbn [d_blk d_fresh d_obj]. rewrite Hobj, insert_insert.
  eexists _, _. split; [reflexivity|]. split; [reflexivity|]. cbn [d_blk d_fresh].
  split; [|split; [eapply own_inside; eassumption|intros b Hb; apply Hk1, Hsome, Hb]].
  unfold rdy_ok. cbn [q_tab q_size q_cap q_beg q_end]. rewrite app_length. cbn [length]. repeat (split; [first [assumption|lia]|]). split; [|exact Hhold2].
  replace (p + (length l + 1)) with (S (p + length l)) by lia. exact He'.
Qed.
Lemma push_front_at st id l q t x st1 q1 t1 p1 : d_obj st !! id = Some q -> room_front N id st = Ok (tt, st1) -> d_obj st1 = <[id := q1]> (d_obj st) ->
  rdy_ok N (d_blk st1) id l q1 t1 p1 -> own_step (d_blk st) (d_blk st1) t t1 -> keys_below (d_blk st1) (d_fresh st1) -> 0 < p1 ->
  exists st' q', dq_push_front N id x st = Ok (tt, st') /\ d_obj st' = <[id := q']> (d_obj st) /\
    rdy_ok N (d_blk st') id (x :: l) q' t1 (pred p1) /\ own_step (d_blk st) (d_blk st') t t1 /\ keys_below (d_blk st') (d_fresh st').
Proof.
  intros Hq R Hobj Hr Ho Hk1 Hroom. rename p1 into p.
  destruct Hr as (Et & Esz & Ecap & Hnd & HB & Hbeg & Hend & Hhold). destruct p as [|p]; [lia|]. cbn [pred].
  unfold dq_push_front. rewrite (bind_ok _ _ _ _ _ R). assert (Hq1 : d_obj st1 !! id = Some q1) by (rewrite Hobj; apply lookup_insert).
  rewrite (bind_ok _ _ _ _ _ (q_get_ok _ _ _ Hq1)).
  destruct (it_prev_ok N HN st1 id q1 t1 _ _ Hq1 Et Hnd Hbeg) as (b' & R3 & Hb'). rewrite (bind_ok _ _ _ _ _ R3).
  assert (Hlt : p < length t1 * N) by (pose proof (at_pos_le N HN _ _ _ _ Hbeg); lia).
  destruct (cell_construct_ok N HN st1 id t1 (S p) l p (x :: l) p b' x Hhold Hnd Hb' Hlt) as (H2 & R2 & Hhold2 & Hfr & Hsome).
  { apply (cellval_out N HN). left. lia. }
  { rewrite cellval_in by lia. rewrite Nat.sub_diag. reflexivity. }
  { intros k Hne. unfold cellval. destruct (Nat.ltb_spec k p), (Nat.ltb_spec k (S p)); try lia; [reflexivity|]. replace (k - p) with (S (k - S p)) by lia. reflexivity. }
  rewrite (bind_ok _ _ _ _ _ R2).
  erewrite q_put_ok by exact Hq1. cbn [d_blk d_fresh d_obj]. rewrite Hobj, insert_insert.
  eexists _, _. split; [reflexivity|]. split; [reflexivity|]. cbn [d_blk d_fresh].
  split; [|split; [eapply own_inside; eassumption|intros b Hb; apply Hk1, Hsome, Hb]].
  unfold rdy_ok. cbn [q_tab q_size q_cap q_beg q_end length]. repeat (split; [first [assumption|lia]|]). split; [|exact Hhold2].
  replace (p + S (length l)) with (S p + length l) by lia. exact Hend.
Qed.
(** From a deque with storage: the content stays in its cells; only when that end
    of the table is reached is the table doubled. *)
Lemma push_back_rdy st id l q t p x : d_obj st !! id = Some q -> rdy_ok N (d_blk st) id l q t p -> keys_below (d_blk st) (d_fresh st) ->
  exists st' q' t' p', dq_push_back N id x st = Ok (tt, st') /\ d_obj st' = <[id := q']> (d_obj st) /\
    rdy_ok N (d_blk st') id (l ++ [x]) q' t' p' /\ own_step (d_blk st) (d_blk st') t t' /\ keys_below (d_blk st') (d_fresh st') /\ p' + length l < length t' * N /\
    ((t' = t /\ p' = p) \/ (p + length l = length t * N /\ length t' = 2 * length t /\ kept N t p (length l) t' p' /\ roomy N t' p' (length l))).
Proof.
  intros Hq Hr Hk. destruct (room_back_gen _ _ _ _ _ _ _ Hq Hr Hk) as (st1 & q1 & t1 & p1 & R & Hobj & Hr1 & Ho & Hk1 & Hroom & Hg).
  destruct (push_back_at _ _ _ _ _ x _ _ _ _ Hq R Hobj Hr1 Ho Hk1 Hroom) as (st' & q' & R' & Hobj' & Hr' & Ho' & Hk').
  exists st', q', t1, p1. repeat (split; [assumption|]). destruct Hg as [(_ & _ & -> & ->)|Hg]; [left; auto|right; exact Hg].
Qed.
(** From a deque without storage. *)
Lemma push_back_first st id q x : d_obj st !! id = Some q -> dqok (d_blk st) id [] false q [] -> keys_below (d_blk st) (d_fresh st) ->
  exists st' q' t', dq_push_back N id x st = Ok (tt, st') /\ d_obj st' = <[id := q']> (d_obj st) /\
    rdy_ok N (d_blk st') id [x] q' t' (N) /\ own_step (d_blk st) (d_blk st') [] t' /\ keys_below (d_blk st') (d_fresh st') /\ length t' = 2.
Proof.
  intros Hq (_ & _ & Et & Esz & Ecap) Hk. destruct (init_ok _ _ _ Hq Et Ecap Hk) as (st1 & q1 & t1 & R & Hobj & Hr & Hlen & Ho & Hk1).
  destruct (push_back_at st id [] q [] x st1 q1 t1 N Hq) as (st' & q' & R' & Hobj' & Hr' & Ho' & Hk'); try assumption.
  - unfold room_back. rewrite (bind_ok _ _ _ _ _ (q_get_ok _ _ _ Hq)). rewrite Ecap, Et. cbn [length Nat.eqb dassert]. rewrite bind_ret. exact R.
  - cbn [length]. rewrite Hlen. lia.
  - exists st', q', t1. repeat (split; [assumption|]). exact Hlen.
Qed.
Lemma push_back_ok st id l r q t x : d_obj st !! id = Some q -> dqok (d_blk st) id l r q t -> keys_below (d_blk st) (d_fresh st) ->
  exists st' q' t', dq_push_back N id x st = Ok (tt, st') /\ d_obj st' = <[id := q']> (d_obj st) /\
    dqok (d_blk st') id (l ++ [x]) true q' t' /\ own_step (d_blk st) (d_blk st') t t' /\ keys_below (d_blk st') (d_fresh st') /\ grown t t'.
Proof.
  intros Hq Hd Hk. destruct r.
  - destruct Hd as (p & Hr). destruct (push_back_rdy _ _ _ _ _ _ x Hq Hr Hk) as (st' & q' & t' & p' & R & Hobj & Hr' & Ho & Hk' & _ & Hg).
    exists st', q', t'. repeat (split; [assumption|]). split; [eexists; exact Hr'|]. split; [exact Ho|]. split; [exact Hk'|].
    destruct Hg as [(-> & _)|(_ & E & _)]; [left; reflexivity|right; left; exact E].
  - pose proof Hd as (-> & -> & _). destruct (push_back_first _ _ _ x Hq Hd Hk) as (st' & q' & t' & R & Hobj & Hr' & Ho & Hk' & E).
    exists st', q', t'. repeat (split; [assumption|]). split; [eexists; exact Hr'|]. split; [exact Ho|]. split; [exact Hk'|]. right. right. auto.
Qed.
(** From a deque with storage: the content stays in its cells; only when that end
    of the table is reached is the table doubled. *)
Lemma push_front_rdy st id l q t p x : d_obj st !! id = Some q -> rdy_ok N (d_blk st) id l q t p -> keys_below (d_blk st) (d_fresh st) ->
  exists st' q' t' p', dq_push_front N id x st = Ok (tt, st') /\ d_obj st' = <[id := q']> (d_obj st) /\
    rdy_ok N (d_blk st') id (x :: l) q' t' (pred p') /\ own_step (d_blk st) (d_blk st') t t' /\ keys_below (d_blk st') (d_fresh st') /\ 0 < p' /\
    ((t' = t /\ p' = p) \/ (p = 0 /\ length t' = 2 * length t /\ kept N t p (length l) t' p' /\ roomy N t' p' (length l))).
Proof.
  intros Hq Hr Hk. destruct (room_front_gen _ _ _ _ _ _ _ Hq Hr Hk) as (st1 & q1 & t1 & p1 & R & Hobj & Hr1 & Ho & Hk1 & Hroom & Hg).
  destruct (push_front_at _ _ _ _ _ x _ _ _ _ Hq R Hobj Hr1 Ho Hk1 Hroom) as (st' & q' & R' & Hobj' & Hr' & Ho' & Hk').
  exists st', q', t1, p1. repeat (split; [assumption|]). destruct Hg as [(_ & _ & -> & ->)|Hg]; [left; auto|right; exact Hg].
Qed.
(** From a deque without storage. *)
Lemma push_front_first st id q x : d_obj st !! id = Some q -> dqok (d_blk st) id [] false q [] -> keys_below (d_blk st) (d_fresh st) ->
  exists st' q' t', dq_push_front N id x st = Ok (tt, st') /\ d_obj st' = <[id := q']> (d_obj st) /\
    rdy_ok N (d_blk st') id [x] q' t' (pred N) /\ own_step (d_blk st) (d_blk st') [] t' /\ keys_below (d_blk st') (d_fresh st') /\ length t' = 2.
Proof.
  intros Hq (_ & _ & Et & Esz & Ecap) Hk. destruct (init_ok _ _ _ Hq Et Ecap Hk) as (st1 & q1 & t1 & R & Hobj & Hr & Hlen & Ho & Hk1).
  destruct (push_front_at st id [] q [] x st1 q1 t1 N Hq) as (st' & q' & R' & Hobj' & Hr' & Ho' & Hk'); try assumption.
  - unfold room_front. rewrite (bind_ok _ _ _ _ _ (q_get_ok _ _ _ Hq)). rewrite Ecap, Et. cbn [length Nat.eqb dassert]. rewrite bind_ret. exact R.

  - exists st', q', t1. repeat (split; [assumption|]). exact Hlen.
Qed.
Lemma push_front_ok st id l r q t x : d_obj st !! id = Some q -> dqok (d_blk st) id l r q t -> keys_below (d_blk st) (d_fresh st) ->
  exists st' q' t', dq_push_front N id x st = Ok (tt, st') /\ d_obj st' = <[id := q']> (d_obj st) /\
    dqok (d_blk st') id (x :: l) true q' t' /\ own_step (d_blk st) (d_blk st') t t' /\ keys_below (d_blk st') (d_fresh st') /\ grown t t'.
Proof.
  intros Hq Hd Hk. destruct r.
  - destruct Hd as (p & Hr). destruct (push_front_rdy _ _ _ _ _ _ x Hq Hr Hk) as (st' & q' & t' & p' & R & Hobj & Hr' & Ho & Hk' & _ & Hg).
    exists st', q', t'. repeat (split; [assumption|]). split; [eexists; exact Hr'|]. split; [exact Ho|]. split; [exact Hk'|].
    destruct Hg as [(-> & _)|(_ & E & _)]; [left; reflexivity|right; left; exact E].
  - pose proof Hd as (-> & -> & _). destruct (push_front_first _ _ _ x Hq Hd Hk) as (st' & q' & t' & R & Hobj & Hr' & Ho & Hk' & E).
    exists st', q', t'. repeat (split; [assumption|]). split; [eexists; exact Hr'|]. split; [exact Ho|]. split; [exact Hk'|]. right. right. auto.
Qed.

(** ** Pops: the shrink check never shrinks *)
Lemma shrink_ok st id l q t p : d_obj st !! id = Some q -> rdy_ok N (d_blk st) id l q t p -> shrink N id st = Ok (tt, st).
Proof.
  intros Hq (Et & Esz & Ecap & Hnd & HB & Hbeg & Hend & Hhold). unfold shrink. rewrite (bind_ok _ _ _ _ _ (q_get_ok _ _ _ Hq)).
  rewrite Et, tabof_length. destruct (Nat.leb_spec (q_size q) (q_cap q / 3)) as [Hs|Hs]; [|reflexivity]. destruct (Nat.ltb_spec 2 (length t)) as [Hl|Hl]; [|reflexivity]. cbn [andb].
  unfold dq_resize. rewrite (bind_ok _ _ _ _ _ (q_get_ok _ _ _ Hq)).
  assert (HBN : 2 * N <= length t * N) by (apply Nat.mul_le_mono_r; lia).
  assert (Hext : (q_cap q <? q_cap q / 2) = false) by (apply Nat.ltb_ge; apply Nat.div_le_upper_bound; lia). rewrite Hext. cbn [negb andb].
  assert (Hdiv : q_cap q / 2 / N = length t / 2).
  { rewrite Ecap, Nat.div_div by lia. rewrite (Nat.mul_comm 2 N), <- Nat.div_div by lia. rewrite Nat.div_mul by lia. reflexivity. }
  rewrite Hdiv.
  destruct Hbeg as (bb & ob & Htb & Hcb & _ & Ep & Hob). destruct Hend as (be & oe & Hte & Hce & _ & Ee & Hoe).
  set (s := i_map (q_beg q)) in *. set (e := i_map (q_end q)) in *.
  assert (He : e - s <= length t / 2); [|rewrite (proj2 (Nat.leb_le _ _) He); reflexivity].
  apply lookup_lt_Some in Hte, Htb. rewrite Esz, Ecap in Hs.
  assert (H3 : 3 * length l <= length t * N) by (pose proof (Nat.mul_div_le (length t * N) 3); lia).
  destruct (Nat.le_gt_cases e s) as [Hes|Hes]; [lia|].
  assert (Hk : (e - s) * N = e * N - s * N) by apply Nat.mul_sub_distr_r.
  assert (Hk2 : s * N <= e * N) by (apply Nat.mul_le_mono_r; lia).
  assert (Hob2 : ob < N) by (destruct Hob as [Hob|[-> Hb]]; [exact Hob|lia]).
  assert (Hm : (3 * (e - s)) * N < (length t + 3) * N) by lia. apply Nat.mul_lt_mono_pos_r in Hm; [|exact HN].
  apply Nat.div_le_lower_bound; [lia|]. lia.
Qed.

Lemma pop_front_rdy st id x l q t p : d_obj st !! id = Some q -> rdy_ok N (d_blk st) id (x :: l) q t p -> keys_below (d_blk st) (d_fresh st) ->
  exists st' q', dq_pop_front N id st = Ok (tt, st') /\ d_obj st' = <[id := q']> (d_obj st) /\
    rdy_ok N (d_blk st') id l q' t (S p) /\ own_step (d_blk st) (d_blk st') t t /\ keys_below (d_blk st') (d_fresh st').
Proof.
  intros Hq (Et & Esz & Ecap & Hnd & HB & Hbeg & Hend & Hhold) Hk.
  pose proof (at_pos_le N HN _ _ _ _ Hend) as Hle. cbn [length] in *.
  unfold dq_pop_front. rewrite (bind_ok _ _ _ _ _ (q_get_ok _ _ _ Hq)).
  destruct (cell_destroy_ok N HN st id t p (x :: l) (S p) l p (q_beg q) x Hhold Hnd Hbeg) as (H2 & R2 & Hhold2 & Hfr & Hsome); [lia| | | |].
  { rewrite cellval_in by lia. rewrite Nat.sub_diag. reflexivity. }
  { apply (cellval_out N HN). left. lia. }
  { intros k Hne. unfold cellval. destruct (Nat.ltb_spec k p), (Nat.ltb_spec k (S p)); try lia; [reflexivity|]. replace (k - p) with (S (k - S p)) by lia. reflexivity. }
  rewrite (bind_ok _ _ _ _ _ R2).
  destruct (it_next_ok N HN (DSt H2 (d_fresh st) (tal_out (d_cnt st)) (d_obj st)) id q t _ _ Hq Et Hnd Hbeg) as (b' & R3 & Hb'); [lia|]. rewrite (bind_ok _ _ _ _ _ R3).
  erewrite bind_ok by (eapply q_put_ok; exact Hq). cbn [d_blk d_fresh d_obj].
  set (q' := DQ (pred (q_size q)) (q_cap q) (q_tab q) b' (q_end q)).
  assert (Hr' : rdy_ok N H2 id l q' t (S p)).
  { unfold rdy_ok, q'. cbn [q_tab q_size q_cap q_beg q_end]. repeat (split; [first [assumption|lia]|]). split; [|exact Hhold2].
    replace (S p + length l) with (p + S (length l)) by lia. exact Hend. }
  rewrite (shrink_ok _ id l q' t (S p)); [|apply lookup_insert|exact Hr'].
  eexists _, q'. split; [reflexivity|]. split; [reflexivity|]. split; [exact Hr'|]. cbn [d_blk d_fresh].
  split; [eapply own_inside; [apply own_refl|exact Hfr]|intros b Hb; apply Hk, Hsome, Hb].
Qed.
Lemma pop_front_ok st id x l r q t : d_obj st !! id = Some q -> dqok (d_blk st) id (x :: l) r q t -> keys_below (d_blk st) (d_fresh st) ->
  exists st' q', dq_pop_front N id st = Ok (tt, st') /\ d_obj st' = <[id := q']> (d_obj st) /\
    r = true /\ dqok (d_blk st') id l true q' t /\ own_step (d_blk st) (d_blk st') t t /\ keys_below (d_blk st') (d_fresh st').
Proof.
  intros Hq Hd Hk. destruct r; [|destruct Hd as [E _]; discriminate]. destruct Hd as (p & Hr).
  destruct (pop_front_rdy _ _ _ _ _ _ _ Hq Hr Hk) as (st' & q' & R & Hobj & Hr' & Ho & Hk'). exists st', q'. repeat (split; [first [assumption|reflexivity]|]).
  split; [eexists; exact Hr'|]. auto.
Qed.
Lemma pop_back_rdy st id x l q t p : d_obj st !! id = Some q -> rdy_ok N (d_blk st) id (l ++ [x]) q t p -> keys_below (d_blk st) (d_fresh st) ->
  exists st' q', dq_pop_back N id st = Ok (tt, st') /\ d_obj st' = <[id := q']> (d_obj st) /\
    rdy_ok N (d_blk st') id l q' t p /\ own_step (d_blk st) (d_blk st') t t /\ keys_below (d_blk st') (d_fresh st').
Proof.
  intros Hq (Et & Esz & Ecap & Hnd & HB & Hbeg & Hend & Hhold) Hk.
  pose proof (at_pos_le N HN _ _ _ _ Hend) as Hle. rewrite app_length in *. cbn [length] in *. replace (p + (length l + 1)) with (S (p + length l)) in * by lia.
  unfold dq_pop_back. rewrite (bind_ok _ _ _ _ _ (q_get_ok _ _ _ Hq)).
  destruct (it_prev_ok N HN st id q t _ _ Hq Et Hnd Hend) as (e' & R3 & He'). rewrite (bind_ok _ _ _ _ _ R3).
  erewrite bind_ok by (eapply q_put_ok; exact Hq).
  set (q' := DQ (pred (q_size q)) (q_cap q) (q_tab q) (q_beg q) e').
  set (st1 := DSt (d_blk st) (d_fresh st) (d_cnt st) (<[id := q']> (d_obj st))).
  destruct (cell_destroy_ok N HN st1 id t p (l ++ [x]) p l (p + length l) e' x Hhold Hnd He') as (H2 & R2 & Hhold2 & Hfr & Hsome); [lia| | | |].
  { rewrite cellval_in by lia. replace (p + length l - p) with (length l) by lia. rewrite lookup_app_r, Nat.sub_diag by lia. reflexivity. }
  { apply (cellval_out N HN). right. lia. }
  { intros k Hne. unfold cellval. destruct (Nat.ltb_spec k p); [reflexivity|]. destruct (Nat.lt_ge_cases (k - p) (length l)); [rewrite lookup_app_l by lia; reflexivity|].
    rewrite !lookup_ge_None_2; [reflexivity|rewrite app_length; simpl; lia|lia]. }
  rewrite (bind_ok _ _ _ _ _ R2).
  assert (Hr' : rdy_ok N H2 id l q' t p).
  { unfold rdy_ok, q'. cbn [q_tab q_size q_cap q_beg q_end]. repeat (split; [first [assumption|lia]|]). exact Hhold2. }
  rewrite (shrink_ok _ id l q' t p); [|apply lookup_insert|exact Hr'].
  eexists _, q'. split; [reflexivity|]. split; [reflexivity|]. split; [exact Hr'|]. cbn [d_blk d_fresh].
  split; [eapply own_inside; [apply own_refl|exact Hfr]|intros b Hb; apply Hk, Hsome, Hb].
Qed.
Lemma pop_back_ok st id x l r q t : d_obj st !! id = Some q -> dqok (d_blk st) id (l ++ [x]) r q t -> keys_below (d_blk st) (d_fresh st) ->
  exists st' q', dq_pop_back N id st = Ok (tt, st') /\ d_obj st' = <[id := q']> (d_obj st) /\
    r = true /\ dqok (d_blk st') id l true q' t /\ own_step (d_blk st) (d_blk st') t t /\ keys_below (d_blk st') (d_fresh st').
Proof.
  intros Hq Hd Hk. destruct r; [|destruct Hd as [E _]; destruct l; discriminate]. destruct Hd as (p & Hr).
  destruct (pop_back_rdy _ _ _ _ _ _ _ Hq Hr Hk) as (st' & q' & R & Hobj & Hr' & Ho & Hk'). exists st', q'. repeat (split; [first [assumption|reflexivity]|]).
  split; [eexists; exact Hr'|]. auto.
Qed.

(** ** clear *)
Lemma clear_elems_ok id q t : q_tab q = tabof t -> NoDup t -> forall l fuel st p b e, d_obj st !! id = Some q -> holds N (d_blk st) t p l ->
  at_pos N id t p b -> at_pos N id t (p + length l) e -> length l <= fuel ->
  exists H' n, clear_elems N fuel b e st = Ok (tt, DSt H' (d_fresh st) n (d_obj st)) /\
    (forall b, b ∉ t -> H' !! b = d_blk st !! b) /\ (exists p', holds N H' t p' []).
Proof.
  intros Et Hnd. induction l as [|x l IH]; intros fuel st p b e Hq Hhold Hb He Hf.
  - cbn [length] in *. rewrite Nat.add_0_r in He. pose proof (at_pos_eqp N HN _ _ _ _ _ _ _ Hnd Hb He) as Heq. rewrite Nat.eqb_refl in Heq.
    exists (d_blk st), (d_cnt st). split; [destruct fuel; simpl; rewrite Heq; destruct st; reflexivity|]. split; [reflexivity|]. exists p. exact Hhold.
  - cbn [length] in *. pose proof (at_pos_eqp N HN _ _ _ _ _ _ _ Hnd Hb He) as Heq. rewrite (proj2 (Nat.eqb_neq p (p + S (length l)))) in Heq by lia.
    destruct fuel as [|fuel]; [lia|]. cbn [clear_elems]. rewrite Heq.
    pose proof (at_pos_le N HN _ _ _ _ He) as Hle.
    assert (Hval : cellval p (x :: l) p = Some x) by (rewrite cellval_in by lia; rewrite Nat.sub_diag; reflexivity).
    destruct (cell_destroy_ok N HN st id t p (x :: l) (S p) l p b x Hhold Hnd Hb) as (H2 & R2 & Hhold2 & Hfr & Hsome); [lia|exact Hval| | |].
    { apply (cellval_out N HN). left. lia. }
    { intros k Hne. unfold cellval. destruct (Nat.ltb_spec k p), (Nat.ltb_spec k (S p)); try lia; [reflexivity|]. replace (k - p) with (S (k - S p)) by lia. reflexivity. }
    rewrite (bind_ok _ _ _ _ _ R2).
    destruct (it_next_ok N HN (DSt H2 (d_fresh st) (tal_out (d_cnt st)) (d_obj st)) id q t _ _ Hq Et Hnd Hb) as (b' & R3 & Hb'); [lia|]. rewrite (bind_ok _ _ _ _ _ R3).
    destruct (IH fuel (DSt H2 (d_fresh st) (tal_out (d_cnt st)) (d_obj st)) (S p) b' e Hq Hhold2 Hb') as (H3 & n3 & R4 & F1 & F2); [replace (S p + length l) with (p + S (length l)) by lia; exact He|lia|].
    exists H3, n3. split; [exact R4|]. cbn [d_blk] in *. split; [|exact F2].
    intros b2 Hb2. rewrite F1 by exact Hb2. apply Hfr, Hb2.
Qed.
Lemma free_all_ok t : NoDup t -> forall st, (forall b, b ∈ t -> exists c, d_blk st !! b = Some c /\ blank c = true) ->
  exists H', free_all (tabof t) st = Ok (tt, DSt H' (d_fresh st) (d_cnt st) (d_obj st)) /\ (forall b, b ∈ t -> H' !! b = None) /\ (forall b, b ∉ t -> H' !! b = d_blk st !! b).
Proof.
  induction t as [|b t IH]; intros Hnd st Hl.
  - exists (d_blk st). split; [destruct st; reflexivity|]. split; [intros b Hb; inversion Hb|reflexivity].
  - apply NoDup_cons in Hnd as [Hn Hnd]. destruct (Hl b) as (c & Hc & Hbl); [left|]. cbn [tabof fmap list_fmap free_all].
    rewrite (bind_ok _ _ st tt (DSt (delete b (d_blk st)) (d_fresh st) (d_cnt st) (d_obj st))) by (unfold free_arr; rewrite Hc, Hbl; reflexivity).
    destruct (IH Hnd (DSt (delete b (d_blk st)) (d_fresh st) (d_cnt st) (d_obj st))) as (H' & R & F1 & F2).
    { intros b' Hb'. simpl. rewrite lookup_delete_ne by (intros ->; contradiction). apply Hl. right. exact Hb'. }
    exists H'. split; [exact R|]. simpl in F2. split.
    + intros b' Hb'. apply elem_of_cons in Hb' as [->|Hb']; [rewrite F2 by exact Hn; apply lookup_delete|apply F1, Hb'].
    + intros b' Hb'. rewrite F2 by (intros H; apply Hb'; right; exact H). apply lookup_delete_ne. intros ->. apply Hb'. left.
Qed.
Lemma clear_ok st id l r q t : d_obj st !! id = Some q -> dqok (d_blk st) id l r q t -> keys_below (d_blk st) (d_fresh st) ->
  exists st' q', dq_clear N id st = Ok (tt, st') /\ d_obj st' = <[id := q']> (d_obj st) /\
    q_beg q' = q_beg q /\ q_end q' = q_end q /\
    dqok (d_blk st') id [] false q' [] /\ own_step (d_blk st) (d_blk st') t [] /\ keys_below (d_blk st') (d_fresh st').
Proof.
  intros Hq Hd Hk. unfold dq_clear. rewrite (bind_ok _ _ _ _ _ (q_get_ok _ _ _ Hq)). destruct r.
  - destruct Hd as (p & Et & Esz & Ecap & Hnd & HB & Hbeg & Hend & Hhold).
    assert (HBN : 2 * N <= length t * N) by (apply Nat.mul_le_mono_r; lia). pose proof (at_pos_le N HN _ _ _ _ Hend) as Hle.
    destruct (q_tab q) as [|x0 T0] eqn:ET; [destruct t; [simpl in HB; lia|discriminate]|]. rewrite Et in ET |- *. clear Et x0 T0. rename ET into Et.
    rewrite (proj2 (Nat.eqb_neq (q_cap q) 0)) by lia. cbn [negb dassert]. rewrite bind_ret. unfold it_copy.
    pose proof Hbeg as (bb & ob & _ & Hcb & _). rewrite bind_assoc, Hcb. cbn [rd]. rewrite !bind_ret.
    destruct (clear_elems_ok id q t Et Hnd l (S (q_cap q)) st p (q_beg q) (q_end q) Hq Hhold Hbeg Hend) as (H1 & n1 & R1 & F1 & p' & F2); [lia|].
    rewrite (bind_ok _ _ _ _ _ R1).
    destruct (free_all_ok t Hnd (DSt H1 (d_fresh st) n1 (d_obj st))) as (H2 & R2 & G1 & G2).
    { intros b Hb. simpl. apply elem_of_list_lookup in Hb as [j Hj]. rewrite (F2 _ _ Hj). eexists. split; [reflexivity|]. apply (blank_blockat N HN). simpl. intros; lia. }
    rewrite (bind_ok _ _ _ _ _ R2). erewrite q_put_ok by exact Hq.
    eexists _, _. split; [reflexivity|]. split; [reflexivity|]. split; [reflexivity|]. split; [reflexivity|]. cbn [d_blk d_fresh] in *.
    split; [cbn [dqok q_tab q_size q_cap]; auto|]. split; [split; [|split]|].
    + intros b Hb _. rewrite G2, F1 by exact Hb. reflexivity.
    + intros b Hb _. apply G1, Hb.
    + intros b Hb. inversion Hb.
    + intros b Hb. destruct (decide (b ∈ t)) as [Hin|Hin]; [rewrite G1 in Hb by exact Hin; destruct Hb; discriminate|]. rewrite G2, F1 in Hb by exact Hin. apply Hk, Hb.
  - pose proof Hd as (-> & -> & Et & Esz & Ecap). rewrite Et. exists st, q. split; [reflexivity|]. split; [rewrite insert_id by exact Hq; reflexivity|]. split; [reflexivity|]. split; [reflexivity|].
    split; [cbn [dqok]; auto|]. split; [apply own_refl|exact Hk].
Qed.

(** ** Iteration *)
Lemma it_loop_ok {X} (body : X -> A -> M (dst A) X) id t (I : list A -> X -> dst A -> Prop) p l e :
  NoDup t -> at_pos N id t (p + length l) e ->
  (forall done acc st, I done acc st -> exists q, d_obj st !! id = Some q /\ q_tab q = tabof t /\ holds N (d_blk st) t p l) ->
  (forall done x rest acc st, l = done ++ x :: rest -> I done acc st -> exists acc' st', body acc x st = Ok (acc', st') /\ I (done ++ [x]) acc' st') ->
  forall rest done fuel st acc it, l = done ++ rest -> I done acc st -> at_pos N id t (p + length done) it -> length rest <= fuel ->
  exists acc' st', it_loop N fuel body it e acc st = Ok (acc', st') /\ I l acc' st'.
Proof.
  intros Hnd He Hsrc Hbody. induction rest as [|x rest IH]; intros done fuel st acc it El HI Hit Hf.
  - rewrite app_nil_r in El. subst done. pose proof (at_pos_eqp N HN _ _ _ _ _ _ _ Hnd Hit He) as Heq. rewrite Nat.eqb_refl in Heq.
    exists acc, st. split; [destruct fuel; simpl; rewrite Heq; reflexivity|exact HI].
  - pose proof (at_pos_eqp N HN _ _ _ _ _ _ _ Hnd Hit He) as Heq. assert (Hlen : length l = length done + S (length rest)) by (rewrite El, app_length; reflexivity).
    rewrite (proj2 (Nat.eqb_neq (p + length done) (p + length l))) in Heq by lia.
    destruct fuel as [|fuel]; [simpl in Hf; lia|]. cbn [it_loop]. rewrite Heq.
    pose proof (at_pos_le N HN _ _ _ _ He) as Hle.
    destruct (Hsrc _ _ _ HI) as (q & Hq & Et & Hh).
    assert (Hx : l !! length done = Some x) by (rewrite El, lookup_app_r, Nat.sub_diag by lia; reflexivity).
    rewrite (bind_ok _ _ _ _ _ (cell_ld_ok N HN st id t p (length done) l it x Hh Hit Hx Hle)).
    destruct (Hbody done x rest acc st El HI) as (acc1 & st1 & R1 & HI1). rewrite (bind_ok _ _ _ _ _ R1).
    destruct (Hsrc _ _ _ HI1) as (q1 & Hq1 & Et1 & Hh1).
    destruct (it_next_ok N HN st1 id q1 t _ _ Hq1 Et1 Hnd Hit) as (it' & R3 & Hit'); [lia|]. rewrite (bind_ok _ _ _ _ _ R3).
    apply (IH (done ++ [x]) fuel st1 acc1 it'); [rewrite <- app_assoc; exact El|exact HI1| |simpl in Hf; lia].
    rewrite app_length. cbn [length]. replace (p + (length done + 1)) with (S (p + length done)) by lia. exact Hit'.
Qed.
Lemma range_for_ok {X} (body : X -> A -> M (dst A) X) id q t p l st acc (I : list A -> X -> dst A -> Prop) :
  d_obj st !! id = Some q -> rdy_ok N (d_blk st) id l q t p -> I [] acc st ->
  (forall done acc st, I done acc st -> exists q, d_obj st !! id = Some q /\ q_tab q = tabof t /\ holds N (d_blk st) t p l) ->
  (forall done x rest acc st, l = done ++ x :: rest -> I done acc st -> exists acc' st', body acc x st = Ok (acc', st') /\ I (done ++ [x]) acc' st') ->
  exists acc' st', range_for N id body acc st = Ok (acc', st') /\ I l acc' st'.
Proof.
  intros Hq (Et & Esz & Ecap & Hnd & HB & Hbeg & Hend & Hhold) HI Hsrc Hbody.
  unfold range_for. rewrite (bind_ok _ _ _ _ _ (q_get_ok _ _ _ Hq)). unfold it_copy.
  pose proof Hbeg as (bb & ob & _ & Hcb & _). pose proof Hend as (be & oe & _ & Hce & _). rewrite bind_assoc, Hcb. cbn [rd]. rewrite !bind_ret. rewrite bind_assoc, Hce. cbn [rd]. rewrite !bind_ret.
  pose proof (at_pos_le N HN _ _ _ _ Hend) as Hle.
  apply (it_loop_ok body id t I p l (q_end q) Hnd Hend Hsrc Hbody l [] _ st acc (q_beg q)); [reflexivity|exact HI| |lia]. rewrite Nat.add_0_r. exact Hbeg.
Qed.
End Hist.
