(** Where calls on deques leave the content within the blocks. *)
From Verif Require Import Base VectorModel VectorSpec Adapter Hist ListModel DequeModel DequeSpec DequeProofs DequeResize DequeHist DequeHist2.

Section Geo.
Context {A : Type} (N : nat) (HN : 0 < N).
Implicit Types (st : dst A) (l : list A) (q : dq) (t : list nat) (i : diter).
Notation sw := (gmap nat (list A * bool)).
Notation winv := (winv (A := A) N).

(** The table of a deque with storage and the position of its first element. *)
Definition geom (id : nat) q t (p : nat) : Prop := q_tab q = tabof t /\ q_cap q = length t * N /\ 2 <= length t /\ at_pos N id t p (q_beg q) /\ p + q_size q <= length t * N.
Lemma geom_unique id q t p t' p' : geom id q t p -> geom id q t' p' -> t' = t /\ p' = p.
Proof.
  intros (E & _ & _ & H & _) (E' & _ & _ & H' & _). rewrite E in E'. apply tabof_inj in E'. subst t'. split; [reflexivity|]. eapply at_pos_pos; eassumption.
Qed.
Lemma rdy_geom H id l q t p : rdy_ok N H id l q t p -> geom id q t p.
Proof.
  intros (E & Es & Ec & _ & HB & Hb & He & _). repeat (split; [assumption|]). rewrite Es. apply (at_pos_le N HN) in He. exact He.
Qed.
Lemma geom_rdy H id l q t p : geom id q t p -> dqok N H id l true q t -> rdy_ok N H id l q t p.
Proof.
  intros G (p' & Hr). destruct (geom_unique _ _ _ _ _ _ G (rdy_geom _ _ _ _ _ _ Hr)) as [_ ->]. exact Hr.
Qed.
Lemma winv_rdy s st id l q t p : winv s st -> s !! id = Some (l, true) -> d_obj st !! id = Some q -> geom id q t p -> rdy_ok N (d_blk st) id l q t p.
Proof.
  intros Hw E Hq G. destruct (winv_get _ _ _ _ _ _ Hw E) as (q' & t' & Hq' & Hd). rewrite Hq in Hq'. injection Hq' as <-.
  destruct Hd as (p' & Hr). destruct (geom_unique _ _ _ _ _ _ G (rdy_geom _ _ _ _ _ _ Hr)) as [-> ->]. exact Hr.
Qed.
Lemma winv_geom s st id l : winv s st -> s !! id = Some (l, true) -> exists q t p, d_obj st !! id = Some q /\ geom id q t p /\ rdy_ok N (d_blk st) id l q t p.
Proof.
  intros Hw E. destruct (winv_get _ _ _ _ _ _ Hw E) as (q & t & Hq & p & Hr). exists q, t, p. split; [exact Hq|]. split; [eapply rdy_geom; exact Hr|exact Hr].
Qed.

(** What a push does to table and position: [full] says that it hits the end of the
    table, [p'] is where the content is before the new element comes. *)
Definition pushed_to t (p n : nat) (full : Prop) t' (p' : nat) : Prop :=
  (t' = t /\ p' = p) \/ (full /\ length t' = 2 * length t /\ kept N t p n t' p' /\ roomy N t' p' n).

Lemma push_back_geo (s : sw) st id l (r : bool) x : winv s st -> s !! id = Some (l, r) ->
  exists st' q' t' p', dq_push_back N id x st = Ok (tt, st') /\ winv (<[id := (l ++ [x], true)]> s) st' /\ d_obj st' = <[id := q']> (d_obj st) /\
    geom id q' t' p' /\ q_size q' = S (length l) /\
    (if r then exists q t p, d_obj st !! id = Some q /\ geom id q t p /\ pushed_to t p (length l) (p + length l = length t * N) t' p'
     else length t' = 2 /\ p' = N).
Proof.
  intros Hw E. pose proof (winv_keys _ _ _ Hw) as Hk. destruct r.
  - destruct (winv_geom _ _ _ _ Hw E) as (q & t & p & Hq & G & Hr).
    destruct (push_back_rdy N HN st id l q t p x Hq Hr Hk) as (st' & q' & t' & p' & R & Hobj & Hr' & Ho & Hk' & _ & Hg).
    exists st', q', t', p'. split; [exact R|]. split; [eapply lift; try eassumption; [apply G|eexists; exact Hr']|]. split; [exact Hobj|].
    split; [eapply rdy_geom; exact Hr'|]. split; [destruct Hr' as (_ & -> & _); rewrite app_length; simpl; lia|]. exists q, t, p. auto.
  - destruct (winv_get _ _ _ _ _ _ Hw E) as (q & t & Hq & Hd). pose proof Hd as (-> & -> & _).
    destruct (push_back_first N HN st id q x Hq Hd Hk) as (st' & q' & t' & R & Hobj & Hr' & Ho & Hk' & Hl).
    exists st', q', t', N. split; [exact R|]. split; [eapply lift; try eassumption; [eapply dqok_tab; exact Hd|eexists; exact Hr']|]. split; [exact Hobj|].
    split; [eapply rdy_geom; exact Hr'|]. split; [destruct Hr' as (_ & -> & _); reflexivity|]. auto.
Qed.
Lemma push_front_geo (s : sw) st id l (r : bool) x : winv s st -> s !! id = Some (l, r) ->
  exists st' q' t' p', dq_push_front N id x st = Ok (tt, st') /\ winv (<[id := (x :: l, true)]> s) st' /\ d_obj st' = <[id := q']> (d_obj st) /\
    geom id q' t' (pred p') /\ 0 < p' /\ q_size q' = S (length l) /\
    (if r then exists q t p, d_obj st !! id = Some q /\ geom id q t p /\ pushed_to t p (length l) (p = 0) t' p'
     else length t' = 2 /\ p' = N).
Proof.
  intros Hw E. pose proof (winv_keys _ _ _ Hw) as Hk. destruct r.
  - destruct (winv_geom _ _ _ _ Hw E) as (q & t & p & Hq & G & Hr).
    destruct (push_front_rdy N HN st id l q t p x Hq Hr Hk) as (st' & q' & t' & p' & R & Hobj & Hr' & Ho & Hk' & Hp & Hg).
    exists st', q', t', p'. split; [exact R|]. split; [eapply lift; try eassumption; [apply G|eexists; exact Hr']|]. split; [exact Hobj|].
    split; [eapply rdy_geom; exact Hr'|]. split; [exact Hp|]. split; [destruct Hr' as (_ & -> & _); reflexivity|]. exists q, t, p. auto.
  - destruct (winv_get _ _ _ _ _ _ Hw E) as (q & t & Hq & Hd). pose proof Hd as (-> & -> & _).
    destruct (push_front_first N HN st id q x Hq Hd Hk) as (st' & q' & t' & R & Hobj & Hr' & Ho & Hk' & Hl).
    exists st', q', t', N. split; [exact R|]. split; [eapply lift; try eassumption; [eapply dqok_tab; exact Hd|eexists; exact Hr']|]. split; [exact Hobj|].
    split; [eapply rdy_geom; exact Hr'|]. split; [exact HN|]. split; [destruct Hr' as (_ & -> & _); reflexivity|]. auto.
Qed.
Lemma nonempty_rdy s st id x l r : winv s st -> s !! id = Some (l, r) -> x ∈ l -> r = true.
Proof.
  intros Hw E Hx. destruct r; [reflexivity|]. destruct (winv_get _ _ _ _ _ _ Hw E) as (q & t & _ & -> & _). inversion Hx.
Qed.
Lemma pop_front_geo s st id x l r : winv s st -> s !! id = Some (x :: l, r) ->
  exists st' q q' t p, dq_pop_front N id st = Ok (tt, st') /\ winv (<[id := (l, r)]> s) st' /\ d_obj st' = <[id := q']> (d_obj st) /\
    d_obj st !! id = Some q /\ geom id q t p /\ geom id q' t (S p) /\ q_size q' = length l.
Proof.
  intros Hw E. pose proof (winv_keys _ _ _ Hw) as Hk. assert (r = true) as -> by (eapply nonempty_rdy; [exact Hw|exact E|left]).
  destruct (winv_geom _ _ _ _ Hw E) as (q & t & p & Hq & G & Hr).
  destruct (pop_front_rdy N HN st id x l q t p Hq Hr Hk) as (st' & q' & R & Hobj & Hr' & Ho & Hk').
  exists st', q, q', t, p. split; [exact R|]. split; [eapply lift; try eassumption; [apply G|eexists; exact Hr']|]. split; [exact Hobj|]. split; [exact Hq|]. split; [exact G|].
  split; [eapply rdy_geom; exact Hr'|]. apply Hr'.
Qed.
Lemma pop_back_geo s st id x l r : winv s st -> s !! id = Some (l ++ [x], r) ->
  exists st' q q' t p, dq_pop_back N id st = Ok (tt, st') /\ winv (<[id := (l, r)]> s) st' /\ d_obj st' = <[id := q']> (d_obj st) /\
    d_obj st !! id = Some q /\ geom id q t p /\ geom id q' t p /\ q_size q' = length l.
Proof.
  intros Hw E. pose proof (winv_keys _ _ _ Hw) as Hk. assert (r = true) as -> by (eapply (nonempty_rdy _ _ _ x); [exact Hw|exact E|apply elem_of_app; right; left]).
  destruct (winv_geom _ _ _ _ Hw E) as (q & t & p & Hq & G & Hr).
  destruct (pop_back_rdy N HN st id x l q t p Hq Hr Hk) as (st' & q' & R & Hobj & Hr' & Ho & Hk').
  exists st', q, q', t, p. split; [exact R|]. split; [eapply lift; try eassumption; [apply G|eexists; exact Hr']|]. split; [exact Hobj|]. split; [exact Hq|]. split; [exact G|].
  split; [eapply rdy_geom; exact Hr'|]. apply Hr'.
Qed.

(** ** Capacity against the number of pushes *)
Definition bal (P id : nat) q : Prop := q_cap q = 0 \/ exists t p, geom id q t p /\ q_cap q <= 8 * (P + N) /\
  2 * q_cap q <= 8 * (P + N + p) /\ 2 * q_cap q + 8 * (p + q_size q) <= 8 * (P + N) + 8 * q_cap q.
Lemma bal_mono P P' id q : bal P id q -> P <= P' -> bal P' id q.
Proof. intros [H|(t & p & G & H)] Hp; [left; exact H|right]. exists t, p. split; [exact G|]. lia. Qed.
Lemma dqok_none H id l q t : dqok N H id l false q t -> forall P, bal P id q.
Proof. intros (_ & _ & _ & _ & E) P. left. exact E. Qed.

Lemma push_back_bal s st id l r x P : winv s st -> s !! id = Some (l, r) -> (forall q, d_obj st !! id = Some q -> bal P id q) ->
  exists st', dq_push_back N id x st = Ok (tt, st') /\ winv (<[id := (l ++ [x], true)]> s) st' /\
    (forall id2, id2 <> id -> d_obj st' !! id2 = d_obj st !! id2) /\ (forall q, d_obj st' !! id = Some q -> bal (S P) id q).
Proof.
  intros Hw E Hb. destruct (push_back_geo s st id l r x Hw E) as (st' & q' & t' & p' & R & Hw' & Hobj & G' & Hs & Hg).
  exists st'. split; [exact R|]. split; [exact Hw'|]. split; [intros id2 Hne; rewrite Hobj, lookup_insert_ne by congruence; reflexivity|].
  intros q2 Hq2. rewrite Hobj, lookup_insert in Hq2. injection Hq2 as <-. right. exists t', p'. split; [exact G'|].
  destruct G' as (_ & Ec & _ & _ & Hfit). rewrite Ec, Hs in *. destruct r.
  - destruct Hg as (q & t & p & Hq & G & Hg). pose proof (Hb _ Hq) as B. destruct (winv_get _ _ _ _ _ _ Hw E) as (q0 & t0 & Hq0 & Hd0). rewrite Hq in Hq0. injection Hq0 as <-.
    pose proof (dqok_size _ _ _ _ _ _ _ Hd0) as Hsz.
    destruct B as [B|(t1 & p1 & G1 & B)]; [destruct G as (_ & Eq & HB & _); assert (2 * N <= length t * N) by (apply Nat.mul_le_mono_r; lia); lia|].
    destruct (geom_unique _ _ _ _ _ _ G G1) as [-> ->]. destruct G as (_ & Eq & HB & _ & Hf). rewrite Eq, Hsz in B. rewrite Hsz in Hf.
    destruct Hg as [(-> & ->)|(Hfull & Hlen & _ & Hr1 & Hr2)]; [lia|]. rewrite Hlen in *. replace (2 * length t * N) with (2 * (length t * N)) in * by lia. lia.
  - destruct Hg as [-> ->]. destruct (winv_get _ _ _ _ _ _ Hw E) as (q0 & t0 & _ & -> & _). cbn [length]. lia.
Qed.
Lemma push_front_bal s st id l r x P : winv s st -> s !! id = Some (l, r) -> (forall q, d_obj st !! id = Some q -> bal P id q) ->
  exists st', dq_push_front N id x st = Ok (tt, st') /\ winv (<[id := (x :: l, true)]> s) st' /\
    (forall id2, id2 <> id -> d_obj st' !! id2 = d_obj st !! id2) /\ (forall q, d_obj st' !! id = Some q -> bal (S P) id q).
Proof.
  intros Hw E Hb. destruct (push_front_geo s st id l r x Hw E) as (st' & q' & t' & p' & R & Hw' & Hobj & G' & Hp & Hs & Hg).
  exists st'. split; [exact R|]. split; [exact Hw'|]. split; [intros id2 Hne; rewrite Hobj, lookup_insert_ne by congruence; reflexivity|].
  intros q2 Hq2. rewrite Hobj, lookup_insert in Hq2. injection Hq2 as <-. right. exists t', (pred p'). split; [exact G'|].
  destruct G' as (_ & Ec & _ & _ & Hfit). rewrite Ec, Hs in *. destruct r.
  - destruct Hg as (q & t & p & Hq & G & Hg). pose proof (Hb _ Hq) as B. destruct (winv_get _ _ _ _ _ _ Hw E) as (q0 & t0 & Hq0 & Hd0). rewrite Hq in Hq0. injection Hq0 as <-.
    pose proof (dqok_size _ _ _ _ _ _ _ Hd0) as Hsz.
    destruct B as [B|(t1 & p1 & G1 & B)]; [destruct G as (_ & Eq & HB & _); assert (2 * N <= length t * N) by (apply Nat.mul_le_mono_r; lia); lia|].
    destruct (geom_unique _ _ _ _ _ _ G G1) as [-> ->]. destruct G as (_ & Eq & HB & _ & Hf). rewrite Eq, Hsz in B. rewrite Hsz in Hf.
    destruct Hg as [(-> & ->)|(Hfull & Hlen & _ & Hr1 & Hr2)]; [lia|]. rewrite Hlen in *. replace (2 * length t * N) with (2 * (length t * N)) in * by lia. lia.
  - destruct Hg as [-> ->]. destruct (winv_get _ _ _ _ _ _ Hw E) as (q0 & t0 & _ & -> & _). cbn [length]. lia.
Qed.

Lemma assign_bal s st id src l0 r0 l : winv s st -> s !! id = Some (l0, r0) -> s !! src = Some (l, true) -> id <> src ->
  exists st', dq_assign N id src st = Ok (tt, st') /\ winv (<[id := (l, nonempty l)]> s) st' /\
    (forall id2, id2 <> id -> d_obj st' !! id2 = d_obj st !! id2) /\ (forall q, d_obj st' !! id = Some q -> bal (length l) id q).
Proof.
  intros Hw Ei Es Hne. unfold dq_assign. rewrite (proj2 (Nat.eqb_neq id src) Hne).
  destruct (clear_w N HN _ _ _ _ _ Hw Ei) as (st1 & R1 & Hw1 & Hsame). rewrite (bind_ok _ _ _ _ _ R1).
  assert (Es1 : <[id := ([], false)]> s !! src = Some (l, true)) by (rewrite lookup_insert_ne by congruence; exact Es).
  destruct (winv_get _ _ _ _ _ _ Hw1 Es1) as (q & t & Hq & p & Hr).
  destruct (range_for_ok N HN (fun _ a => dq_push_back N id a) src q t p l st1 tt
    (fun done _ st2 => winv (<[id := (done, nonempty done)]> s) st2 /\ (forall id2, id2 <> id -> d_obj st2 !! id2 = d_obj st !! id2) /\
       (forall q, d_obj st2 !! id = Some q -> bal (length done) id q))) as ([] & st2 & R2 & Hw2 & Hs2 & Hb2).
  { exact Hq. } { exact Hr. }
  { split; [exact Hw1|]. split; [exact Hsame|]. intros q1 Hq1. destruct (winv_get _ _ _ _ _ _ Hw1 (lookup_insert s id ([], false))) as (q2 & t2 & Hq2 & Hd). rewrite Hq1 in Hq2. injection Hq2 as <-.
    eapply dqok_none. exact Hd. }
  { intros done [] st2 (Hw2 & Hs2 & _). assert (Hq2 : d_obj st2 !! src = Some q) by (rewrite Hs2, <- Hsame by congruence; exact Hq). exists q. split; [exact Hq2|]. split; [apply Hr|].
    assert (Es2 : <[id := (done, nonempty done)]> s !! src = Some (l, true)) by (rewrite lookup_insert_ne by congruence; exact Es).
    destruct (winv_get _ _ _ _ _ _ Hw2 Es2) as (q' & t' & Hq' & p' & Hr'). rewrite Hq2 in Hq'. injection Hq' as <-.
    destruct Hr as (Et & _ & _ & _ & _ & Hb & _). destruct Hr' as (Et' & _ & _ & _ & _ & Hb' & _ & Hh). rewrite Et in Et'. apply tabof_inj in Et' as <-.
    rewrite (at_pos_pos _ _ _ _ _ _ Hb Hb'). exact Hh. }
  { intros done x rest [] st2 El (Hw2 & Hs2 & Hb2).
    destruct (push_back_bal _ _ id done (nonempty done) x (length done) Hw2 (lookup_insert _ _ _) Hb2) as (st3 & R3 & Hw3 & Hs3 & Hb3). exists tt, st3. split; [exact R3|].
    rewrite insert_insert in Hw3. split; [destruct done; exact Hw3|]. split; [intros id2 H2; rewrite Hs3, Hs2 by exact H2; reflexivity|].
    rewrite app_length. cbn [length]. rewrite Nat.add_1_r. exact Hb3. }
  exists st2. auto.
Qed.
(** ** What a call leaves alone *)
Lemma unit_inv (m : M (dst A) unit) st st' (r : out A) : dq_unit m st = Ok (r, st') -> m st = Ok (tt, st') /\ r = RUnit.
Proof. intros Hm. unfold dq_unit, bind in Hm. destruct (m st) as [[[] w]| | |]; try discriminate. injection Hm as <- ->. auto. Qed.
Lemma step_read o (s s' : sw) st st' r : winv s st -> ds_step o s = SVal (r, s') -> dq_step N o st = Ok (r, st') ->
  dop_writes o = [] \/ (exists id, o = DAssign id id \/ o = DMoveAssign id id) -> st' = st /\ s' = s.
Proof.
  intros Hw Hs R Ho. destruct o as [k|k src|k src|k src|k src|k|k|k x|k x|k x|k|k|k|k|k|k z|k|k|k|k]; cbn [dop_writes ds_step dq_step] in *; unfold with_dq, no_dq, some_or in Hs;
    try (destruct Ho as [Ho|(? & [Ho|Ho])]; discriminate).
  - destruct Ho as [Ho|(id & [[= -> ->]|Ho])]; try discriminate. destruct (s !! id) as [[l0 r0]|] eqn:E; [|discriminate]. rewrite Nat.eqb_refl in Hs. injection Hs as <- <-.
    apply unit_inv in R as [R _]. unfold dq_assign in R. rewrite Nat.eqb_refl in R. injection R as <-. auto.
  - destruct Ho as [Ho|(id & [Ho|[= -> ->]])]; try discriminate. destruct (s !! id) as [[l0 r0]|] eqn:E; [|discriminate]. rewrite Nat.eqb_refl in Hs. injection Hs as <- <-.
    apply unit_inv in R as [R _]. unfold dq_move in R. rewrite Nat.eqb_refl in R. injection R as <-. auto.
  - destruct (s !! k) as [[l0 r0]|] eqn:E; [|discriminate]. destruct (head l0) as [x|] eqn:El; [|discriminate]. injection Hs as <- <-. split; [|reflexivity].
    destruct (at_w N HN _ _ _ _ _ 0 x Hw E) as (q & Hq & R1 & _); [destruct l0; [discriminate|exact El]|]. cbn [it_add] in R1. rewrite bind_ret in R1.
    unfold dq_front in R. rewrite bind_assoc, (bind_ok _ _ _ _ _ (q_get_ok _ _ _ Hq)), (bind_ok _ _ _ _ _ R1) in R. injection R as <-. reflexivity.
  - destruct (s !! k) as [[l0 r0]|] eqn:E; [|discriminate]. destruct (last l0) as [x|] eqn:El; [|discriminate]. injection Hs as <- <-. split; [|reflexivity].
    rewrite last_lookup in El. destruct (at_w N HN _ _ _ _ _ _ x Hw E El) as (q & Hq & _ & R1).
    assert (Hl : 0 < length l0) by (destruct l0; [discriminate|simpl; lia]). replace (length l0 - pred (length l0)) with 1 in R1 by lia.
    unfold dq_back in R. rewrite bind_assoc, (bind_ok _ _ _ _ _ (q_get_ok _ _ _ Hq)), (bind_ok _ _ _ _ _ R1) in R. injection R as <-. reflexivity.
  - destruct (s !! k) as [[l0 r0]|] eqn:E; [|discriminate]. cbv zeta in Hs. set (j := (if z <? 0 then Z.of_nat (length l0) + z else z)%Z) in *.
    destruct (Z.ltb_spec j 0) as [Hj|Hj]; [discriminate|]. destruct (l0 !! Z.to_nat j) as [x|] eqn:Ex; [|discriminate]. injection Hs as <- <-. split; [|reflexivity].
    destruct (at_w N HN _ _ _ _ _ _ x Hw E Ex) as (q & Hq & R1 & R2). unfold dq_at in R. rewrite bind_assoc, (bind_ok _ _ _ _ _ (q_get_ok _ _ _ Hq)) in R.
    unfold j in *. destruct (Z.ltb_spec z 0) as [Hz|Hz].
    + replace (length l0 - Z.to_nat (Z.of_nat (length l0) + z)) with (Z.to_nat (- z)) in R2 by lia. rewrite (bind_ok _ _ _ _ _ R2) in R. injection R as <-. reflexivity.
    + rewrite (bind_ok _ _ _ _ _ R1) in R. injection R as <-. reflexivity.
  - destruct (s !! k) as [[l0 r0]|] eqn:E; [|discriminate]. injection Hs as <- <-. unfold bind, q_get in R. destruct (d_obj st !! k); [|discriminate]. injection R as _ <-. auto.
  - destruct (s !! k) as [[l0 r0]|] eqn:E; [|discriminate]. injection Hs as <- <-. unfold bind, q_get in R. destruct (d_obj st !! k); [|discriminate]. injection R as _ <-. auto.
  - destruct (s !! k) as [[l0 [|]]|] eqn:E; [|discriminate|discriminate]. injection Hs as <- <-. rewrite (bind_ok _ _ _ _ _ (iter_w N HN _ _ _ _ Hw E)) in R. injection R as <-. auto.
Qed.
Lemma step_frame o (s s' : sw) st st' r id : winv s st -> ds_step o s = SVal (r, s') -> dq_step N o st = Ok (r, st') -> id ∉ dop_writes o ->
  d_obj st' !! id = d_obj st !! id /\ s' !! id = s !! id.
Proof.
  intros Hw Hs R Hid.
  assert (Hread : dop_writes o = [] \/ (exists id, o = DAssign id id \/ o = DMoveAssign id id) -> d_obj st' !! id = d_obj st !! id /\ s' !! id = s !! id).
  { intros Ho. destruct (step_read _ _ _ _ _ _ Hw Hs R Ho) as [-> ->]. auto. }
  destruct o as [k|k src|k src|k src|k src|k|k|k x|k x|k x|k|k|k|k|k|k z|k|k|k|k]; try (apply Hread; left; reflexivity); clear Hread;
    cbn [dop_writes ds_step dq_step] in *; unfold with_dq, no_dq in Hs; rewrite ?elem_of_cons, ?elem_of_nil in Hid; try apply unit_inv in R as [R _];
    assert (Hik : k <> id) by (intros ->; apply Hid; left; reflexivity); assert (Hki : id <> k) by congruence; clear Hid.
  - destruct (s !! k) eqn:E; [discriminate|]. injection Hs as <- <-. unfold dq_new in R. rewrite (winv_none _ _ _ _ Hw E) in R. injection R as <-. cbn [d_obj].
    rewrite !lookup_insert_ne by assumption. auto.
  - destruct (s !! k) eqn:E; [discriminate|]. destruct (s !! src) as [[l [|]]|] eqn:Es; try discriminate. injection Hs as <- <-.
    assert (Hne : k <> src) by congruence. set (q0 := DQ 0 0 [] (It 0 PUninit None) (It 0 PUninit None)) in *.
    assert (Hw0 : winv (<[k := ([], false)]> s) (DSt (d_blk st) (d_fresh st) (d_cnt st) (<[k := q0]> (d_obj st)))) by (apply winv_new; auto).
    destruct (assign_bal _ _ k src [] false l Hw0 (lookup_insert _ _ _)) as (st2 & R2 & _ & Hs2 & _); [rewrite lookup_insert_ne by congruence; exact Es|exact Hne|].
    rewrite (bind_ok _ _ st tt (DSt (d_blk st) (d_fresh st) (d_cnt st) (<[k := q0]> (d_obj st)))) in R by (unfold dq_new; rewrite (winv_none _ _ _ _ Hw E); reflexivity).
    rewrite R in R2. injection R2 as <-. rewrite Hs2 by assumption. cbn [d_obj]. rewrite !lookup_insert_ne by assumption. auto.
  - discriminate.
  - destruct (s !! k) as [[l0 r0]|] eqn:E; [|discriminate]. destruct (s !! src) as [[l rr]|] eqn:Es; [|discriminate]. destruct (Nat.eqb_spec k src) as [->|Hne].
    + injection Hs as <- <-. unfold dq_assign in R. rewrite Nat.eqb_refl in R. injection R as <-. auto.
    + destruct rr; [|discriminate]. injection Hs as <- <-. destruct (assign_bal _ _ _ _ _ _ _ Hw E Es Hne) as (st2 & R2 & _ & Hs2 & _). rewrite R in R2. injection R2 as <-.
      rewrite lookup_insert_ne by assumption. split; [apply Hs2; assumption|reflexivity].
  - destruct (s !! k) as [[l0 r0]|] eqn:E; [|discriminate]. destruct (Nat.eqb_spec k src) as [->|Hne]; [|discriminate]. injection Hs as <- <-.
    unfold dq_move in R. rewrite Nat.eqb_refl in R. injection R as <-. auto.
  - destruct (s !! k) as [[l0 r0]|] eqn:E; [|discriminate]. injection Hs as <- <-. destruct (clear_w N HN _ _ _ _ _ Hw E) as (st1 & R1 & _ & Hs1). unfold dq_destroy in R.
    rewrite (bind_ok _ _ _ _ _ R1) in R. injection R as <-. cbn [d_obj]. rewrite !lookup_delete_ne by assumption. split; [apply Hs1; assumption|reflexivity].
  - destruct (s !! k) as [[l0 r0]|] eqn:E; [|discriminate]. injection Hs as <- <-. destruct (clear_w N HN _ _ _ _ _ Hw E) as (st1 & R1 & _ & Hs1). rewrite R in R1. injection R1 as <-.
    rewrite lookup_insert_ne by assumption. split; [apply Hs1; assumption|reflexivity].
  - destruct (s !! k) as [[l0 r0]|] eqn:E; [|discriminate]. injection Hs as <- <-. destruct (push_back_geo s st k l0 r0 x Hw E) as (st2 & q2 & t2 & p2 & R2 & _ & Ho & _).
    rewrite R in R2. injection R2 as <-. rewrite Ho, !lookup_insert_ne by assumption. auto.
  - destruct (s !! k) as [[l0 r0]|] eqn:E; [|discriminate]. injection Hs as <- <-. destruct (push_front_geo s st k l0 r0 x Hw E) as (st2 & q2 & t2 & p2 & R2 & _ & Ho & _).
    rewrite R in R2. injection R2 as <-. rewrite Ho, !lookup_insert_ne by assumption. auto.
  - destruct (s !! k) as [[l0 r0]|] eqn:E; [|discriminate]. injection Hs as <- <-. destruct (push_back_geo s st k l0 r0 x Hw E) as (st2 & q2 & t2 & p2 & R2 & _ & Ho & _).
    rewrite R in R2. injection R2 as <-. rewrite Ho, !lookup_insert_ne by assumption. auto.
  - destruct (s !! k) as [[l0 r0]|] eqn:E; [|discriminate]. destruct l0 as [|y l0]; [discriminate|]. injection Hs as <- <-.
    destruct (exists_last (l := y :: l0)) as (l1 & x1 & El); [discriminate|]. rewrite El in E. destruct (pop_back_geo s st k x1 l1 r0 Hw E) as (st2 & q & q' & t & p & R2 & _ & Ho & _).
    rewrite R in R2. injection R2 as <-. rewrite Ho, !lookup_insert_ne by assumption. auto.
  - destruct (s !! k) as [[l0 r0]|] eqn:E; [|discriminate]. destruct l0 as [|y l0]; [discriminate|]. injection Hs as <- <-.
    destruct (pop_front_geo s st k y l0 r0 Hw E) as (st2 & q & q' & t & p & R2 & _ & Ho & _). rewrite R in R2. injection R2 as <-. rewrite Ho, !lookup_insert_ne by assumption. auto.
  - destruct (s !! k) as [[l0 r0]|] eqn:E; [|discriminate]. destruct l0 as [|y l0]; [discriminate|]. injection Hs as <- <-.
    destruct (pop_front_geo s st k y l0 r0 Hw E) as (st2 & q & q' & t & p & R2 & _ & Ho & _). rewrite R in R2. injection R2 as <-. rewrite Ho, !lookup_insert_ne by assumption. auto.
Qed.
End Geo.
