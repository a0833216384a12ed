(** Pushes with a reference to an element follow their specification. *)
From Verif Require Import Base VectorModel VectorSpec Adapter Hist ListModel DequeModel DequeSpec DequeIterModel DequeIterSpec
  DequeProofs DequeResize DequeHist DequeHist2 DequeGeo DequeIterProofs DequeRefModel DequeRefSpec.

Section Ref.
Context {A : Type} (N : nat) (HN : 0 < N) (eqb : A -> A -> bool).
Implicit Types (st : dst A) (l : list A) (q : dq) (t : list nat) (i : diter).
Notation sw := (gmap nat (list A * bool)).
Notation winv := (winv (A := A) N).
Notation place_ok := (place_ok (A := A) N).

(** Making room moves no element. *)
Definition makes_room (room : nat -> M (dst A) unit) : Prop := forall s st id l r pl i x, winv s st -> s !! id = Some (l, r) -> place_ok s st pl i -> 
  (exists l', s !! dp_id pl = Some (l', true) /\ l' !! dp_ix pl = Some x) -> exists st1, room id st = Ok (tt, st1) /\ cell_ld (i_cur i) st1 = Ok (x, st1).
Lemma room_any s st st1 id l r q q1 t t1 p1 pl i x :
  winv s st -> s !! id = Some (l, r) -> d_obj st !! id = Some q -> q_tab q = tabof t -> dqok N (d_blk st) id l r q t ->
  d_obj st1 = <[id := q1]> (d_obj st) -> rdy_ok N (d_blk st1) id l q1 t1 p1 -> own_step (d_blk st) (d_blk st1) t t1 -> keys_below (d_blk st1) (d_fresh st1) ->
  (r = true -> exists p, geom N id q t p /\ ((t1 = t /\ p1 = p) \/ kept N t p (length l) t1 p1)) ->
  place_ok s st pl i -> (exists l', s !! dp_id pl = Some (l', true) /\ l' !! dp_ix pl = Some x) -> cell_ld (i_cur i) st1 = Ok (x, st1).
Proof.
  intros Hw E Hq Et Hd Hobj Hr1 Ho Hk1 Hkept Hpl (l' & El & Ex).
  assert (Hw1 : winv (<[id := (l, true)]> s) st1) by (eapply lift; try eassumption; eexists; exact Hr1).
  destruct (decide (dp_id pl = id)) as [Hid|Hid].
  - rewrite Hid in El. rewrite E in El. injection El as <- ->. destruct (Hkept eq_refl) as (p & G & Hg).
    destruct Hpl as (l0 & q0 & t0 & p0 & E0 & Hq0 & G0 & Hst). rewrite Hid in *. rewrite E in E0. injection E0 as <-. rewrite Hq in Hq0. injection Hq0 as <-.
    destruct (geom_unique _ _ _ _ _ _ _ G G0) as [-> ->]. apply lookup_lt_Some in Ex as Hn. pose proof (rdy_fit N HN _ _ _ _ _ _ (winv_rdy N HN _ _ _ _ _ _ _ Hw E Hq G)) as Hfit.
    destruct (stands_cell N HN _ _ _ _ _ _ _ Hst Hn Hfit) as (b & o & Hc & Ec).
    apply (stands_ld N HN st1 id l q1 t1 p1 (dp_ix pl) false); [exact Hr1| |exact Ex]. split; [exact Hn|]. exists b, o. split; [|exact Ec].
    destruct Hg as [(-> & ->)|Hg]; [exact Hc|apply Hg; assumption].
  - assert (Hp1 : place_ok (<[id := (l, true)]> s) st1 pl i).
    { eapply place_frame; [exact Hpl|rewrite Hobj, lookup_insert_ne by congruence; reflexivity|rewrite lookup_insert_ne by congruence; reflexivity]. }
    destruct (place_get N HN _ _ _ _ Hw1 Hp1) as (l0 & q0 & t0 & p0 & E0 & _ & Hr & Hst & _). rewrite lookup_insert_ne, El in E0 by congruence. injection E0 as <-.
    eapply stands_ld; eassumption.
Qed.
Lemma room_none (room : nat -> M (dst A) unit) st id q : (forall q, d_obj st !! id = Some q -> q_tab q = [] -> q_cap q = 0 -> room id st = dq_init N id st) -> d_obj st !! id = Some q -> dqok N (d_blk st) id [] false q [] -> keys_below (d_blk st) (d_fresh st) ->
  exists st1 q1 t1, room id st = Ok (tt, st1) /\ d_obj st1 = <[id := q1]> (d_obj st) /\ rdy_ok N (d_blk st1) id [] q1 t1 N /\ own_step (d_blk st) (d_blk st1) [] t1 /\ keys_below (d_blk st1) (d_fresh st1).
Proof.
  intros Hroom Hq (_ & _ & Et & Esz & Ecap) Hk. destruct (init_ok N HN _ _ _ Hq Et Ecap Hk) as (st1 & q1 & t1 & R & Hobj & Hr & Hlen & Ho & Hk1).
  exists st1, q1, t1. rewrite (Hroom _ Hq Et Ecap). auto.
Qed.
Lemma room_back_keeps : makes_room (room_back N).
Proof.
  intros s st id l r pl i x Hw E Hpl Hx. pose proof (winv_keys _ _ _ Hw) as Hk. destruct r.
  - destruct (winv_geom N HN _ _ _ _ Hw E) as (q & t & p & Hq & G & Hr). destruct (room_back_gen N HN _ _ _ _ _ _ _ Hq Hr Hk) as (st1 & q1 & t1 & p1 & R & Hobj & Hr1 & Ho & Hk1 & _ & Hg).
    exists st1. split; [exact R|]. eapply room_any; try eassumption; [apply G|eexists; exact Hr|]. intros _. exists p. split; [exact G|]. destruct Hg as [(_ & _ & -> & ->)|(_ & _ & Hg & _)]; auto.
  - destruct (winv_get _ _ _ _ _ _ Hw E) as (q & t & Hq & Hd). pose proof Hd as (-> & -> & Et & _).
    destruct (room_none (room_back N) st id q) as (st1 & q1 & t1 & R & Hobj & Hr1 & Ho & Hk1); [|exact Hq|exact Hd|exact Hk|].
    { intros q' Hq' Et' Ec'. unfold room_back. rewrite (bind_ok _ _ _ _ _ (q_get_ok _ _ _ Hq')), Ec', Et'. cbn [length Nat.eqb dassert]. rewrite bind_ret. reflexivity. }
    exists st1. split; [exact R|]. eapply (room_any s st st1 id [] false q q1 [] t1); try eassumption. discriminate.
Qed.
Lemma room_front_keeps : makes_room (room_front N).
Proof.
  intros s st id l r pl i x Hw E Hpl Hx. pose proof (winv_keys _ _ _ Hw) as Hk. destruct r.
  - destruct (winv_geom N HN _ _ _ _ Hw E) as (q & t & p & Hq & G & Hr). destruct (room_front_gen N HN _ _ _ _ _ _ _ Hq Hr Hk) as (st1 & q1 & t1 & p1 & R & Hobj & Hr1 & Ho & Hk1 & _ & Hg).
    exists st1. split; [exact R|]. eapply room_any; try eassumption; [apply G|eexists; exact Hr|]. intros _. exists p. split; [exact G|]. destruct Hg as [(_ & _ & -> & ->)|(_ & _ & Hg & _)]; auto.
  - destruct (winv_get _ _ _ _ _ _ Hw E) as (q & t & Hq & Hd). pose proof Hd as (-> & -> & Et & _).
    destruct (room_none (room_front N) st id q) as (st1 & q1 & t1 & R & Hobj & Hr1 & Ho & Hk1); [|exact Hq|exact Hd|exact Hk|].
    { intros q' Hq' Et' Ec'. unfold room_front. rewrite (bind_ok _ _ _ _ _ (q_get_ok _ _ _ Hq')), Ec', Et'. cbn [length Nat.eqb dassert]. rewrite bind_ret. reflexivity. }
    exists st1. split; [exact R|]. eapply (room_any s st st1 id [] false q q1 [] t1); try eassumption. discriminate.
Qed.

Lemma q_get_same st id q st' : q_get id st = Ok (q, st') -> st' = st.
Proof. unfold q_get. destruct (d_obj st !! id); [|discriminate]. intros [= _ <-]. reflexivity. Qed.
Definition pure {X} (m : M (dst A) X) : Prop := forall st y st', m st = Ok (y, st') -> st' = st.
Lemma pure_bind {X Y} (m : M (dst A) X) (k : X -> M (dst A) Y) : pure m -> (forall y, pure (k y)) -> pure (bind m k).
Proof. intros Hm Hk st y st' E. unfold bind in E. destruct (m st) as [[z s1]| | |] eqn:E1; try discriminate. apply Hm in E1 as ->. eapply Hk. exact E. Qed.
Lemma it_prev_pure i : pure (it_prev N i).
Proof.
  assert (Hret : forall X (y : X), pure (ret y)) by (intros X y st z st' [= _ <-]; reflexivity).
  assert (Hub : forall X, pure (X := X) ub) by (intros X st z st'; discriminate).
  assert (Htab : forall tb n, pure (tab_at tb n)) by (intros tb n st y st'; unfold tab_at; destruct (_ !! _); [intros [= _ <-]; reflexivity|discriminate]).
  assert (Hq : forall id, pure (q_get id)) by (intros id st y st'; apply q_get_same).
  unfold it_prev, it_tab, arr_begin, arr_end, cur_prev, rd.
  repeat (first [apply Hret|apply Hub|apply Htab|apply Hq|apply pure_bind; [|intros ?]|match goal with |- pure (match ?x with _ => _ end) => destruct x end]).
Qed.
Lemma bcong {X Y} (m : M (dst A) X) (k k' : X -> M (dst A) Y) st : (forall y st', m st = Ok (y, st') -> k y st' = k' y st') -> bind m k st = bind m k' st.
Proof. intros H. unfold bind. destruct (m st) as [[y s']| | |]; auto. Qed.

Lemma read_place (s : jspec A) w k x : jinv N s w -> read_at s k = Some x -> exists pl i l, get_var k w = Ok (i, w) /\ place_ok (j_dqs s) (fst w) pl i /\
  j_dqs s !! dp_id pl = Some (l, true) /\ l !! dp_ix pl = Some x /\ on_deqs (cell_ld (i_cur i)) w = Ok (x, w).
Proof.
  intros [Hw Hi] E. unfold read_at in E. destruct (j_its s !! k) as [pl|] eqn:Ek; [|discriminate]. destruct (Hi _ _ Ek) as (i & Ei & Hp).
  destruct (place_get N HN _ _ _ _ Hw Hp) as (l & q & t & p & El & Hq & Hr & Hst & _). rewrite El in E. exists pl, i, l. split; [exact (get_var_ok _ _ _ Ei)|].
  repeat (split; [assumption|]). apply on_deqs_id. eapply stands_ld; eassumption.
Qed.
Lemma push_back_copy (s : jspec A) w id k x : jinv N s w -> read_at s k = Some x -> j_dqs s !! id <> None -> y_step N eqb (YPushBack id k) w = j_step N eqb (JDeq (DPushBack id x)) w.
Proof.
  intros Hj E Hid. destruct (j_dqs s !! id) as [[l0 r0]|] eqn:Eid; [clear Hid|congruence]. destruct (read_place _ _ _ _ Hj E) as (pl & i & l & R1 & Hp & El & Ex & R2). cbn [y_step].
  rewrite (bind_ok _ _ _ _ _ R1), (bind_ok _ _ _ _ _ R2).
  assert (Heq : push_back_at N id (i_cur i) (fst w) = dq_push_back N id x (fst w)).
  { destruct (room_back_keeps _ _ _ _ _ _ _ _ (proj1 Hj) Eid Hp (ex_intro _ l (conj El Ex))) as (st1 & R & Hld). unfold push_back_at, dq_push_back.
    rewrite !(bind_ok _ _ _ _ _ R). apply bcong. intros q st' Eq. apply q_get_same in Eq as ->. rewrite (bind_ok _ _ _ _ _ Hld). reflexivity. }
  cbn [j_step dq_step]. unfold dq_unit, on_deqs, bind. rewrite Heq. destruct (dq_push_back N id x (fst w)) as [[[] st]| | |]; reflexivity.
Qed.
Lemma push_front_copy (s : jspec A) w id k x : jinv N s w -> read_at s k = Some x -> j_dqs s !! id <> None -> y_step N eqb (YPushFront id k) w = j_step N eqb (JDeq (DPushFront id x)) w.
Proof.
  intros Hj E Hid. destruct (j_dqs s !! id) as [[l0 r0]|] eqn:Eid; [clear Hid|congruence]. destruct (read_place _ _ _ _ Hj E) as (pl & i & l & R1 & Hp & El & Ex & R2). cbn [y_step].
  rewrite (bind_ok _ _ _ _ _ R1), (bind_ok _ _ _ _ _ R2).
  assert (Heq : push_front_at N id (i_cur i) (fst w) = dq_push_front N id x (fst w)).
  { destruct (room_front_keeps _ _ _ _ _ _ _ _ (proj1 Hj) Eid Hp (ex_intro _ l (conj El Ex))) as (st1 & R & Hld). unfold push_front_at, dq_push_front.
    rewrite !(bind_ok _ _ _ _ _ R). apply bcong. intros q st' Eq. apply q_get_same in Eq as ->. apply bcong. intros b st' Eb. apply it_prev_pure in Eb as ->. rewrite (bind_ok _ _ _ _ _ Hld). reflexivity. }
  cbn [j_step dq_step]. unfold dq_unit, on_deqs, bind. rewrite Heq. destruct (dq_push_front N id x (fst w)) as [[[] st]| | |]; reflexivity.
Qed.
Lemma y_step_ok o (s : jspec A) w : jinv N s w -> magree (jinv N) (ys_step eqb o s) (y_step N eqb o w).
Proof.
  intros Hj. unfold ys_step. destruct (with_copy o s) as [o'|] eqn:E; [|exact I].
  destruct o as [o|id k|id k|id k]; cbn [with_copy] in E; [injection E as <-; apply j_step_ok; assumption|..]; destruct (read_at s k) as [x|] eqn:Ev; try discriminate; injection E as <-;
    (destruct (j_dqs s !! id) as [[l r]|] eqn:Eid; [|cbn [js_step ds_step]; unfold with_dq; rewrite Eid; exact I]);
    assert (Hne : j_dqs s !! id <> None) by congruence.
  - rewrite (push_back_copy _ _ _ _ _ Hj Ev Hne). apply j_step_ok; assumption.
  - rewrite (push_front_copy _ _ _ _ _ Hj Ev Hne). apply j_step_ok; assumption.
  - change (y_step N eqb (YPush id k) w) with (y_step N eqb (YPushBack id k) w). rewrite (push_back_copy _ _ _ _ _ Hj Ev Hne).
    change (j_step N eqb (JDeq (DPushBack id x)) w) with (j_step N eqb (JDeq (DPush id x)) w). apply j_step_ok; assumption.
Qed.
Lemma y_run (ops : list (yop A)) : magree (jinv N) (srun (ys_step eqb) ops jspec0) (mrun (y_step N eqb) ops jworld0).
Proof. apply mrun_agree; [intros o s w; apply y_step_ok|apply jinv0]. Qed.
End Ref.

Theorem y_history : forall (A : Type) (N : nat), 0 < N -> forall (eqb : A -> A -> bool) (ops : list (yop A)),
  match srun (ys_step eqb) ops jspec0 with
  | SVal (rs, _) => exists w, mrun (y_step N eqb) ops jworld0 = Ok (rs, w)
  | SAbort => mrun (y_step N eqb) ops jworld0 = Abort
  | SUnspec => True
  end.
Proof.
  intros A N HN eqb ops. pose proof (y_run N HN eqb ops) as H. destruct (srun _ ops jspec0) as [[rs s]| |]; [|exact H|exact I]. destruct H as (w & R & _). eauto.
Qed.
Theorem y_copy : forall (A : Type) (N : nat), 0 < N -> forall (eqb : A -> A -> bool) (ops : list (yop A)) rs s w k x id l r,
  srun (ys_step eqb) ops jspec0 = SVal (rs, s) -> mrun (y_step N eqb) ops jworld0 = Ok (rs, w) -> read_at s k = Some x -> j_dqs s !! id = Some (l, r) ->
  y_step N eqb (YPushBack id k) w = y_step N eqb (YJ (JDeq (DPushBack id x))) w /\ y_step N eqb (YPushFront id k) w = y_step N eqb (YJ (JDeq (DPushFront id x))) w.
Proof.
  intros A N HN eqb ops rs s w k x id l r E R Hv Hid. pose proof (y_run N HN eqb ops) as H. rewrite E in H. destruct H as (w' & R' & HR). rewrite R in R'. injection R' as <-.
  split; [eapply push_back_copy; eauto; congruence|eapply push_front_copy; eauto; congruence].
Qed.
Theorem y_own : forall (A : Type) (N : nat), 0 < N -> forall (eqb : A -> A -> bool) (ops : list (yop A)) rs s k id n mv l r x,
  srun (ys_step eqb) ops jspec0 = SVal (rs, s) -> j_its s !! k = Some (DP id n mv) -> j_dqs s !! id = Some (l, r) -> l !! n = Some x ->
  (exists w, mrun (y_step N eqb) (ops ++ [YPushBack id k; YJ (JDeq (DIter id)); YJ (JRead k)]) jworld0 = Ok (rs ++ [RUnit; RList (l ++ [x]); RVal x], w)) /\
  (exists w, mrun (y_step N eqb) (ops ++ [YPushFront id k; YJ (JDeq (DIter id)); YJ (JRead k)]) jworld0 = Ok (rs ++ [RUnit; RList (x :: l); RVal x], w)).
Proof.
  intros A N HN eqb ops rs s k id n mv l r x E Ek El Ex. assert (Hv : read_at s k = Some x) by (unfold read_at; rewrite Ek; cbn [dp_id dp_ix]; rewrite El; exact Ex).
  assert (Hlk : forall (l' : list A) b, (<[id := (l', b)]> (j_dqs s)) !! id = Some (l', b)) by (intros; apply lookup_insert).
  apply lookup_lt_Some in Ex as Hlt. split.
  - pose proof (y_history A N HN eqb (ops ++ [YPushBack id k; YJ (JDeq (DIter id)); YJ (JRead k)])) as H. rewrite srun_app, E in H.
    cbn [srun] in H. unfold ys_step in H. cbn [with_copy] in H. rewrite Hv in H. cbn [fmap option_fmap option_map js_step ds_step with_copy] in H. unfold with_dq in H. rewrite El in H.
    cbn [j_dqs] in H. rewrite !Hlk in H. unfold with_pl in H. cbn [j_its j_dqs] in H. rewrite !lookup_omap, Ek in H. cbn [mbind option_bind after dp_id dp_ix] in H.
    unfold len_of in H. rewrite El, Nat.eqb_refl, (proj2 (Nat.ltb_lt _ _) Hlt) in H. cbn [mbind option_bind after dp_id dp_ix] in H. rewrite Hlk in H. rewrite lookup_app_l, Ex in H by exact Hlt.
    exact H.
  - pose proof (y_history A N HN eqb (ops ++ [YPushFront id k; YJ (JDeq (DIter id)); YJ (JRead k)])) as H. rewrite srun_app, E in H.
    cbn [srun] in H. unfold ys_step in H. cbn [with_copy] in H. rewrite Hv in H. cbn [fmap option_fmap option_map js_step ds_step with_copy] in H. unfold with_dq in H. rewrite El in H.
    cbn [j_dqs] in H. rewrite !Hlk in H. unfold with_pl in H. cbn [j_its j_dqs] in H. rewrite !lookup_omap, Ek in H. cbn [mbind option_bind after dp_id dp_ix] in H.
    unfold len_of in H. rewrite El, Nat.eqb_refl, (proj2 (Nat.ltb_lt _ _) Hlt) in H. cbn [mbind option_bind after dp_id dp_ix] in H. rewrite Hlk in H. assert (Ex1 : (x :: l) !! S n = Some x) by exact Ex. rewrite Ex1 in H.
    exact H.
Qed.
