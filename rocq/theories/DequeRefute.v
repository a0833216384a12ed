(** Copies of deques; the defects of moved and of empty deques. *)
From Verif Require Import Base VectorModel VectorSpec Adapter Hist ListModel DequeModel DequeSpec DequeProofs DequeResize DequeHist DequeHist2.

Section R.
Context {A : Type} (N : nat) (HN : 0 < N).
Implicit Types (st : dst A) (l : list A) (q : dq) (t : list nat) (i : diter).
Notation sw := (gmap nat (list A * bool)).
Notation winv := (winv (A := A) N).

(** ** Copies *)
Lemma step_frame (o : dop A) (s s' : sw) r k : ds_step o s = SVal (r, s') -> k ∉ dop_writes o -> s' !! k = s !! k.
Proof.
  destruct o; cbn [ds_step dop_writes]; unfold with_dq, no_dq, some_or; rewrite ?elem_of_cons, ?elem_of_nil; intros H Hk; cbv zeta in H;
    repeat (match type of H with context [match ?x with _ => _ end] => destruct x end; try discriminate);
    try discriminate; try (injection H as <- <-); rewrite ?lookup_insert_ne, ?lookup_delete_ne by (intros ->; tauto); reflexivity || congruence.
Qed.
Lemma srun_frame (ops : list (dop A)) : forall (s s' : sw) rs k, srun ds_step ops s = SVal (rs, s') -> Forall (fun o => k ∉ dop_writes o) ops -> s' !! k = s !! k.
Proof.
  induction ops as [|o ops IH]; intros s s' rs k H Hf; cbn [srun] in H; [injection H as <- <-; reflexivity|].
  apply Forall_cons in Hf as [Ho Hf]. destruct (ds_step o s) as [[r s1]| |] eqn:E; try discriminate. destruct (srun ds_step ops s1) as [[rs2 s2]| |] eqn:E2; try discriminate.
  injection H as <- <-. rewrite (IH _ _ _ _ E2 Hf). eapply step_frame; eassumption.
Qed.
Lemma srun_app (ops1 ops2 : list (dop A)) : forall (s : sw), srun ds_step (ops1 ++ ops2) s =
  match srun ds_step ops1 s with SVal (rs, s1) => match srun ds_step ops2 s1 with SVal (rs2, s2) => SVal (rs ++ rs2, s2) | SAbort => SAbort | SUnspec => SUnspec end | SAbort => SAbort | SUnspec => SUnspec end.
Proof.
  induction ops1 as [|o ops1 IH]; intros s; cbn [app srun]; [destruct (srun ds_step ops2 s) as [[? ?]| |]; reflexivity|].
  destruct (ds_step o s) as [[r s1]| |]; try reflexivity. rewrite IH. destruct (srun ds_step ops1 s1) as [[rs s2]| |]; try reflexivity.
  destruct (srun ds_step ops2 s2) as [[? ?]| |]; reflexivity.
Qed.

Theorem copy_independent (ops ops2 : list (dop A)) rs (s s' : sw) rs2 id src l o k :
  srun ds_step ops ∅ = SVal (rs, s) -> s !! src = Some (l, true) -> l <> [] -> id <> src ->
  (o = DCopyNew id src /\ s !! id = None) \/ (o = DAssign id src /\ is_Some (s !! id)) ->
  srun ds_step (ops ++ o :: ops2) ∅ = SVal (rs2, s') -> (k = id \/ k = src) -> Forall (fun o => k ∉ dop_writes o) ops2 ->
  exists w, mrun (dq_step N) (ops ++ o :: ops2 ++ [DIter k; DSize k]) dst_init = Ok (rs2 ++ [RList l; RNat (length l)], w).
Proof.
  intros H1 Es Hl Hne Ho H2 Hk Hf.
  assert (Hs' : s' !! k = Some (l, true)).
  { rewrite srun_app, H1 in H2. cbn [srun] in H2.
    assert (Hstep : ds_step o s = SVal (RUnit, <[id := (l, nonempty l)]> s)).
    { destruct Ho as [[-> Hn]|[-> [[l0 b0] Hn]]]; cbn [ds_step]; unfold no_dq, with_dq; rewrite Hn, Es; [reflexivity|]. rewrite (proj2 (Nat.eqb_neq id src) Hne). reflexivity. }
    rewrite Hstep in H2. destruct (srun ds_step ops2 _) as [[rs3 s3]| |] eqn:E; try discriminate. injection H2 as _ <-. rewrite (srun_frame _ _ _ _ _ E Hf).
    destruct Hk as [-> | ->]; [rewrite lookup_insert; destruct l; [contradiction|reflexivity]|rewrite lookup_insert_ne by congruence; exact Es]. }
  pose proof (deque_history N HN ((ops ++ o :: ops2) ++ [DIter k; DSize k])) as H. rewrite srun_app, H2 in H. cbn [srun ds_step] in H. unfold with_dq in H. rewrite Hs' in H.
  rewrite Hs' in H. destruct H as (w & R & _). exists w. rewrite <- app_assoc in R. exact R.
Qed.

(** ** Moves *)
Lemma it_next_gone st i b o src qs : i_cur i = PAt b o -> i_tab i = Some src -> d_obj st !! src = Some qs -> q_tab qs = [] -> it_next N i st = Abort.
Proof.
  intros Hc Ht Hq Et. unfold it_next, it_tab. rewrite Hc, Ht. cbn [cur_next]. rewrite bind_ret, bind_assoc, (bind_ok _ _ _ _ _ (q_get_ok _ _ _ Hq)), bind_ret, Et. reflexivity.
Qed.
Lemma it_prev_gone st i b o src qs : i_cur i = PAt b o -> i_tab i = Some src -> d_obj st !! src = Some qs -> q_tab qs = [] -> it_prev N i st = Abort.
Proof.
  intros Hc Ht Hq Et. unfold it_prev, it_tab. rewrite Hc, Ht. cbn [rd]. rewrite bind_ret, bind_assoc, (bind_ok _ _ _ _ _ (q_get_ok _ _ _ Hq)), bind_ret, Et. reflexivity.
Qed.

Definition moved st (id src : nat) l : Prop := exists q t p, id <> src /\ d_obj st !! id = Some q /\ d_obj st !! src = Some (DQ 0 0 [] (It 0 PNull None) (It 0 PNull None)) /\
  rdy_ok N (d_blk st) src l q t p /\ keys_below (d_blk st) (d_fresh st).

Lemma move_inner s st id src l r0 l0 : winv s st -> s !! id = Some (l0, r0) -> s !! src = Some (l, true) -> id <> src ->
  exists st', dq_move N id src st = Ok (tt, st') /\ moved st' id src l.
Proof.
  intros Hw Ei Es Hne. unfold dq_move. rewrite (proj2 (Nat.eqb_neq id src) Hne). destruct (clear_w N HN _ _ _ _ _ Hw Ei) as (st1 & R1 & Hw1 & Hsame). rewrite (bind_ok _ _ _ _ _ R1).
  assert (Es1 : <[id := ([], false)]> s !! src = Some (l, true)) by (rewrite lookup_insert_ne by congruence; exact Es).
  destruct (winv_get _ _ _ _ _ _ Hw1 Es1) as (q & t & Hq & p & Hr).
  destruct (winv_get _ _ _ _ _ _ Hw1 (lookup_insert _ _ _)) as (q0 & t0 & Hq0 & _).
  rewrite (bind_ok _ _ _ _ _ (q_get_ok _ _ _ Hq)). unfold it_copy.
  pose proof Hr as (Et & Esz & Ecap & Hnd & HB & Hbeg & Hend & Hhold). pose proof Hbeg as (bb & ob & _ & Hcb & _). pose proof Hend as (be & oe & _ & Hce & _).
  rewrite bind_assoc, Hcb. cbn [rd]. rewrite !bind_ret. rewrite bind_assoc, Hce. cbn [rd]. rewrite !bind_ret.
  rewrite (bind_ok _ _ _ _ _ (q_get_ok _ _ _ Hq0)). erewrite bind_ok by (eapply q_put_ok; exact Hq0). cbn [d_blk d_fresh d_obj].
  erewrite q_put_ok by (cbn [d_obj]; rewrite lookup_insert_ne by congruence; exact Hq). eexists. split; [reflexivity|].
  exists q, t, p. cbn [d_obj d_blk d_fresh]. split; [exact Hne|]. split; [rewrite lookup_insert_ne, lookup_insert by congruence; destruct q; reflexivity|].
  split; [apply lookup_insert|]. split; [exact Hr|]. apply (winv_keys _ _ _ Hw1).
Qed.
Lemma move_ok s st id src l o : winv s st -> s !! src = Some (l, true) -> id <> src ->
  (o = DMoveNew id src /\ s !! id = None) \/ (o = DMoveAssign id src /\ is_Some (s !! id)) ->
  exists st', dq_step N o st = Ok (RUnit, st') /\ moved st' id src l.
Proof.
  intros Hw Es Hne [[-> Hn]|[-> [[l0 b0] Hn]]]; cbn [dq_step].
  - set (q0 := DQ 0 0 [] (It 0 PUninit None) (It 0 PUninit None)).
    assert (Hw0 : winv (<[id := ([], false)]> s) (DSt (d_blk st) (d_fresh st) (d_cnt st) (<[id := q0]> (d_obj st)))) by (apply winv_new; auto).
    destruct (move_inner _ _ id src l false [] Hw0 (lookup_insert _ _ _)) as (st' & R & Hm); [rewrite lookup_insert_ne by congruence; exact Es|exact Hne|].
    exists st'. split; [apply dq_unit_ok|exact Hm].
    rewrite (bind_ok _ _ st tt (DSt (d_blk st) (d_fresh st) (d_cnt st) (<[id := q0]> (d_obj st)))) by (unfold dq_new; rewrite (winv_none _ _ _ _ Hw Hn); reflexivity). exact R.
  - destruct (move_inner _ _ id src l _ _ Hw Hn Es Hne) as (st' & R & Hm). exists st'. split; [apply dq_unit_ok; exact R|exact Hm].
Qed.

Lemma moved_fails st id src l o : moved st id src l -> l <> [] ->
  o ∈ [DIter id; DClear id; DDestroy id; DPopFront id; DPop id; DPopBack id; DBack id] \/ (exists x, o = DPushBack id x \/ o = DPush id x \/ o = DPushFront id x) ->
  dq_step N o st = Abort.
Proof.
  intros (q & t & p & Hne & Hq & Hs & Hr & Hk) Hl Ho. pose proof Hr as (Et & Esz & Ecap & Hnd & HB & Hbeg & Hend & Hhold).
  pose proof Hbeg as (bb & ob & _ & Hcb & Htb & _). pose proof Hend as (be & oe & _ & Hce & Hte & _).
  destruct l as [|x0 l]; [contradiction|]. pose proof (at_pos_le N HN _ _ _ _ Hend) as Hle. cbn [length] in *.
  assert (Heq : eqp (i_cur (q_beg q)) (i_cur (q_end q)) = false).
  { rewrite (at_pos_eqp N HN _ _ _ _ _ _ _ Hnd Hbeg Hend). apply Nat.eqb_neq. lia. }
  assert (Hval : cellval p (x0 :: l) p = Some x0) by (rewrite cellval_in by lia; rewrite Nat.sub_diag; reflexivity).
  destruct (cell_destroy_ok N HN st src t p (x0 :: l) (S p) l p (q_beg q) x0 Hhold Hnd Hbeg) as (H2 & R2 & _); [lia|exact Hval| | |].
  { apply (cellval_out N HN). left. lia. }
  { intros k Hk'. unfold cellval. destruct (Nat.ltb_spec k p), (Nat.ltb_spec k (S p)); try lia; [reflexivity|]. replace (k - p) with (S (k - S p)) by lia. reflexivity. }
  assert (Hclear : dq_clear N id st = Abort).
  { unfold dq_clear. rewrite (bind_ok _ _ _ _ _ (q_get_ok _ _ _ Hq)). destruct (q_tab q) eqn:E; [destruct t; [simpl in HB; lia|discriminate]|].
    assert (2 * N <= length t * N) by (apply Nat.mul_le_mono_r; lia).
    rewrite (proj2 (Nat.eqb_neq (q_cap q) 0)) by lia. cbn [negb dassert]. rewrite bind_ret. unfold it_copy. rewrite bind_assoc, Hcb. cbn [rd]. rewrite !bind_ret.
    apply bind_abort. cbn [clear_elems]. rewrite Heq. rewrite (bind_ok _ _ _ _ _ R2). apply bind_abort. eapply it_next_gone; [eassumption|eassumption|cbn [d_obj]; exact Hs|reflexivity]. }
  assert (Hback : it_prev N (q_end q) st = Abort) by (eapply it_prev_gone; [eassumption|eassumption|exact Hs|reflexivity]).
  assert (Hfront : dq_pop_front N id st = Abort).
  { unfold dq_pop_front. rewrite (bind_ok _ _ _ _ _ (q_get_ok _ _ _ Hq)), (bind_ok _ _ _ _ _ R2). apply bind_abort. eapply it_next_gone; [eassumption|eassumption|cbn [d_obj]; exact Hs|reflexivity]. }
  assert (Hpb : forall x, dq_push_back N id x st = Abort).
  { intros x. unfold dq_push_back. destruct (room_back_gen N HN st id src _ q t p Hq Hr Hk) as (st1 & q1 & t1 & p1 & R1 & Hobj & Hr1 & _ & _ & Hroom & _).
    rewrite (bind_ok _ _ _ _ _ R1). assert (Hq1 : d_obj st1 !! id = Some q1) by (rewrite Hobj; apply lookup_insert). rewrite (bind_ok _ _ _ _ _ (q_get_ok _ _ _ Hq1)).
    destruct Hr1 as (Et1 & _ & _ & Hnd1 & _ & _ & Hend1 & Hhold1). pose proof Hend1 as (b1 & o1 & _ & Hc1 & Ht1 & _).
    destruct (cell_construct_ok N HN st1 src t1 p1 (x0 :: l) p1 ((x0 :: l) ++ [x]) (p1 + length (x0 :: l)) (q_end q1) x Hhold1 Hnd1 Hend1 Hroom) as (H3 & R3 & _).
    { apply (cellval_out N HN). right. lia. }
    { rewrite cellval_in by lia. replace (p1 + length (x0 :: l) - p1) with (length (x0 :: l)) by lia. rewrite lookup_app_r, Nat.sub_diag by lia. reflexivity. }
    { intros k Hk'. unfold cellval. destruct (Nat.ltb_spec k p1); [reflexivity|]. destruct (Nat.lt_ge_cases (k - p1) (length (x0 :: l))); [rewrite lookup_app_l by lia; reflexivity|].
      rewrite !lookup_ge_None_2; [reflexivity|lia|rewrite app_length; simpl in *; lia]. }
    rewrite (bind_ok _ _ _ _ _ R3). apply bind_abort. eapply it_next_gone; [eassumption|eassumption|cbn [d_obj]; rewrite Hobj, lookup_insert_ne by congruence; exact Hs|reflexivity]. }
  assert (Hpf : forall x, dq_push_front N id x st = Abort).
  { intros x. unfold dq_push_front. destruct (room_front_gen N HN st id src _ q t p Hq Hr Hk) as (st1 & q1 & t1 & p1 & R1 & Hobj & Hr1 & _ & _ & Hroom & _).
    rewrite (bind_ok _ _ _ _ _ R1). assert (Hq1 : d_obj st1 !! id = Some q1) by (rewrite Hobj; apply lookup_insert). rewrite (bind_ok _ _ _ _ _ (q_get_ok _ _ _ Hq1)).
    destruct Hr1 as (Et1 & _ & _ & Hnd1 & _ & (b1 & o1 & _ & Hc1 & Ht1 & _) & _). apply bind_abort. eapply it_prev_gone; [eassumption|eassumption|rewrite Hobj, lookup_insert_ne by congruence; exact Hs|reflexivity]. }
  destruct Ho as [Ho|(x & [-> | [-> | ->]])]; cbn [dq_step]; [|apply bind_abort, Hpb|apply bind_abort, Hpb|apply bind_abort, Hpf].
  rewrite !elem_of_cons, elem_of_nil in Ho. destruct Ho as [-> | [-> | [-> | [-> | [-> | [-> | [-> | []]]]]]]]; cbn [dq_step]; apply bind_abort.
  - unfold dq_iter, range_for. rewrite (bind_ok _ _ _ _ _ (q_get_ok _ _ _ Hq)). unfold it_copy. rewrite bind_assoc, Hcb. cbn [rd]. rewrite !bind_ret. rewrite bind_assoc, Hce. cbn [rd]. rewrite !bind_ret.
    cbn [it_loop]. rewrite Heq.
    rewrite (bind_ok _ _ _ _ _ (cell_ld_ok N HN st src t p 0 (x0 :: l) (q_beg q) x0 Hhold ltac:(rewrite Nat.add_0_r; exact Hbeg) eq_refl ltac:(cbn [length]; lia))). rewrite bind_ret. apply bind_abort.
    eapply it_next_gone; [eassumption|eassumption|exact Hs|reflexivity].
  - exact Hclear.
  - unfold dq_destroy. apply bind_abort. exact Hclear.
  - exact Hfront.
  - exact Hfront.
  - unfold dq_pop_back. rewrite (bind_ok _ _ _ _ _ (q_get_ok _ _ _ Hq)). apply bind_abort. exact Hback.
  - unfold dq_back. rewrite (bind_ok _ _ _ _ _ (q_get_ok _ _ _ Hq)). apply bind_abort. cbn [it_sub]. apply bind_abort. exact Hback.
Qed.

Theorem move_refuted (ops : list (dop A)) rs (s : sw) id src x l o o2 :
  srun ds_step ops ∅ = SVal (rs, s) -> s !! src = Some (x :: l, true) -> id <> src ->
  (o = DMoveNew id src /\ s !! id = None) \/ (o = DMoveAssign id src /\ is_Some (s !! id)) ->
  (exists w, mrun (dq_step N) (ops ++ [o; DSize id; DFront id; DSize src]) dst_init = Ok (rs ++ [RUnit; RNat (S (length l)); RVal x; RNat 0], w)) /\
  (o2 ∈ [DIter id; DClear id; DDestroy id; DPopFront id; DPop id; DPopBack id; DBack id] \/ (exists x, o2 = DPushBack id x \/ o2 = DPush id x \/ o2 = DPushFront id x) ->
   mrun (dq_step N) (ops ++ [o; o2]) dst_init = Abort).
Proof.
  intros H1 Es Hne Ho. destruct (dq_reached N HN _ _ _ H1) as (w & Hw & Hthen). destruct (move_ok _ _ _ _ _ _ Hw Es Hne Ho) as (w1 & R1 & Hm).
  split; intros; rewrite Hthen, (mrun_cons _ _ _ _ _ _ R1).
  - destruct Hm as (q & t & p & _ & Hq & Hs & Hr & _). pose proof Hr as (Et & Esz & Ecap & Hnd & HB & Hbeg & Hend & Hhold). pose proof (at_pos_le N HN _ _ _ _ Hend) as Hle.
    erewrite mrun_cons by (cbn [dq_step]; rewrite (bind_ok _ _ _ _ _ (q_get_ok _ _ _ Hq)); reflexivity).
    erewrite mrun_cons.
    2: { cbn [dq_step]. unfold dq_front. rewrite bind_assoc, (bind_ok _ _ _ _ _ (q_get_ok _ _ _ Hq)).
         rewrite (bind_ok _ _ _ _ _ (cell_ld_ok N HN w1 src t p 0 (x :: l) (q_beg q) x Hhold ltac:(rewrite Nat.add_0_r; exact Hbeg) eq_refl Hle)). reflexivity. }
    erewrite mrun_cons by (cbn [dq_step]; rewrite (bind_ok _ _ _ _ _ (q_get_ok _ _ _ Hs)); reflexivity). cbn [mrun q_size]. rewrite Esz. eexists. reflexivity.
  - cbn [mrun]. rewrite (bind_abort _ _ _ (moved_fails _ _ _ _ _ Hm ltac:(discriminate) H)). reflexivity.
Qed.

(** ** Empty deques *)
Theorem fresh_refuted (ops : list (dop A)) rs (s : sw) id id2 :
  srun ds_step ops ∅ = SVal (rs, s) -> s !! id = None -> s !! id2 = None -> id <> id2 ->
  mrun (dq_step N) (ops ++ [DNew id; DIter id]) dst_init = UB /\ mrun (dq_step N) (ops ++ [DNew id; DCopyNew id2 id]) dst_init = UB.
Proof.
  intros H1 Hn Hn2 Hne. destruct (dq_reached N HN _ _ _ H1) as (w & Hw & Hthen). pose proof (winv_none _ _ _ _ Hw Hn) as Hq. pose proof (winv_none _ _ _ _ Hw Hn2) as Hq2.
  set (q0 := DQ 0 0 [] (It 0 PUninit None) (It 0 PUninit None)). set (w1 := DSt (d_blk w) (d_fresh w) (d_cnt w) (<[id := q0]> (d_obj w))).
  assert (R1 : dq_step N (DNew id) w = Ok (RUnit, w1)) by (cbn [dq_step]; apply dq_unit_ok; unfold dq_new; rewrite Hq; reflexivity).
  assert (Hrange : forall X (body : X -> A -> M (dst A) X) acc w2, d_obj w2 !! id = Some q0 -> range_for N id body acc w2 = UB).
  { intros X body acc w2 H. unfold range_for. rewrite (bind_ok _ _ _ _ _ (q_get_ok _ _ _ H)). reflexivity. }
  rewrite !Hthen, !(mrun_cons _ _ _ _ _ _ R1). cbn [mrun]. split.
  - rewrite bind_ub; [reflexivity|]. cbn [dq_step]. apply bind_ub. apply Hrange. apply lookup_insert.
  - rewrite bind_ub; [reflexivity|]. cbn [dq_step]. apply bind_ub. set (w2 := DSt (d_blk w1) (d_fresh w1) (d_cnt w1) (<[id2 := q0]> (d_obj w1))).
    rewrite (bind_ok _ _ w1 tt w2) by (unfold dq_new; cbn [d_obj w1]; rewrite lookup_insert_ne, Hq2 by congruence; reflexivity).
    unfold dq_assign. rewrite (proj2 (Nat.eqb_neq id2 id)) by congruence.
    assert (Hc : dq_clear N id2 w2 = Ok (tt, w2)) by (unfold dq_clear; rewrite (bind_ok _ _ _ _ _ (q_get_ok w2 id2 q0 (lookup_insert _ _ _))); reflexivity).
    rewrite (bind_ok _ _ _ _ _ Hc). apply Hrange. cbn [d_obj w2 w1]. rewrite lookup_insert_ne, lookup_insert by congruence. reflexivity.
Qed.

Theorem cleared_refuted (ops : list (dop A)) rs (s : sw) id id2 x l :
  srun ds_step ops ∅ = SVal (rs, s) -> s !! id = Some (x :: l, true) -> s !! id2 = None ->
  mrun (dq_step N) (ops ++ [DClear id; DIter id]) dst_init = UB /\ mrun (dq_step N) (ops ++ [DClear id; DCopyNew id2 id]) dst_init = UB.
Proof.
  intros H1 Es Hn2. assert (Hne : id <> id2) by congruence. destruct (dq_reached N HN _ _ _ H1) as (w & Hw & Hthen).
  destruct (winv_get _ _ _ _ _ _ Hw Es) as (q & t & Hq & Hd). pose proof (winv_keys _ _ _ Hw) as Hk.
  destruct (clear_ok N HN w id (x :: l) true q t Hq Hd Hk) as (w1 & q1 & R1 & Hobj & Eb & Ee & Hd1 & (_ & Ogone & _) & _).
  destruct Hd as (p & Et & Esz & Ecap & Hnd & HB & Hbeg & Hend & Hhold). pose proof Hbeg as (bb & ob & Hbb & Hcb & _). pose proof Hend as (be & oe & _ & Hce & _).
  assert (Heq : eqp (i_cur (q_beg q)) (i_cur (q_end q)) = false).
  { rewrite (at_pos_eqp N HN _ _ _ _ _ _ _ Hnd Hbeg Hend). apply Nat.eqb_neq. simpl. lia. }
  assert (Hgone : d_blk w1 !! bb = None) by (apply Ogone; [eapply elem_of_list_lookup_2; exact Hbb|apply not_elem_of_nil]).
  assert (Rc : dq_step N (DClear id) w = Ok (RUnit, w1)) by (cbn [dq_step]; apply dq_unit_ok; exact R1).
  assert (Hrange : forall X (body : X -> A -> M (dst A) X) acc w2, d_obj w2 !! id = Some q1 -> d_blk w2 !! bb = None -> range_for N id body acc w2 = UB).
  { intros X body acc w2 H Hb. unfold range_for. rewrite (bind_ok _ _ _ _ _ (q_get_ok _ _ _ H)). unfold it_copy. rewrite Eb, Ee. rewrite bind_assoc, Hcb. cbn [rd]. rewrite !bind_ret.
    rewrite bind_assoc, Hce. cbn [rd]. rewrite !bind_ret. cbn [it_loop]. rewrite Heq. apply bind_ub. rewrite Hcb. unfold cell_ld. rewrite Hb. reflexivity. }
  assert (Hq1 : d_obj w1 !! id = Some q1) by (rewrite Hobj; apply lookup_insert).
  rewrite !Hthen, !(mrun_cons _ _ _ _ _ _ Rc). cbn [mrun]. split.
  - rewrite bind_ub; [reflexivity|]. cbn [dq_step]. apply bind_ub. apply Hrange; assumption.
  - rewrite bind_ub; [reflexivity|]. cbn [dq_step]. apply bind_ub. set (q0 := DQ 0 0 [] (It 0 PUninit None) (It 0 PUninit None)).
    set (w2 := DSt (d_blk w1) (d_fresh w1) (d_cnt w1) (<[id2 := q0]> (d_obj w1))).
    assert (Hq2 : d_obj w1 !! id2 = None) by (rewrite Hobj, lookup_insert_ne by congruence; apply (winv_none _ _ _ _ Hw Hn2)).
    rewrite (bind_ok _ _ w1 tt w2) by (unfold dq_new; rewrite Hq2; reflexivity).
    unfold dq_assign. rewrite (proj2 (Nat.eqb_neq id2 id)) by congruence.
    assert (Hc : dq_clear N id2 w2 = Ok (tt, w2)) by (unfold dq_clear; rewrite (bind_ok _ _ _ _ _ (q_get_ok w2 id2 q0 (lookup_insert _ _ _))); reflexivity).
    rewrite (bind_ok _ _ _ _ _ Hc). apply Hrange; [|exact Hgone]. cbn [d_obj w2]. rewrite lookup_insert_ne by congruence. exact Hq1.
Qed.
(** A deque emptied by pops (so that something was pushed since it was last
    constructed or cleared) can be iterated and copied. *)
Theorem emptied_ok (ops : list (dop A)) rs (s : sw) id id2 :
  srun ds_step ops ∅ = SVal (rs, s) -> s !! id = Some ([], true) -> s !! id2 = None ->
  exists w, mrun (dq_step N) (ops ++ [DIter id; DCopyNew id2 id; DSize id2; DEmpty id2]) dst_init = Ok (rs ++ [RList []; RUnit; RNat 0; RBool true], w).
Proof.
  intros H1 Es Hn2. pose proof (deque_history N HN (ops ++ [DIter id; DCopyNew id2 id; DSize id2; DEmpty id2])) as H. rewrite srun_app, H1 in H.
  cbn [srun ds_step] in H. unfold with_dq, no_dq in H. rewrite Es in H. rewrite Hn2, Es in H. rewrite lookup_insert in H. rewrite lookup_insert in H. destruct H as (w & R & _). exists w. exact R.
Qed.

Theorem all_freed (ops : list (dop A)) rs : srun ds_step ops ∅ = SVal (rs, ∅) ->
  exists w, mrun (dq_step N) ops dst_init = Ok (rs, w) /\ blocks_allocated w = 0.
Proof.
  intros H1. destruct (dq_reached N HN _ _ _ H1) as (w & Hw & Hthen). specialize (Hthen []). rewrite app_nil_r in Hthen. cbn [mrun] in Hthen. unfold ret in Hthen. rewrite app_nil_r in Hthen.
  exists w. split; [exact Hthen|]. pose proof (storage_exact N _ _ Hw) as Hs. unfold capacity_total in Hs.
  assert (E : d_obj w = ∅) by (apply map_empty; intros i; apply (winv_none _ _ _ _ Hw); apply lookup_empty). rewrite E, map_to_list_empty in Hs. cbn [sum_list_with] in Hs.
  apply Nat.eq_mul_0_l in Hs; [exact Hs|lia].
Qed.
End R.
