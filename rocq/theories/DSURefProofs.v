(** Proofs about DisjointSet by reference: the invariant and one call. *)
From Verif Require Import Base VectorModel VectorSpec VecProg VectorProofs VectorWorld VectorExtra Adapter LRun Hist DSUModel DSUSpec DSUProofs
  DSUUnionModel DSUUnionSpec DSUUnionProofs VecIterModel VecIterSpec VecIterProofs DSURefModel DSURefSpec DSURefFind DSURefUnion.

Notation lift := VectorModel.lift.
Notation reps := (gmap nat (list nat)).

Section Proofs.
Context (ord : order).
Implicit Types (st : rst) (ls : lZ) (s : rsp) (t : reps).

(** ** What kept references are *)
Definition rok t (i : gmap nat nat) st ls (r : cref) (q : sref) : Prop :=
  match q with
  | SInt x => r = CVar x /\ is_Some (i !! x)
  | SElem id n cur => exists p j A cap d y, r = CSlot p /\ rvar (r_vecs st) p (PAt id j) /\ ls !! id = Some (LVec A cap) /\
      t !! id = Some d /\ A !! j = Some (Z.of_nat y) /\ n < length d /\ rep d y = rep d n /\ (cur = true -> y = rep d n)
  | SGone => r = CGone \/ exists p, r = CSlot p /\ rvar (r_vecs st) p PGone
  end.
Record rinvl s st ls : Prop := RInv {
  ri_winv : winv (r_vecs st) ls;
  ri_rel : wrel (p_sets s) ls;
  ri_ints : forall x, r_ints st !! x = Z.of_nat <$> p_ints s !! x;
  ri_refs : forall k, match r_refs st !! k, p_refs s !! k with
                      | Some r, Some q => rok (p_sets s) (p_ints s) st ls r q
                      | None, None => True
                      | _, _ => False
                      end }.
Definition rinv s st : Prop := exists ls, rinvl s st ls.

Lemma rinv_init : rinv rsp0 r_init.
Proof.
  exists ∅. split.
  - apply winv_init.
  - apply wrel_empty.
  - intros x. cbn. rewrite !lookup_empty. reflexivity.
  - intros k. cbn. rewrite !lookup_empty. exact I.
Qed.

(** ** Arguments *)
Lemma ref_some s st ls k q : rinvl s st ls -> p_refs s !! k = Some q -> exists r, r_refs st !! k = Some r /\ rok (p_sets s) (p_ints s) st ls r q.
Proof. intros H E. pose proof (ri_refs _ _ _ H k) as Hk. rewrite E in Hk. destruct (r_refs st !! k); [eauto|destruct Hk]. Qed.

Lemma bound_exact s st ls a x : rinvl s st ls -> exact a s = Some x ->
  exists r, bound a st = Ok (r, st) /\ reads st ls r x /\ rok (p_sets s) (p_ints s) st ls (kept r) (refers a s).
Proof.
  intros H. destruct a as [n|v|k]; cbn [exact bound refers].
  - intros [= ->]. exists (CTmp (Z.of_nat x)). cbn. auto.
  - intros E. exists (CVar v). pose proof (ri_ints _ _ _ H v) as Hv. rewrite E in Hv. cbn in Hv. rewrite Hv. cbn. rewrite Hv, E. split_and!; eauto.
  - destruct (p_refs s !! k) as [q|] eqn:E; [|discriminate]. destruct (ref_some _ _ _ _ _ H E) as (r & Hr & Hok). rewrite Hr.
    destruct q as [v|id n [|]|]; intros Hx; try discriminate; exists r; cbn [rok] in Hok.
    + destruct Hok as [-> Hs]. pose proof (ri_ints _ _ _ H v) as Hv. rewrite Hx in Hv. cbn in *. rewrite Hv. split_and!; auto.
    + destruct Hok as (p & j & A & cap & d & y & -> & Hp & Hl & Hd & Hj & Hn & Hy & Hc). rewrite Hd in Hx. cbn in Hx. injection Hx as <-.
      split_and!; auto.
      * exists id, j, A, cap. rewrite <- (Hc eq_refl). auto.
      * cbn [kept rok]. exists p, j, A, cap, d, y. split_and!; auto.
Qed.

(** The element an argument names, up to its set. *)
Definition near (d : list nat) (y x : nat) : Prop := y = x \/ (x < length d /\ y < length d /\ rep d y = rep d x).
Lemma bound_member s st ls id d a x : rinvl s st ls -> p_sets s !! id = Some d -> member id a s = Some x ->
  exists r y, bound a st = Ok (r, st) /\ reads st ls r y /\ near d y x.
Proof.
  intros H Hd Hm.
  assert (Hex : exact a s = Some x -> exists r y, bound a st = Ok (r, st) /\ reads st ls r y /\ near d y x).
  { intros E. destruct (bound_exact _ _ _ _ _ H E) as (r & H1 & H2 & _). exists r, x. split_and!; auto. left. reflexivity. }
  destruct a as [n|v|k]; cbn [member] in Hm; auto. destruct (p_refs s !! k) as [[v|id' n [|]|]|] eqn:E; auto.
  destruct (Nat.eqb_spec id' id) as [->|]; [|discriminate]. injection Hm as <-. clear Hex.
  destruct (ref_some _ _ _ _ _ H E) as (r & Hr & p & j & A & cap & d' & y & -> & Hp & Hl & Hd' & Hj & Hn & Hy & _).
  assert (d' = d) as -> by congruence. destruct (wrel_some _ _ _ _ (ri_rel _ _ _ H) Hd) as (A' & cap' & Hl' & Hrel).
  assert (A' = A /\ cap' = cap) as [-> ->] by (split; congruence). destruct (child _ _ _ _ Hrel Hj) as (Hyl & _ & _).
  exists (CSlot p), y. cbn [bound]. rewrite Hr. split_and!; auto.
  - exists id, j, A, cap. auto.
  - right. auto.
Qed.

(** ** References across calls that keep the storage *)
Definition keep t t' (q : sref) : sref := match q with SElem id n cur => SElem id n (cur && same_rep t t' id n) | q => q end.
Lemma keep_same t i st ls r q : rok t i st ls r q -> keep t t q = q.
Proof.
  destruct q as [x|id n cur|]; auto. intros (p & j & A & cap & d & y & _ & _ & _ & Hd & _). cbn [keep]. unfold same_rep.
  rewrite Hd, Nat.eqb_refl, andb_true_r. reflexivity.
Qed.

Lemma rok_moved t i st ls st' id d d' A A' cap r q : t !! id = Some d -> ls !! id = Some (LVec A cap) -> drel d A ->
  moved d d' A A' -> later st st' -> rok t i st ls r q -> rok (<[id := d']> t) i st' (<[id := LVec A' cap]> ls) r (keep t (<[id := d']> t) q).
Proof.
  intros Hd Hl Hrel (Hrel' & Hlen & Hmap & Hs) Hlt. destruct q as [x|id' n cur|]; auto; cycle 1.
  { intros [->|(p & -> & Hp)]; [left; reflexivity|right]. exists p. split; [reflexivity|eauto using later_rvar]. }
  intros (p & j & B & c & e & y & -> & Hp & Hl' & He & Hj & Hn & Hy & Hc). cbn [keep rok].
  destruct (decide (id' = id)) as [->|Hne].
  - assert (B = A /\ c = cap) as [-> ->] by (split; congruence). assert (e = d) as -> by congruence.
    destruct (child _ _ _ _ Hrel Hj) as (Hyl & Hjl & Ej).
    assert (exists y', A' !! j = Some (Z.of_nat y') /\ y' < length d /\ rep d y' = rep d n /\ (cur = true -> y' = rep d n)) as (y' & Hy' & Hyl' & Er & Ec).
    { destruct (Hs j y Hj) as [E|E]; [exists y; auto|]. exists (rep d j). destruct (drel_wf _ _ Hrel j Hjl) as [W1 W2].
      split_and!; auto; congruence. }
    exists p, j, A', cap, d', y'. rewrite !lookup_insert. split_and!; eauto using later_rvar.
    + lia.
    + intros Hb. apply andb_true_iff in Hb as [Hb Hsame]. unfold same_rep in Hsame. rewrite Hd, lookup_insert in Hsame.
      apply Nat.eqb_eq in Hsame. rewrite <- Hsame. auto.
  - exists p, j, B, c, e, y. rewrite !lookup_insert_ne by congruence. unfold same_rep. rewrite lookup_insert_ne by congruence.
    rewrite He, Nat.eqb_refl, andb_true_r. split_and!; eauto using later_rvar.
Qed.

Lemma rinvl_moved s st ls st' id d d' A A' cap : rinvl s st ls -> p_sets s !! id = Some d -> ls !! id = Some (LVec A cap) ->
  winv (r_vecs st') (<[id := LVec A' cap]> ls) -> later st st' -> moved d d' A A' ->
  rinvl (RSp (<[id := d']> (p_sets s)) (p_ints s) (keep (p_sets s) (<[id := d']> (p_sets s)) <$> p_refs s)) st' (<[id := LVec A' cap]> ls).
Proof.
  intros H Hd Hl Hw Hlt Hm. destruct (wrel_some _ _ _ _ (ri_rel _ _ _ H) Hd) as (A0 & c0 & Hl0 & Hrel).
  assert (A0 = A /\ c0 = cap) as [-> ->] by (split; congruence). split; cbn [p_sets p_ints p_refs].
  - exact Hw.
  - apply wrel_insert; [apply H|apply Hm].
  - destruct Hlt as (-> & _). apply H.
  - intros k. pose proof (ri_refs _ _ _ H k) as Hk. pose proof Hlt as (_ & -> & _). rewrite lookup_fmap.
    destruct (r_refs st !! k), (p_refs s !! k); cbn; auto. eapply rok_moved; eauto.
Qed.
Lemma keep_all s st ls : rinvl s st ls -> keep (p_sets s) (p_sets s) <$> p_refs s = p_refs s.
Proof.
  intros H. apply map_eq. intros k. rewrite lookup_fmap. destruct (p_refs s !! k) as [q|] eqn:E; [|reflexivity].
  destruct (ref_some _ _ _ _ _ H E) as (r & _ & Hok). cbn. f_equal. eapply keep_same; eauto.
Qed.
Lemma rinvl_eased s st ls st' id d A A' cap : rinvl s st ls -> p_sets s !! id = Some d -> ls !! id = Some (LVec A cap) ->
  winv (r_vecs st') (<[id := LVec A' cap]> ls) -> later st st' -> eased d A A' -> rinvl s st' (<[id := LVec A' cap]> ls).
Proof.
  intros H Hd Hl Hw Hlt He. pose proof (rinvl_moved _ _ _ _ _ _ _ _ _ _ H Hd Hl Hw Hlt (eased_moved _ _ _ He)) as H'.
  rewrite (insert_id (p_sets s) id d Hd), (keep_all _ _ _ H) in H'. destruct s; exact H'.
Qed.

(** Calls that end in a state of the form of [keep]. *)
Definition plain (o : uop) : bool :=
  match o with UDo (DMoveNew _ _ | DAssign _ _ | DMoveAssign _ _ | DDestroy _) => false | _ => true end.
Lemma plain_keep o t t' q : plain o = true -> sfollow o t t' q = keep t t' q.
Proof. destruct q as [x|id n cur|]; auto. destruct o as [[]|]; try discriminate; reflexivity. Qed.
Lemma plain_all o t t' (R : gmap nat sref) : plain o = true -> sfollow o t t' <$> R = keep t t' <$> R.
Proof. intros Ho. apply map_fmap_ext. intros k q _. apply plain_keep, Ho. Qed.

(** ** find *)
Lemma near_small d y x : near d y x -> (x < length d <-> y < length d).
Proof. intros [->|(?&?&?)]; tauto. Qed.
Lemma near_rep d y x : near d y x -> rep d y = rep d x.
Proof. intros [->|(?&?&?)]; congruence. Qed.

Lemma find_call s st ls id d r x y : rinvl s st ls -> p_sets s !! id = Some d -> reads st ls r y -> near d y x -> x < length d ->
  exists st' ls' r', rf_find_top ord id r st = Ok (r', st') /\ rinvl s st' ls' /\ reads st' ls' r' (rep d x) /\ later st st' /\
    (forall q v, reads st ls q v -> exists v', reads st' ls' q v' /\ (v' = v \/ (v < length d /\ v' = rep d v))) /\
    (if Nat.eqb (rep d y) y then r' = r else rok (p_sets s) (p_ints s) st' ls' r' (SElem id y true)).
Proof.
  intros H Hd Hr Hn Hx. destruct (wrel_some _ _ _ _ (ri_rel _ _ _ H) Hd) as (A & cap & Hl & Hrel).
  apply (near_small _ _ _ Hn) in Hx as Hy.
  destruct (find_top_ref ord st ls id A cap d y r (ri_winv _ _ _ H) Hl Hrel Hy Hr) as (st' & A' & r' & Hrun & Hw & Hlt & _ & He & Hr' & Hsh).
  exists st', (<[id := LVec A' cap]> ls), r'. rewrite (near_rep _ _ _ Hn) in Hr'. split_and!; auto.
  - eapply rinvl_eased; eauto.
  - intros q v Hq. eapply reads_moved; eauto using eased_moved.
  - destruct (Nat.eqb_spec (rep d y) y); [exact Hsh|]. destruct Hsh as (p & -> & Hp & Hj).
    exists p, y, A', cap, d, (rep d y). rewrite lookup_insert. split_and!; auto.
    apply (drel_wf _ _ Hrel). exact Hy.
Qed.
Lemma find_call_abort s st ls id d r x y : rinvl s st ls -> p_sets s !! id = Some d -> reads st ls r y -> near d y x -> length d <= x ->
  rf_find_top ord id r st = Abort.
Proof.
  intros H Hd Hr Hn Hx. destruct (wrel_some _ _ _ _ (ri_rel _ _ _ H) Hd) as (A & cap & Hl & Hrel).
  pose proof (proj1 Hrel) as Hlen.
  eapply find_top_ref_abort; [apply H|exact Hl| |exact Hr]. destruct Hn as [->|(? & _)]; lia.
Qed.
Lemma near_step d v v' x A : drel d A -> near d v x -> (v' = v \/ (v < length d /\ v' = rep d v)) -> near d v' x.
Proof.
  intros Hrel Hn [->|[Hv ->]]; [exact Hn|]. right. destruct (drel_wf _ _ Hrel v Hv) as [W1 W2].
  destruct (near_small _ _ _ Hn). split_and!; [tauto|exact W1|]. rewrite W2. apply near_rep, Hn.
Qed.
Lemma fixed_step d v v' x A : drel d A -> x < length d -> v = rep d x -> (v' = v \/ (v < length d /\ v' = rep d v)) -> v' = rep d x.
Proof. intros Hrel Hx -> [->|[Hv ->]]; [reflexivity|]. apply (drel_wf _ _ Hrel). exact Hx. Qed.

(** A result of a call as the specification's [call] states it. *)
Lemma call_same o s st ls st' ls' r c : rinvl s st ls -> plain o = true -> du_step o (p_sets s) = SVal (r, p_sets s) ->
  c = Ok (r, st') -> rinvl s st' ls' -> magree rinv (call o s) c.
Proof.
  intros H Ho E -> H'. unfold call. rewrite E, (plain_all _ _ _ _ Ho), (keep_all _ _ _ H). exists st'. split; [reflexivity|].
  exists ls'. destruct s; exact H'.
Qed.

Lemma find_agree s st id a : rinv s st -> magree rinv (with1 (member id a s) (fun x => call (UDo (DFind id x)) s)) (p_find ord id a st).
Proof.
  intros [ls H]. destruct (member id a s) as [x|] eqn:E; [|exact I]. cbn [with1].
  destruct (p_sets s !! id) as [d|] eqn:Hd; [|unfold call; cbn; rewrite Hd; exact I].
  destruct (bound_member _ _ _ _ _ _ _ H Hd E) as (r & y & Hb & Hr & Hn). unfold p_find. rewrite (bind_ok _ _ _ _ _ Hb).
  destruct (Nat.ltb_spec x (length d)) as [Hx|Hx].
  - destruct (find_call _ _ _ _ _ _ _ _ H Hd Hr Hn Hx) as (st' & ls' & r' & Hrun & H' & Hr' & _). rewrite (bind_ok _ _ _ _ _ Hrun).
    rewrite (bind_ok _ _ _ _ _ (rd_ok _ _ _ _ (ri_winv _ _ _ H') Hr')). eapply call_same; eauto.
    cbn [du_step dr_step]. rewrite Hd, (proj2 (Nat.ltb_lt _ _) Hx). reflexivity.
  - rewrite (bind_abort _ _ _ (find_call_abort _ _ _ _ _ _ _ _ H Hd Hr Hn Hx)). unfold call. cbn [du_step dr_step].
    rewrite Hd, (proj2 (Nat.ltb_ge _ _) Hx). reflexivity.
Qed.

(** ** connected *)
Lemma connected_run s st ls id d r1 r2 x1 x2 y1 y2 : rinvl s st ls -> p_sets s !! id = Some d -> reads st ls r1 y1 -> reads st ls r2 y2 ->
  near d y1 x1 -> near d y2 x2 ->
  if Nat.ltb x1 (length d) && Nat.ltb x2 (length d) then
    exists st' ls', rf_connected ord id r1 r2 st = Ok (Nat.eqb (rep d x1) (rep d x2), st') /\ rinvl s st' ls'
  else rf_connected ord id r1 r2 st = Abort.
Proof.
  intros H Hd Hr1 Hr2 Hn1 Hn2. destruct (wrel_some _ _ _ _ (ri_rel _ _ _ H) Hd) as (A & cap & Hl & Hrel).
  assert (Hgo : forall q1 q2 z1 z2 v1 v2, reads st ls q1 v1 -> reads st ls q2 v2 -> near d v1 z1 -> near d v2 z2 ->
    let m := (q1' <- rf_find_top ord id q1 ;;
      if o_early ord then w1 <- rd q1' ;; q2' <- rf_find_top ord id q2 ;; w2 <- rd q2' ;; ret (w1 =? w2)%Z
      else q2' <- rf_find_top ord id q2 ;; w1 <- rd q1' ;; w2 <- rd q2' ;; ret (w1 =? w2)%Z) in
    if Nat.ltb z1 (length d) && Nat.ltb z2 (length d) then exists st' ls', m st = Ok (Nat.eqb (rep d z1) (rep d z2), st') /\ rinvl s st' ls'
    else m st = Abort).
  { intros q1 q2 z1 z2 v1 v2 Hq1 Hq2 Hm1 Hm2 m. unfold m. destruct (Nat.ltb_spec z1 (length d)) as [Hz1|Hz1]; simpl andb; cycle 1.
    { apply bind_abort. eapply find_call_abort; eauto. }
    destruct (find_call _ _ _ _ _ _ _ _ H Hd Hq1 Hm1 Hz1) as (st1 & ls1 & q1' & Hrun1 & H1 & Hq1' & _ & Hst1 & _).
    rewrite (bind_ok _ _ _ _ _ Hrun1). destruct (Hst1 q2 v2 Hq2) as (v2' & Hq2' & Hv2').
    apply (near_step _ _ _ _ _ Hrel Hm2) in Hv2'. pose proof (rd_ok _ _ _ _ (ri_winv _ _ _ H1) Hq1') as Hrd1.
    destruct (Nat.ltb_spec z2 (length d)) as [Hz2|Hz2]; cycle 1.
    { pose proof (find_call_abort _ _ _ _ _ _ _ _ H1 Hd Hq2' Hv2' Hz2) as Hab. destruct (o_early ord).
      - rewrite (bind_ok _ _ _ _ _ Hrd1). apply bind_abort, Hab.
      - apply bind_abort, Hab. }
    destruct (find_call _ _ _ _ _ _ _ _ H1 Hd Hq2' Hv2' Hz2) as (st2 & ls2 & q2' & Hrun2 & H2 & Hq2'' & _ & Hst2 & _).
    destruct (Hst2 q1' _ Hq1') as (w & Hw & Ew). apply (fixed_step _ _ _ z1 _ Hrel Hz1 eq_refl) in Ew. subst w.
    pose proof (rd_ok _ _ _ _ (ri_winv _ _ _ H2) Hq2'') as Hrd2. pose proof (rd_ok _ _ _ _ (ri_winv _ _ _ H2) Hw) as Hrd3.
    assert ((Z.of_nat (rep d z1) =? Z.of_nat (rep d z2))%Z = Nat.eqb (rep d z1) (rep d z2)) as Heq.
    { destruct (Z.eqb_spec (Z.of_nat (rep d z1)) (Z.of_nat (rep d z2))), (Nat.eqb_spec (rep d z1) (rep d z2)); auto; lia. }
    exists st2, ls2. split; [|exact H2]. destruct (o_early ord).
    - rewrite (bind_ok _ _ _ _ _ Hrd1), (bind_ok _ _ _ _ _ Hrun2), (bind_ok _ _ _ _ _ Hrd2), Heq. reflexivity.
    - rewrite (bind_ok _ _ _ _ _ Hrun2), (bind_ok _ _ _ _ _ Hrd3), (bind_ok _ _ _ _ _ Hrd2), Heq. reflexivity. }
  unfold rf_connected. destruct (o_swap ord); cbv zeta.
  - specialize (Hgo r2 r1 x2 x1 y2 y1 Hr2 Hr1 Hn2 Hn1). cbv zeta in Hgo. rewrite andb_comm, Nat.eqb_sym. exact Hgo.
  - exact (Hgo r1 r2 x1 x2 y1 y2 Hr1 Hr2 Hn1 Hn2).
Qed.

Lemma connected_agree s st id a b : rinv s st ->
  magree rinv (with1 (member id a s) (fun x => with1 (member id b s) (fun y => call (UDo (DConnected id x y)) s))) (p_connected ord id a b st).
Proof.
  intros [ls H]. destruct (member id a s) as [x|] eqn:Ea; [|exact I]. destruct (member id b s) as [y|] eqn:Eb; [|exact I]. cbn [with1].
  destruct (p_sets s !! id) as [d|] eqn:Hd; [|unfold call; cbn; rewrite Hd; exact I].
  destruct (bound_member _ _ _ _ _ _ _ H Hd Ea) as (r1 & y1 & Hb1 & Hr1 & Hn1).
  destruct (bound_member _ _ _ _ _ _ _ H Hd Eb) as (r2 & y2 & Hb2 & Hr2 & Hn2).
  unfold p_connected. rewrite (bind_ok _ _ _ _ _ Hb1), (bind_ok _ _ _ _ _ Hb2).
  pose proof (connected_run _ _ _ _ _ _ _ _ _ _ _ H Hd Hr1 Hr2 Hn1 Hn2) as Hc.
  destruct (Nat.ltb x (length d) && Nat.ltb y (length d)) eqn:El.
  - destruct Hc as (st' & ls' & Hrun & H'). rewrite (bind_ok _ _ _ _ _ Hrun). eapply call_same; eauto.
    cbn [du_step dr_step]. rewrite Hd, El. reflexivity.
  - rewrite (bind_abort _ _ _ Hc). unfold call. cbn [du_step dr_step]. rewrite Hd, El. reflexivity.
Qed.

(** ** union_set and connect *)
Lemma call_moved o s st' id d' ls' r c : plain o = true -> du_step o (p_sets s) = SVal (r, <[id := d']> (p_sets s)) -> c = Ok (r, st') ->
  rinvl (RSp (<[id := d']> (p_sets s)) (p_ints s) (keep (p_sets s) (<[id := d']> (p_sets s)) <$> p_refs s)) st' ls' -> magree rinv (call o s) c.
Proof.
  intros Ho E -> H. unfold call. rewrite E, (plain_all _ _ _ _ Ho). exists st'. split; [reflexivity|]. exists ls'. exact H.
Qed.

Lemma union_agree s st id a b : rinv s st ->
  magree rinv (with1 (exact a s) (fun x => with1 (exact b s) (fun y => call (UUnion id x y) s))) (p_step ord (PUnion id a b) st).
Proof.
  intros [ls H]. destruct (exact a s) as [x|] eqn:Ea; [|exact I]. destruct (exact b s) as [y|] eqn:Eb; [|exact I]. cbn [with1].
  destruct (p_sets s !! id) as [d|] eqn:Hd; [|unfold call; cbn; rewrite Hd; exact I].
  destruct (bound_exact _ _ _ _ _ H Ea) as (r1 & Hb1 & Hr1 & _). destruct (bound_exact _ _ _ _ _ H Eb) as (r2 & Hb2 & Hr2 & _).
  destruct (wrel_some _ _ _ _ (ri_rel _ _ _ H) Hd) as (A & cap & Hl & Hrel). pose proof (proj1 Hrel) as Hlen.
  cbn [p_step]. rewrite (bind_ok _ _ _ _ _ Hb1), (bind_ok _ _ _ _ _ Hb2).
  destruct (Nat.ltb x (length d) && Nat.ltb y (length d)) eqn:El; cycle 1.
  { rewrite (bind_abort _ _ _ (union_ref_abort st ls id A cap x y r1 r2 (ri_winv _ _ _ H) Hl ltac:(apply andb_false_iff in El as [?%Nat.ltb_ge|?%Nat.ltb_ge]; lia) Hr1 Hr2)).
    unfold call. cbn [du_step]. rewrite Hd, El. reflexivity. }
  pose proof El as [Hx%Nat.ltb_lt Hy%Nat.ltb_lt]%andb_true_iff. rewrite Hlen in Hx, Hy.
  destruct (lookup_lt_is_Some_2 A x Hx) as [va Hva]. destruct (lookup_lt_is_Some_2 A y Hy) as [vb Hvb].
  destruct (union_ref st ls id A cap d x y va vb r1 r2 (ri_winv _ _ _ H) Hl Hrel Hva Hvb Hr1 Hr2) as (st' & Hrun & Hlt & Hw & _).
  rewrite (bind_ok _ _ _ _ _ Hrun).
  destruct (Nat.eqb_spec (rep d y) y) as [Ey|Ey].
  - destruct (Nat.eqb_spec (rep d x) y) as [Ex|Ex].
    { unfold call. cbn [du_step]. rewrite Hd, El, (proj2 (Nat.eqb_eq _ _) Ey), (proj2 (Nat.eqb_eq _ _) Ex). exact I. }
    eapply call_moved; [reflexivity| |reflexivity|].
    + cbn [du_step]. rewrite Hd, El, (proj2 (Nat.eqb_eq _ _) Ey), (proj2 (Nat.eqb_neq _ _) Ex). reflexivity.
    + eapply rinvl_moved; eauto. apply uni_link; auto.
  - destruct (Nat.eqb_spec (rep d y) x) as [Ex|Ex]; cycle 1.
    { unfold call. cbn [du_step]. rewrite Hd, El, (proj2 (Nat.eqb_neq _ _) Ey), (proj2 (Nat.eqb_neq _ _) Ex). exact I. }
    eapply call_moved; [reflexivity| |reflexivity|].
    + cbn [du_step]. rewrite Hd, El, (proj2 (Nat.eqb_neq _ _) Ey), (proj2 (Nat.eqb_eq _ _) Ex), (insert_id (p_sets s) id d Hd). reflexivity.
    + eapply rinvl_moved; eauto. apply uni_noop; auto. congruence.
Qed.

Lemma connect_run s st ls id d r1 r2 x y y1 y2 : rinvl s st ls -> p_sets s !! id = Some d -> reads st ls r1 y1 -> reads st ls r2 y2 ->
  near d y1 x -> near d y2 y ->
  if Nat.ltb x (length d) && Nat.ltb y (length d) then
    rep d x <> rep d y -> exists st' ls', rf_connect ord id r1 r2 st = Ok (tt, st') /\ later st st' /\
      (let t := <[id := map (fun z => if Nat.eqb z (rep d y) then rep d x else z) d]> (p_sets s) in
       rinvl (RSp t (p_ints s) (keep (p_sets s) t <$> p_refs s)) st' ls') /\
      forall q v, reads st ls q v -> exists v', reads st' ls' q v' /\ (v' = v \/ (v < length d /\ v' = rep d v))
  else rf_connect ord id r1 r2 st = Abort.
Proof.
  intros H Hd Hr1 Hr2 Hn1 Hn2. destruct (wrel_some _ _ _ _ (ri_rel _ _ _ H) Hd) as (A & cap & Hl & Hrel). unfold rf_connect.
  destruct (Nat.ltb_spec x (length d)) as [Hx|Hx]; simpl andb; cycle 1.
  { cbv iota. apply bind_abort. eapply find_call_abort; eauto. }
  destruct (find_call _ _ _ _ _ _ _ _ H Hd Hr1 Hn1 Hx) as (st1 & ls1 & r1' & Hrun1 & H1 & Hr1' & Hlt1 & Hst1 & _).
  destruct (Hst1 r2 y2 Hr2) as (y2' & Hr2' & Hy2'). apply (near_step _ _ _ _ _ Hrel Hn2) in Hy2'.
  rewrite (bind_ok _ _ _ _ _ Hrun1), (bind_ok _ _ _ _ _ (rd_ok _ _ _ _ (ri_winv _ _ _ H1) Hr1')).
  destruct (Nat.ltb_spec y (length d)) as [Hy|Hy]; cycle 1.
  { apply bind_abort. eapply find_call_abort; eauto. }
  destruct (find_call _ _ _ _ _ _ _ _ H1 Hd Hr2' Hy2' Hy) as (st2 & ls2 & r2' & Hrun2 & H2 & Hr2'' & Hlt2 & Hst2 & _).
  intros Exy. rewrite (bind_ok _ _ _ _ _ Hrun2), (bind_ok _ _ _ _ _ (rd_ok _ _ _ _ (ri_winv _ _ _ H2) Hr2'')).
  destruct (wrel_some _ _ _ _ (ri_rel _ _ _ H2) Hd) as (A2 & cap2 & Hl2 & Hrel2). pose proof (proj1 Hrel2) as Hlen2.
  destruct (drel_wf _ _ Hrel2 x Hx) as [Hxl Hxx]. destruct (drel_wf _ _ Hrel2 y Hy) as [Hyl Hyy].
  destruct (lookup_lt_is_Some_2 A2 (rep d x) ltac:(lia)) as [va Hva]. destruct (lookup_lt_is_Some_2 A2 (rep d y) ltac:(lia)) as [vb Hvb].
  destruct (union_ref st2 ls2 id A2 cap2 d (rep d x) (rep d y) va vb (CTmp (Z.of_nat (rep d x))) (CTmp (Z.of_nat (rep d y))) (ri_winv _ _ _ H2) Hl2 Hrel2 Hva Hvb eq_refl eq_refl)
    as (st' & Hrun & Hlt & Hw & _).
  assert (Hm : moved d (map (fun z => if Nat.eqb z (rep d y) then rep d x else z) d) A2 (uni A2 (rep d x) (rep d y) va vb)).
  { pose proof (uni_link d A2 (rep d x) (rep d y) va vb Hrel2 Hva Hvb Hyy) as Hu. rewrite Hxx in Hu. apply Hu. congruence. }
  exists st', (<[id := LVec (uni A2 (rep d x) (rep d y) va vb) cap2]> ls2). split_and!; [exact Hrun|eauto using later_trans|eapply rinvl_moved; eauto|].
  assert (Hwf : forall v, v < length d -> rep d v < length d /\ rep d (rep d v) = rep d v) by apply (drel_wf _ _ Hrel).
  intros q v Hq. destruct (Hst1 q v Hq) as (v1 & Hq1 & Hv1). destruct (Hst2 q v1 Hq1) as (v2 & Hq2 & Hv2).
  destruct (reads_moved _ _ _ _ _ _ _ _ _ _ _ Hl2 Hrel2 Hq2 Hlt Hm) as (v3 & Hq3 & Hv3). exists v3. split; [exact Hq3|].
  assert (v2 = v \/ (v < length d /\ v2 = rep d v)) as Hv2'.
  { destruct Hv1 as [->|[Hv ->]]; [exact Hv2|]. right. split; [exact Hv|]. destruct (Hwf v Hv). destruct Hv2 as [->|[_ ->]]; congruence. }
  destruct Hv2' as [->|[Hv ->]]; [exact Hv3|]. right. split; [exact Hv|]. destruct (Hwf v Hv). destruct Hv3 as [->|[_ ->]]; congruence.
Qed.

Lemma connect_agree s st id a b : rinv s st ->
  magree rinv (with1 (member id a s) (fun x => with1 (member id b s) (fun y => call (UDo (DConnect id x y)) s))) (p_connect ord id a b st).
Proof.
  intros [ls H]. destruct (member id a s) as [x|] eqn:Ea; [|exact I]. destruct (member id b s) as [y|] eqn:Eb; [|exact I]. cbn [with1].
  destruct (p_sets s !! id) as [d|] eqn:Hd; [|unfold call; cbn; rewrite Hd; exact I].
  destruct (bound_member _ _ _ _ _ _ _ H Hd Ea) as (r1 & y1 & Hb1 & Hr1 & Hn1).
  destruct (bound_member _ _ _ _ _ _ _ H Hd Eb) as (r2 & y2 & Hb2 & Hr2 & Hn2).
  unfold p_connect. rewrite (bind_ok _ _ _ _ _ Hb1), (bind_ok _ _ _ _ _ Hb2).
  pose proof (connect_run _ _ _ _ _ _ _ _ _ _ _ H Hd Hr1 Hr2 Hn1 Hn2) as Hc. unfold call. cbn [du_step dr_step]. rewrite Hd.
  destruct (Nat.ltb x (length d) && Nat.ltb y (length d)); [|apply bind_abort, Hc].
  destruct (Nat.eqb_spec (rep d x) (rep d y)) as [Exy|Exy]; [exact I|]. destruct (Hc Exy) as (st' & ls' & Hrun & _ & H' & _).
  rewrite (bind_ok _ _ _ _ _ Hrun), (plain_all (UDo (DConnect id x y))) by reflexivity.
  exists st'. split; [reflexivity|]. exists ls'. exact H'.
Qed.

(** ** Keeping what find returns *)
Lemma bind_agree s st k id a : rinv s st -> magree rinv (ps_step (PBind k id a) s) (p_step ord (PBind k id a) st).
Proof.
  intros [ls H]. cbn [ps_step p_step]. destruct (p_sets s !! id) as [d|] eqn:Hd; [|exact I].
  destruct (wrel_some _ _ _ _ (ri_rel _ _ _ H) Hd) as (A & cap & Hl & Hrel).
  assert (Hset : forall s' st' ls' r q, rinvl s' st' ls' -> rok (p_sets s') (p_ints s') st' ls' (kept r) q ->
    magree rinv (SVal (RUnit : out Z, RSp (p_sets s') (p_ints s') (<[k := q]> (p_refs s')))) ((set_ref k (kept r) ;;; ret RUnit) st')).
  { intros s' st' ls' r q H' Hok. eexists. split; [reflexivity|]. exists ls'. split; cbn; try apply H'.
    intros k'. destruct (decide (k = k')) as [<-|Hne]; [rewrite !lookup_insert; exact Hok|rewrite !lookup_insert_ne by exact Hne; apply H']. }
  assert (Hother : magree rinv (match with1 (exact a s) (fun y => if Nat.ltb y (length d) then SVal (if Nat.eqb (rep d y) y then refers a s else SElem id y true) else SAbort) with
      | SVal q => SVal (RUnit : out Z, RSp (p_sets s) (p_ints s) (<[k := q]> (p_refs s))) | SAbort => SAbort | SUnspec => SUnspec end)
    ((r <- bound a ;; r0 <- rf_find_top ord id r ;; set_ref k (kept r0) ;;; ret RUnit) st)).
  { destruct (exact a s) as [y|] eqn:E; [|exact I]. cbn [with1].
    destruct (bound_exact _ _ _ _ _ H E) as (r & Hb & Hr & Hok). rewrite (bind_ok _ _ _ _ _ Hb).
    destruct (Nat.ltb_spec y (length d)) as [Hy|Hy]; [|apply bind_abort; eapply find_call_abort; eauto; left; reflexivity].
    destruct (find_call _ _ _ _ _ _ y _ H Hd Hr (or_introl eq_refl) Hy) as (st' & ls' & r' & Hrun & H' & _ & Hlt & _ & Hsh).
    rewrite (bind_ok _ _ _ _ _ Hrun). apply (Hset s st' ls'); [exact H'|]. destruct (Nat.eqb (rep d y) y).
    - subst r'. destruct (find_top_ref ord st ls id A cap d y r (ri_winv _ _ _ H) Hl Hrel Hy Hr) as (st2 & A' & r2 & Hrun2 & Hw2 & Hlt2 & _ & He2 & _).
      assert (st2 = st') as -> by congruence.
      pose proof (rok_moved _ _ _ _ _ _ _ _ _ _ _ _ _ Hd Hl Hrel (eased_moved _ _ _ He2) Hlt2 Hok) as Hok'.
      rewrite (insert_id (p_sets s) id d Hd), (keep_same _ _ _ _ _ _ Hok) in Hok'.
      assert (ls' = <[id := LVec A' cap]> ls) as -> by (rewrite <- (winv_view _ _ (ri_winv _ _ _ H')), <- (winv_view _ _ Hw2); reflexivity).
      exact Hok'.
    - destruct r'; [destruct Hsh as (? & ? & ? & ? & ? & ? & Hc & _); discriminate|exact Hsh|destruct Hsh as (? & ? & ? & ? & ? & ? & Hc & _); discriminate|exact Hsh]. }
  unfold found. cbv zeta. destruct (refers a s) as [v|id' n cur|] eqn:Eref; try exact Hother.
  destruct (Nat.eqb_spec id' id) as [->|Hne]; [|exact Hother]. clear Hother.
  destruct a as [m|v|k0]; try discriminate. cbn [refers] in Eref. destruct (p_refs s !! k0) as [q|] eqn:Ek; [|discriminate]. subst q.
  destruct (ref_some _ _ _ _ _ H Ek) as (r & Hr & p & j & A0 & cap0 & d0 & y & -> & Hp & Hl0 & Hd0 & Hj & Hn & Hy & _).
  assert (d0 = d) as -> by congruence. assert (A0 = A /\ cap0 = cap) as [-> ->] by (split; congruence).
  destruct (child _ _ _ _ Hrel Hj) as (Hyl & Hjl & Ej).
  assert (Hb : bound (ARef k0) st = Ok (CSlot p, st)) by (cbn; rewrite Hr; reflexivity). rewrite (bind_ok _ _ _ _ _ Hb).
  assert (Hrd : reads st ls (CSlot p) y) by (exists id, j, A, cap; auto).
  destruct (find_top_ref ord st ls id A cap d y _ (ri_winv _ _ _ H) Hl Hrel Hyl Hrd) as (st' & A' & r' & Hrun & Hw & Hlt & _ & He & Hr' & Hsh).
  rewrite (bind_ok _ _ _ _ _ Hrun). apply (Hset s st' (<[id := LVec A' cap]> ls)); [eapply rinvl_eased; eauto|].
  destruct (Nat.eqb_spec (rep d y) y) as [Eyy|Eyy].
  - subst r'. cbn [kept]. destruct Hr' as (i2 & j2 & B & c & Hp2 & Hl2 & Hj2).
    assert (A' !! j = Some (Z.of_nat y)) as Hj'. { destruct (proj2 He j _ Hj) as [E|[_ E]]; [exact E|]. rewrite E. congruence. }
    exists p, j, A', cap, d, y. rewrite lookup_insert. split_and!; eauto using later_rvar. congruence.
  - destruct Hsh as (p' & -> & Hp' & Hj'). cbn [kept]. exists p', y, A', cap, d, (rep d y). rewrite lookup_insert.
    destruct (drel_wf _ _ Hrel y Hyl). split_and!; auto; congruence.
Qed.
End Proofs.
