(** What moving deque iterators is good for and what it is not. *)
From Verif Require Import Base VectorModel VectorSpec Adapter Hist ListModel DequeModel DequeSpec DequeGeo DequeIterModel DequeIterSpec DequeIterProofs DqMoveModel DqMoveSpec DqMoveProofs.
Local Open Scope nat_scope.

Section Top.
Context {A : Type} (N : nat) (HN : 0 < N) (eqb : A -> A -> bool).

(** * Moving instead of copying *)
Definition lost_but (j : nat) (a b : gset nat) : Prop := forall i, i <> j -> (i ∈ a <-> i ∈ b).
Lemma uses_named (o : jop A) i : In i (jd_uses o) -> In i (jd_names (DMOp o)).
Proof. destruct o; cbn; tauto. Qed.
Lemma lost_but_any j a b ks : lost_but j a b -> ~ In j ks -> existsb (fun i => bool_decide (i ∈ a)) ks = existsb (fun i => bool_decide (i ∈ b)) ks.
Proof.
  intros H. induction ks as [|k ks IH]; intros Hj; [reflexivity|]. cbn [existsb]. cbn in Hj. rewrite IH by tauto. f_equal. apply bool_decide_ext, H. intros ->. tauto.
Qed.
Lemma lost_but_run j : forall (ops : list (dmop A)) s a b rs s1, lost_but j a b -> (forall o, In o ops -> ~ In j (jd_names o)) ->
  srun (dms_step eqb) ops (s, a) = SVal (rs, s1) -> exists s2, srun (dms_step eqb) ops (s, b) = SVal (rs, s2).
Proof.
  induction ops as [|o ops IH]; intros s a b rs s1 H Hn E; cbn [srun] in *; [injection E as <- _; eauto|]. pose proof (Hn o (or_introl eq_refl)) as Ho.
  assert (HX : forall r s' a', dms_step eqb o (s, a) = SVal (r, (s', a')) -> exists b', dms_step eqb o (s, b) = SVal (r, (s', b')) /\ lost_but j a' b').
  { intros r s' a'. destruct o as [o|k i]; cbn [dms_step].
    - rewrite (lost_but_any j a b) by first [exact H|intros Hu; apply Ho, uses_named, Hu]. destruct (existsb _ _); [discriminate|].
      destruct (js_step eqb o s) as [[r1 t]| |]; try discriminate. intros [= -> -> <-]. eexists. split; [reflexivity|]. intros m Hm. specialize (H m Hm). set_solver.
    - unfold with_pl. destruct (j_its s !! i) as [p|]; [|discriminate]. destruct (j_dqs s !! dp_id p) as [[l b0]|]; [|discriminate]. cbn [jd_names] in Ho.
      assert (Ei : bool_decide (i ∈ a) = bool_decide (i ∈ b)) by (apply bool_decide_ext, H; intros ->; apply Ho; right; left; reflexivity). rewrite Ei.
      destruct (_ || _); intros [= <- <- <-]; eexists; (split; [reflexivity|]); [exact H|]. intros m Hm. specialize (H m Hm). set_solver. }
  destruct (dms_step eqb o (s, a)) as [[r [t a']]| |]; try discriminate. destruct (HX _ _ _ eq_refl) as (b' & -> & H').
  destruct (srun (dms_step eqb) ops (t, a')) as [[rs1 t1]| |] eqn:E1; try discriminate. injection E as <- _.
  destruct (IH t a' b' rs1 t1 H' (fun o' Ho' => Hn o' (or_intror Ho')) E1) as (s2 & ->). eauto.
Qed.
Theorem dm_taken : forall (ops1 ops2 : list (dmop A)) k j rs1 s1 rs s, k <> j ->
  srun (dms_step eqb) ops1 (jspec0, ∅) = SVal (rs1, s1) -> j ∉ snd s1 -> (forall o, In o ops2 -> ~ In j (jd_names o)) ->
  srun (dms_step eqb) (ops1 ++ DMOp (JCopy k j) :: ops2) (jspec0, ∅) = SVal (rs, s) ->
  exists w, mrun (dm_step N eqb) (ops1 ++ DMMove k j :: ops2) dmworld0 = Ok (rs, w).
Proof.
  intros ops1 ops2 k j rs1 [s1 lost] rs s Hne E1 Hj Hn E. cbn [snd] in Hj. rewrite srun_app, E1 in E.
  pose proof (dm_history N HN eqb (ops1 ++ DMMove k j :: ops2)) as Hh. rewrite srun_app, E1 in Hh. cbn [srun] in E, Hh. cbn [dms_step jd_uses jd_sets existsb js_step list_to_set] in E, Hh.
  rewrite bool_decide_eq_false_2 in E, Hh by exact Hj. cbn [orb] in E. rewrite (proj2 (Nat.eqb_neq k j) Hne) in Hh. cbn [orb] in Hh. unfold with_pl in E, Hh.
  destruct (j_its s1 !! j) as [p|]; [|discriminate]. destruct (j_dqs s1 !! dp_id p) as [[l b]|]; [|discriminate]. unfold goto in E.
  destruct (srun (dms_step eqb) ops2 _) as [[rs2 s2]| |] eqn:E2 in E; try discriminate.
  assert (Hb : lost_but j (lost ∖ ({[k]} ∪ ∅)) (({[j]} ∪ lost) ∖ {[k]})) by (intros i Hi; set_solver).
  destruct (lost_but_run j ops2 _ _ _ _ _ Hb Hn E2) as (s3 & E3). rewrite E3 in Hh. injection E as <- _. exact Hh.
Qed.

(** * What moved-from iterators cannot do *)
Lemma run_app (ops ops2 : list (dmop A)) rs w : mrun (dm_step N eqb) ops dmworld0 = Ok (rs, w) ->
  mrun (dm_step N eqb) (ops ++ ops2) dmworld0 = match mrun (dm_step N eqb) ops2 w with Ok (rs', w') => Ok (rs ++ rs', w') | Abort => Abort | UB => UB | Diverge => Diverge end.
Proof.
  generalize (dmworld0 (A := A)) as w0. revert rs. induction ops as [|o ops IH]; intros rs w0 R; cbn [mrun app] in *.
  - injection R as <- <-. destruct (mrun _ ops2 w0) as [[rs' w']| | |]; reflexivity.
  - unfold bind, ret in *. destruct (dm_step N eqb o w0) as [[r w1]| | |]; try discriminate. destruct (mrun (dm_step N eqb) ops w1) as [[rs1 w2]| | |] eqn:E; try discriminate. injection R as <- ->.
    rewrite (IH _ _ E). destruct (mrun _ ops2 w) as [[rs' w']| | |]; reflexivity.
Qed.
(** After [k = move(j)]. *)
Lemma moved ops rs s k j p : srun (dms_step eqb) ops (jspec0, ∅) = SVal (rs, s) -> j_its (fst s) !! j = Some p ->
  exists st vs i vs', mrun (dm_step N eqb) ops dmworld0 = Ok (rs, (st, vs)) /\ dm_step N eqb (DMMove k j) (st, vs) = Ok (RUnit : out A, (st, vs')) /\
    i_cur i <> PNull /\ rd (i_cur i) st = Ok (i_cur i, st) /\
    if decide (k = j) then vs' !! j = Some (synced no_it) else vs' !! j = Some (DV no_it (i_cur i)) /\ (j ∉ snd s -> vs' !! k = Some (synced i)).
Proof.
  intros E Ep. pose proof (dm_run N HN eqb ops) as H. rewrite E in H. destruct H as ([st vs] & R & ws & Hj & Hr). destruct s as [s lost]. cbn [fst snd] in *.
  destruct (proj2 Hj _ _ Ep) as (i & Ei & Hp). cbn [fst snd] in *. pose proof (place_copy N HN _ _ _ _ (proj1 Hj) Hp) as Hc. pose proof (place_rd N HN _ _ _ _ (proj1 Hj) Hp) as Hd. cbn [fst] in Hc, Hd.
  assert (Hn : i_cur i <> PNull).
  { destruct Hp as (l & q & t & x & _ & _ & _ & Hst). unfold stands in Hst. destruct (dp_mov p).
    - destruct Hst as [_ (b & o & _ & Hc' & _)]. congruence.
    - destruct Hst as [_ (b & o & _ & Hc')]. congruence. }
  exists st, vs, i. destruct (decide (k = j)) as [->|Hne].
  - destruct (move_bad N eqb j j i lost ws vs st Hr Ei Hc (or_introl eq_refl)) as (vs' & R' & _ & H). eauto 10.
  - destruct (decide (j ∈ lost)) as [Hl|Hl].
    + destruct (move_bad N eqb k j i lost ws vs st Hr Ei Hc (or_intror Hl)) as (vs' & R' & H & _). exists vs'. repeat (split; [assumption|]). split; [|intros; contradiction].
      rewrite (H j i), decide_True by first [exact Hl|rewrite lookup_delete_ne by congruence; exact Ei]. reflexivity.
    + destruct (move_ok N HN eqb k j i lost ws vs st Hr Ei Hc Hne Hl) as (vs' & R' & H). exists vs'. repeat (split; [assumption|]). split.
      * rewrite (H j i), decide_True by first [set_solver|rewrite lookup_insert_ne by congruence; exact Ei]. reflexivity.
      * intros _. rewrite (H k i), decide_False by first [set_solver|apply lookup_insert]. reflexivity.
Qed.
Lemma no_next (st : dst A) : it_next N no_it st = UB.
Proof. reflexivity. Qed.
Lemma no_prev (st : dst A) : it_prev N no_it st = UB.
Proof. reflexivity. Qed.
Lemma no_add n (st : dst A) : it_add N (S n) no_it st = UB.
Proof. reflexivity. Qed.
Lemma no_sub n (st : dst A) : it_sub N (S n) no_it st = UB.
Proof. reflexivity. Qed.
Lemma no_plus z (st : dst A) : z <> 0%Z -> it_plus N no_it z st = UB /\ it_minus N no_it z st = UB.
Proof.
  intros Hz. unfold it_plus, it_minus. destruct (Z.ltb_spec z 0).
  - destruct (Z.to_nat (- z)) as [|n] eqn:E; [lia|]. split; [apply no_sub|apply no_add].
  - destruct (Z.to_nat z) as [|n] eqn:E; [lia|]. split; [apply no_add|apply no_sub].
Qed.
Lemma no_step o j v (st : dst A) vs : vs !! j = Some v -> v_it v = no_it -> In j (jd_moves o) -> dm_step N eqb (DMOp o) (st, vs) = UB.
Proof.
  intros Ev Hv Hj. destruct o as [o|k id|k id|k id z|k i|k|k|k i|k i|k i z|k i z|k|k i|k i|k b e a|b e]; cbn [jd_moves] in Hj; try contradiction.
  5,6: destruct (Z.eqb_spec z 0) as [|Hz]; [contradiction|].
  all: destruct Hj as [->|[]]; cbn [dm_step]; unfold bind, get_dv, on_dqs; cbn [fst snd]; rewrite Ev; cbn [fst snd]; rewrite Hv; rewrite ?no_next, ?no_prev; try reflexivity.
  - rewrite (proj1 (no_plus z st Hz)). reflexivity.
  - rewrite (proj2 (no_plus z st Hz)). reflexivity.
Qed.
Theorem dm_advance : forall (ops : list (dmop A)) rs s k j p o, srun (dms_step eqb) ops (jspec0, ∅) = SVal (rs, s) -> j_its (fst s) !! j = Some p ->
  In j (jd_moves o) -> mrun (dm_step N eqb) (ops ++ [DMMove k j; DMOp o]) dmworld0 = UB.
Proof.
  intros ops rs s k j p o E Ep Ho. destruct (moved ops rs s k j p E Ep) as (st & vs & i & vs' & R & R' & _ & _ & Hv). rewrite (run_app _ _ _ _ R). cbn [mrun]. rewrite (bind_ok _ _ _ _ _ R').
  assert (exists v, vs' !! j = Some v /\ v_it v = no_it) as (v & Ev & Hn) by (destruct (decide (k = j)); [|destruct Hv as [Hv _]]; rewrite Hv; eexists; split; reflexivity).
  unfold bind. rewrite (no_step o j v st vs' Ev Hn Ho). reflexivity.
Qed.
Theorem dm_copy : forall (ops : list (dmop A)) rs s k i j p, srun (dms_step eqb) ops (jspec0, ∅) = SVal (rs, s) -> j_its (fst s) !! j = Some p -> j ∉ snd s ->
  k <> j -> i <> j -> i <> k ->
  exists w, mrun (dm_step N eqb) (ops ++ [DMMove k j; DMOp (JCopy i j); DMOp (JEq k j); DMOp (JEq i j)]) dmworld0 = Ok (rs ++ [RUnit; RUnit; RBool true; RBool false], w) /\
    dm_step N eqb (DMOp (JRead i)) w = UB.
Proof.
  intros ops rs s k i j p E Ep Hl Hkj Hij Hik. destruct (moved ops rs s k j p E Ep) as (st & vs & c & vs' & R & R' & Hn & Hd & Hv). rewrite decide_False in Hv by exact Hkj. destruct Hv as [Ej Ek].
  specialize (Ek Hl). rewrite (run_app _ _ _ _ R). cbn [mrun]. rewrite (bind_ok _ _ _ _ _ R').
  assert (R2 : dm_step N eqb (DMOp (JCopy i j)) (st, vs') = Ok (RUnit : out A, (st, <[i := synced no_it]> vs'))).
  { cbn [dm_step]. unfold bind, get_dv. cbn [fst snd]. rewrite Ej. reflexivity. }
  assert (Heq : forall a b va vb, <[i := synced no_it]> vs' !! a = Some va -> <[i := synced no_it]> vs' !! b = Some vb -> rd (v_dat va) st = Ok (v_dat va, st) -> rd (v_dat vb) st = Ok (v_dat vb, st) ->
    dm_step N eqb (DMOp (JEq a b)) (st, <[i := synced no_it]> vs') = Ok (RBool (eqp (v_dat va) (v_dat vb)) : out A, (st, <[i := synced no_it]> vs'))).
  { intros a b va vb Ea Eb Ra Rb. cbn [dm_step]. unfold bind, get_dv, on_dqs. cbn [fst snd]. rewrite Ea. cbn [fst snd]. rewrite Eb. cbn [fst snd]. rewrite Ra. cbn [fst snd]. rewrite Rb. reflexivity. }
  pose proof (Heq k j (synced c) (DV no_it (i_cur c)) ltac:(rewrite lookup_insert_ne by exact Hik; exact Ek) ltac:(rewrite lookup_insert_ne by exact Hij; exact Ej) Hd Hd) as R3.
  pose proof (Heq i j (synced no_it) (DV no_it (i_cur c)) ltac:(apply lookup_insert) ltac:(rewrite lookup_insert_ne by exact Hij; exact Ej) eq_refl Hd) as R4.
  unfold bind. rewrite R2, R3, R4. clear R2 R3 R4.
  cbn [v_dat synced]. assert (E1 : eqp (i_cur c) (i_cur c) = true) by (apply bool_decide_eq_true_2; reflexivity). assert (E2 : eqp (i_cur no_it) (i_cur c) = false) by (apply bool_decide_eq_false_2; cbn; congruence).
  rewrite E1, E2. eexists. split; [reflexivity|]. cbn [dm_step]. unfold bind, get_dv, on_dqs. cbn [fst snd]. rewrite lookup_insert. reflexivity.
Qed.
Theorem dm_self : forall (ops : list (dmop A)) rs s j p, srun (dms_step eqb) ops (jspec0, ∅) = SVal (rs, s) -> j_its (fst s) !! j = Some p ->
  mrun (dm_step N eqb) (ops ++ [DMMove j j; DMOp (JRead j)]) dmworld0 = UB.
Proof.
  intros ops rs s j p E Ep. destruct (moved ops rs s j j p E Ep) as (st & vs & i & vs' & R & R' & _ & _ & Hv). rewrite decide_True in Hv by reflexivity. rewrite (run_app _ _ _ _ R). cbn [mrun]. rewrite (bind_ok _ _ _ _ _ R').
  cbn [dm_step]. unfold bind, get_dv, on_dqs. cbn [fst snd]. rewrite Hv. reflexivity.
Qed.
End Top.
