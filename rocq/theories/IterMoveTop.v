(** What moving tree iterators is good for and what it is not. *)
From Verif Require Import Base Alloc AllocProofs VectorSpec Adapter Hist.
From Verif Require Import TreeModel TreeSpec TreeWorld BstWorld BstSpec BstHist TreeWSpec ListIterSpec TreeIterModel TreeIterSpec TreeIterProofs BstIterModel BstIterSpec.
From Verif Require Import IterMoveModel IterMoveSpec BstMoveProofs AvlMoveProofs.
Local Open Scope nat_scope.

Theorem bm_history : forall (A : Type) (cmp : A -> A -> bool), swo cmp -> forall pol, sound pol -> grants pol -> forall ops : list (mop (jop A)),
  match srun (bms_step cmp) ops (jspec0, ∅) with
  | SVal (rs, _) => exists w, mrun (bm_step cmp) ops (tw_init pol, ∅) = Ok (rs, w)
  | SAbort => mrun (bm_step cmp) ops (tw_init pol, ∅) = Abort
  | SUnspec => True
  end.
Proof.
  intros A cmp Hc pol Hs Hg ops. pose proof (bm_run cmp Hc pol ops Hs) as H. destruct (srun _ ops _) as [[rs s]| |]; [|exact H|exact I].
  destruct H as [(w & H & _)|(_ & ops1 & ops2 & rs1 & s1 & _ & _ & Hr)]; [eauto|]. destruct (grants_refuses _ _ Hg Hr).
Qed.
Theorem am_history : forall (A : Type) (cmp : A -> A -> bool), swo cmp -> forall pol, sound pol -> grants pol -> forall ops : list (mop (kop A)),
  match srun (ams_step cmp) ops (kspec0, ∅) with
  | SVal (rs, _) => exists w, mrun (am_step cmp) ops (tw_init pol, ∅) = Ok (rs, w)
  | SAbort => mrun (am_step cmp) ops (tw_init pol, ∅) = Abort
  | SUnspec => True
  end.
Proof.
  intros A cmp Hc pol Hs Hg ops. pose proof (am_run cmp Hc pol ops Hs) as H. destruct (srun _ ops _) as [[rs s]| |]; [|exact H|exact I].
  destruct H as [(w & H & _)|(_ & ops1 & ops2 & rs1 & s1 & _ & _ & Hr)]; [eauto|]. destruct (grants_refuses _ _ Hg Hr).
Qed.

(** * Whoever is not looked at makes no difference *)
Section But.
Context {A : Type} (cmp : A -> A -> bool) (j : nat).
Implicit Types (t : jspec (A := A)) (q : kspec (A := A)).

Definition same_but {X} (a b : gmap nat X) : Prop := forall i, i <> j -> a !! i = b !! i.
Definition same_lost (a b : gset nat) : Prop := forall i, i <> j -> (i ∈ a <-> i ∈ b).
Lemma sb_ins {X} (a b : gmap nat X) k x : same_but a b -> same_but (<[k := x]> a) (<[k := x]> b).
Proof. intros H i Hi. destruct (decide (k = i)) as [->|Hne]; [rewrite !lookup_insert; reflexivity|]. rewrite !lookup_insert_ne by exact Hne. apply H, Hi. Qed.
Lemma sl_found a b ks : same_lost a b -> same_lost (found ks a) (found ks b).
Proof. intros H i Hi. specialize (H i Hi). unfold found. set_solver. Qed.
Lemma sl_lose a b k : same_lost a b -> same_lost (lose k a) (lose k b).
Proof. intros H i Hi. specialize (H i Hi). unfold lose. set_solver. Qed.
Lemma sl_dec a b i : same_lost a b -> i <> j -> bool_decide (i ∈ a) = bool_decide (i ∈ b).
Proof. intros H Hi. apply bool_decide_ext, H, Hi. Qed.
Lemma sl_any a b ks : same_lost a b -> j ∉ ks -> any_lost ks a = any_lost ks b.
Proof.
  intros H. unfold any_lost. induction ks as [|k ks IH]; intros Hj; [reflexivity|]. cbn [existsb].
  rewrite (sl_dec a b k H) by set_solver. rewrite IH by set_solver. reflexivity.
Qed.

Definition jbut t t' : Prop := j_trees t = j_trees t' /\ j_next t = j_next t' /\ same_but (j_its t) (j_its t').
Definition res_but {S X} (R : S -> S -> Prop) (a b : sres (X * S)) : Prop :=
  match a, b with
  | SVal (r, s), SVal (r', s') => r = r' /\ R s s'
  | SAbort, SAbort | SUnspec, SUnspec => True
  | _, _ => False
  end.
Lemma jbut_put t t' k p : jbut t t' -> jbut (put_jt t k p) (put_jt t' k p).
Proof. intros (H1 & H2 & H3). unfold put_jt. split_and!; cbn; [exact H1|exact H2|apply sb_ins, H3]. Qed.
Lemma js_but (o : jop A) t t' : jbut t t' -> j ∉ j_names (MOp o) -> res_but jbut (js_step cmp o t) (js_step cmp o t').
Proof.
  intros H Hj. pose proof H as (E1 & E2 & E3).
  destruct o as [o|k id o|k id o|k id x|k id i|k i|k|k i|k|k i|k i]; cbn [j_names] in Hj; cbn [js_step]; unfold with_jt, with_bt, btrees_step, move_jt;
    rewrite <- ?E1, <- ?E2; repeat match goal with |- context [j_its t' !! ?i] => rewrite <- (E3 i) by set_solver end.
  - destruct (bs_step _ _ _) as [[r l]| |]; cbn; auto. split; [reflexivity|]. split_and!; auto.
  - destruct (j_trees t !! id) as [u|]; [|exact I]. destruct o; [split; [reflexivity|apply jbut_put, H]| |exact I]. destruct u; [exact I|]. split; [reflexivity|apply jbut_put, H].
  - destruct (j_trees t !! id) as [u|]; [|exact I]. split; [reflexivity|apply jbut_put, H].
  - destruct (j_trees t !! id) as [u|]; [|exact I]. split; [reflexivity|apply jbut_put, H].
  - destruct (j_its t !! i) as [[o [n|]]|]; try exact I; destruct (j_trees t !! id) as [u|]; try exact I.
    destruct (where_at o n (j_trees t)) as [[i' [[us x] vs]]|]; [|exact I]. destruct (Nat.eqb i' id); [|exact I]. destruct (bdel1 _ _ u) as [u'|]; [|exact I].
    split; [reflexivity|]. apply jbut_put. split_and!; cbn; auto.
  - destruct (j_its t !! i) as [p|]; [|exact I]. split; [reflexivity|apply jbut_put, H].
  - destruct (j_its t !! k) as [p|]; [|exact I]. destruct (next_at _ p) as [q|]; [|exact I]. split; [reflexivity|apply jbut_put, H].
  - destruct (j_its t !! i) as [p|]; [|exact I]. destruct (next_at _ p) as [q|]; [|exact I]. split; [reflexivity|apply jbut_put, jbut_put, H].
  - destruct (j_its t !! k) as [[o [n|]]|]; try exact I. cbn [snd]. destruct (where_at InOrder n _) as [[i' [[us x] vs]]|]; [|exact I]. split; [reflexivity|exact H].
  - destruct (j_its t !! k) as [p|]; [|exact I]. destruct (j_its t !! i) as [q|]; [|exact I]. destruct (valid_at _ p && valid_at _ q); [|exact I]. split; [reflexivity|exact H].
  - destruct (j_its t !! k) as [p|]; [|exact I]. destruct (j_its t !! i) as [q|]; [|exact I]. destruct (valid_at _ p && valid_at _ q); [|exact I]. split; [reflexivity|exact H].
Qed.
Definition bbut (s s' : bm_spec (A := A)) : Prop := jbut (fst s) (fst s') /\ same_lost (snd s) (snd s').
Lemma bms_but (o : mop (jop A)) s s' : bbut s s' -> j ∉ j_names o -> res_but bbut (bms_step cmp o s) (bms_step cmp o s').
Proof.
  destruct s as [t lost], s' as [t' lost']. intros [H HL] Hj. cbn [fst snd] in *. pose proof H as (E1 & E2 & E3). destruct o as [o|k i].
  - assert (G : j ∉ j_moves o -> res_but bbut
      (if any_lost (j_moves o) lost then SUnspec else match js_step cmp o t with SVal (r, t) => SVal (r, (t, found (j_sets o) lost)) | SAbort => SAbort | SUnspec => SUnspec end)
      (if any_lost (j_moves o) lost' then SUnspec else match js_step cmp o t' with SVal (r, t) => SVal (r, (t, found (j_sets o) lost')) | SAbort => SAbort | SUnspec => SUnspec end)).
    { intros Hm. rewrite (sl_any lost lost' _ HL Hm). destruct (any_lost (j_moves o) lost'); [exact I|]. pose proof (js_but o t t' H Hj) as P.
      destruct (js_step cmp o t) as [[r u]| |], (js_step cmp o t') as [[r' u']| |]; cbn in *; auto. destruct P as [-> P]. split; [reflexivity|]. split; [exact P|apply sl_found, HL]. }
    destruct o as [o|k id o|k id o|k id x|k id i|k i|k|k i|k|k i|k i]; cbn [j_names] in Hj; try (apply G; cbn [j_moves]; set_solver).
    cbn [bms_step]. rewrite (sl_dec lost lost' i HL) by set_solver. destruct (bool_decide (i ∈ lost')); [split; [reflexivity|]; split; [apply jbut_put, H|apply sl_lose, HL]|].
    apply G. cbn [j_moves]. set_solver.
  - cbn [j_names] in Hj. cbn [bms_step]. unfold with_jt. rewrite <- (E3 i) by set_solver. destruct (j_its t !! i) as [p|]; [|exact I].
    rewrite (sl_dec lost lost' i HL) by set_solver. destruct (bool_decide (i ∈ lost') || Nat.eqb k i); (split; [reflexivity|]; split; cbn [fst snd]).
    + apply jbut_put, H.
    + apply sl_lose, HL.
    + apply jbut_put, jbut_put, H.
    + apply sl_lose, sl_found, HL.
Qed.

Definition kbut q q' : Prop := k_sets q = k_sets q' /\ k_next q = k_next q' /\ same_but (k_its q) (k_its q').
Lemma kbut_put q q' k p : kbut q q' -> kbut (put_kt q k p) (put_kt q' k p).
Proof. intros (H1 & H2 & H3). unfold put_kt. split_and!; cbn; [exact H1|exact H2|apply sb_ins, H3]. Qed.
Lemma ks_but (o : kop A) q q' : kbut q q' -> j ∉ k_names (MOp o) -> res_but kbut (ks_step cmp o q) (ks_step cmp o q').
Proof.
  intros H Hj. pose proof H as (E1 & E2 & E3).
  destruct o as [o|k id|k id|k id x|k id i|k i|k|k i|k|k i|k i]; cbn [k_names] in Hj; cbn [ks_step]; unfold with_kt, with_set, trees_step, move_kt;
    rewrite <- ?E1, <- ?E2; repeat match goal with |- context [k_its q' !! ?i] => rewrite <- (E3 i) by set_solver end.
  - destruct (ts_step _ _ _) as [[r l]| |]; cbn; auto. split; [reflexivity|]. split_and!; auto.
  - destruct (k_sets q !! id) as [[|u l]|]; try exact I. split; [reflexivity|apply kbut_put, H].
  - destruct (k_sets q !! id) as [u|]; [|exact I]. split; [reflexivity|apply kbut_put, H].
  - destruct (k_sets q !! id) as [u|]; [|exact I]. split; [reflexivity|apply kbut_put, H].
  - destruct (k_its q !! i) as [[n|]|]; try exact I; destruct (k_sets q !! id) as [u|]; try exact I; [|split; [reflexivity|apply kbut_put, H]].
    destruct (where_is n (k_sets q)) as [[i' [[us x] vs]]|]; [|exact I]. destruct (_ && _); [|exact I].
    split; [reflexivity|]. apply kbut_put. split_and!; cbn; auto.
  - destruct (k_its q !! i) as [p|]; [|exact I]. split; [reflexivity|apply kbut_put, H].
  - destruct (k_its q !! k) as [p|]; [|exact I]. destruct (next_num _ p) as [r|]; [|exact I]. split; [reflexivity|apply kbut_put, H].
  - destruct (k_its q !! i) as [p|]; [|exact I]. destruct (next_num _ p) as [r|]; [|exact I]. split; [reflexivity|apply kbut_put, kbut_put, H].
  - destruct (k_its q !! k) as [[n|]|]; try exact I. destruct (where_is n _) as [[i' [[us x] vs]]|]; [|exact I]. split; [reflexivity|exact H].
  - destruct (k_its q !! k) as [p|]; [|exact I]. destruct (k_its q !! i) as [r|]; [|exact I]. destruct (valid_num _ p && valid_num _ r); [|exact I]. split; [reflexivity|exact H].
  - destruct (k_its q !! k) as [p|]; [|exact I]. destruct (k_its q !! i) as [r|]; [|exact I]. destruct (valid_num _ p && valid_num _ r); [|exact I]. split; [reflexivity|exact H].
Qed.
Definition abut (s s' : am_spec (A := A)) : Prop := kbut (fst s) (fst s') /\ same_lost (snd s) (snd s').
Lemma ams_but (o : mop (kop A)) s s' : abut s s' -> j ∉ k_names o -> res_but abut (ams_step cmp o s) (ams_step cmp o s').
Proof.
  destruct s as [t lost], s' as [t' lost']. intros [H HL] Hj. cbn [fst snd] in *. pose proof H as (E1 & E2 & E3). destruct o as [o|k i].
  - assert (G : j ∉ k_moves o -> res_but abut
      (if any_lost (k_moves o) lost then SUnspec else match ks_step cmp o t with SVal (r, t) => SVal (r, (t, found (k_sets_of o) lost)) | SAbort => SAbort | SUnspec => SUnspec end)
      (if any_lost (k_moves o) lost' then SUnspec else match ks_step cmp o t' with SVal (r, t) => SVal (r, (t, found (k_sets_of o) lost')) | SAbort => SAbort | SUnspec => SUnspec end)).
    { intros Hm. rewrite (sl_any lost lost' _ HL Hm). destruct (any_lost (k_moves o) lost'); [exact I|]. pose proof (ks_but o t t' H Hj) as P.
      destruct (ks_step cmp o t) as [[r u]| |], (ks_step cmp o t') as [[r' u']| |]; cbn in *; auto. destruct P as [-> P]. split; [reflexivity|]. split; [exact P|apply sl_found, HL]. }
    destruct o as [o|k id|k id|k id x|k id i|k i|k|k i|k|k i|k i]; cbn [k_names] in Hj; try (apply G; cbn [k_moves]; set_solver).
    cbn [ams_step]. unfold with_kt. rewrite <- (E3 i) by set_solver. destruct (k_its t !! i) as [p|]; [|exact I].
    rewrite (sl_dec lost lost' i HL) by set_solver. split; [reflexivity|]. split; cbn [fst snd]; [apply kbut_put, H|]. destruct (bool_decide (i ∈ lost')); [apply sl_lose, HL|apply sl_found, HL].
  - cbn [k_names] in Hj. cbn [ams_step]. unfold with_kt. rewrite <- (E3 i) by set_solver. destruct (k_its t !! i) as [p|]; [|exact I].
    rewrite (sl_dec lost lost' i HL) by set_solver. split; [reflexivity|]. split; cbn [fst snd]; [apply kbut_put, H|].
    apply sl_lose. destruct (bool_decide (i ∈ lost')); [apply sl_lose, HL|apply sl_found, HL].
Qed.
Lemma srun_but {O Y S} (step : O -> S -> sres (Y * S)) (R : S -> S -> Prop) (names : O -> list nat) :
  (forall o s s', R s s' -> j ∉ names o -> res_but R (step o s) (step o s')) ->
  forall ops s s' rs s1, R s s' -> (forall o, In o ops -> j ∉ names o) -> srun step ops s = SVal (rs, s1) -> exists s2, srun step ops s' = SVal (rs, s2).
Proof.
  intros Hstep. induction ops as [|o ops IH]; intros s s' rs s1 H Hn E; cbn [srun] in *; [injection E as <- _; eauto|].
  pose proof (Hstep o s s' H (Hn o (or_introl eq_refl))) as P. destruct (step o s) as [[r t]| |]; try discriminate. destruct (step o s') as [[r' t']| |]; try contradiction.
  destruct P as [<- P]. destruct (srun step ops t) as [[rs1 t1]| |] eqn:E1; try discriminate. injection E as <- _.
  destruct (IH t t' rs1 t1 P (fun o' Ho => Hn o' (or_intror Ho)) E1) as (s2 & ->). eauto.
Qed.
End But.

(** * Moving instead of copying *)
Theorem bm_taken : forall (A : Type) (cmp : A -> A -> bool), swo cmp -> forall pol, sound pol -> grants pol ->
  forall (ops1 ops2 : list (mop (jop A))) k j rs1 s1 rs s, k <> j ->
  srun (bms_step cmp) ops1 (jspec0, ∅) = SVal (rs1, s1) -> j ∉ snd s1 ->
  (forall o, In o ops2 -> j ∉ j_names o) ->
  srun (bms_step cmp) (ops1 ++ MOp (JCopy k j) :: ops2) (jspec0, ∅) = SVal (rs, s) ->
  exists w, mrun (bm_step cmp) (ops1 ++ MMove k j :: ops2) (tw_init pol, ∅) = Ok (rs, w).
Proof.
  intros A cmp Hc pol Hs Hg ops1 ops2 k j rs1 [t lost] rs s Hkj E1 Hj Hn E. cbn [snd] in Hj.
  pose proof (bm_history A cmp Hc pol Hs Hg (ops1 ++ MMove k j :: ops2)) as P. rewrite srun_app, E1 in *. cbn [srun] in *.
  cbn [bms_step js_step] in *. unfold with_jt, move_jt in *. rewrite bool_decide_false in * by exact Hj. destruct (j_its t !! j) as [p|] eqn:Ep; [|discriminate].
  rewrite (proj2 (Nat.eqb_neq k j) Hkj) in P. cbn [orb] in P.
  destruct (srun (bms_step cmp) ops2 (put_jt t k p, found [k] lost)) as [[rs2 s2]| |] eqn:E2; try discriminate.
  destruct (srun_but j (bms_step cmp) (bbut j) j_names (bms_but cmp j) ops2 (put_jt t k p, found [k] lost) (put_jt (put_jt t k p) j (InOrder, snd p), lose j (found [k] lost)) rs2 s2) as (s3 & E3); [|exact Hn|exact E2|].
  - split; cbn [fst snd].
    + split_and!; cbn; [reflexivity|reflexivity|]. intros i Hi. rewrite (lookup_insert_ne _ j i) by congruence. reflexivity.
    + intros i Hi. unfold lose. set_solver.
  - rewrite E3 in P. injection E as <- _. exact P.
Qed.
Theorem am_taken : forall (A : Type) (cmp : A -> A -> bool), swo cmp -> forall pol, sound pol -> grants pol ->
  forall (ops1 ops2 : list (mop (kop A))) k j rs1 s1 rs s, k <> j ->
  srun (ams_step cmp) ops1 (kspec0, ∅) = SVal (rs1, s1) -> j ∉ snd s1 ->
  (forall o, In o ops2 -> j ∉ k_names o) ->
  srun (ams_step cmp) (ops1 ++ MOp (KCopy k j) :: ops2) (kspec0, ∅) = SVal (rs, s) ->
  exists w, mrun (am_step cmp) (ops1 ++ MMove k j :: ops2) (tw_init pol, ∅) = Ok (rs, w).
Proof.
  intros A cmp Hc pol Hs Hg ops1 ops2 k j rs1 [t lost] rs s Hkj E1 Hj Hn E. cbn [snd] in Hj.
  pose proof (am_history A cmp Hc pol Hs Hg (ops1 ++ MMove k j :: ops2)) as P. rewrite srun_app, E1 in *. cbn [srun] in *.
  cbn [ams_step] in *. unfold with_kt in *. rewrite bool_decide_false in * by exact Hj. destruct (k_its t !! j) as [p|] eqn:Ep; [|discriminate].
  destruct (srun (ams_step cmp) ops2 (put_kt t k p, found [k] lost)) as [[rs2 s2]| |] eqn:E2; try discriminate.
  destruct (srun_but j (ams_step cmp) (abut j) k_names (ams_but cmp j) ops2 (put_kt t k p, found [k] lost) (put_kt t k p, lose j (found [k] lost)) rs2 s2) as (s3 & E3); [|exact Hn|exact E2|].
  - split; cbn [fst snd].
    + split_and!; try reflexivity. intros i Hi. reflexivity.
    + intros i Hi. unfold lose. set_solver.
  - rewrite E3 in P. injection E as <- _. exact P.
Qed.

(** * What goes wrong *)
(** Moving a lost iterator on calls a null function. *)
Lemma bm_lost_ub {A} (cmp : A -> A -> bool) pol s (w : mworld A) j (o : jop A) : RM cmp pol s w -> j ∈ snd s -> In j (j_moves o) -> bm_step cmp (MOp o) w = UB.
Proof.
  intros (_ & Hg & Hd) Hj Ho. destruct (Hd _ Hj) as (v & Ev). pose proof (Hg _ _ Ev) as Hv. rewrite bool_decide_true in Hv by exact Hj. destruct Hv as [Hf _].
  destruct o; cbn [j_moves In] in Ho; try contradiction; destruct Ho as [->|[]]; cbn [bm_step]; unfold get_mv, bind; rewrite Ev; unfold bv_erase, mv_next; rewrite Hf; reflexivity.
Qed.
Lemma am_lost_ub {A} (cmp : A -> A -> bool) pol s (w : mworld A) j (o : kop A) : RA cmp pol s w -> j ∈ snd s -> In j (k_moves o) -> am_step cmp (MOp o) w = UB.
Proof.
  intros (_ & Hg & Hd) Hj Ho. destruct (Hd _ Hj) as (v & Ev). pose proof (Hg _ _ Ev) as Hv. rewrite bool_decide_true in Hv by exact Hj. destruct Hv as [Hf _].
  destruct o; cbn [k_moves In] in Ho; try contradiction; destruct Ho as [->|[]]; cbn [am_step]; unfold get_mv, bind; rewrite Ev; unfold av_erase, mv_next; rewrite Hf; reflexivity.
Qed.
Theorem bm_advance : forall (A : Type) (cmp : A -> A -> bool), swo cmp -> forall pol, sound pol -> grants pol ->
  forall (ops : list (mop (jop A))) rs s k j o, srun (bms_step cmp) ops (jspec0, ∅) = SVal (rs, s) -> (exists p, j_its (fst s) !! j = Some p) ->
  In j (j_moves o) -> mrun (bm_step cmp) (ops ++ [MMove k j; MOp o]) (tw_init pol, ∅) = UB.
Proof.
  intros A cmp Hc pol Hs Hg ops rs [t lost] k j o E (p & Ep) Ho. cbn [fst] in Ep. pose proof (bm_after cmp Hc pol ops rs (t, lost) Hs Hg E) as (w & Er & HR).
  rewrite (mrun_app _ _ _ _ _ _ Er).
  assert (X : exists s', bms_step cmp (MMove k j) (t, lost) = SVal (OUnit, s') /\ j ∈ snd s').
  { cbn [bms_step]. unfold with_jt. rewrite Ep. destruct (bool_decide (j ∈ lost)) eqn:Ej; cbn [orb].
    - apply bool_decide_eq_true_1 in Ej. eexists. split; [reflexivity|]. unfold lose. cbn. set_solver.
    - destruct (Nat.eqb_spec k j) as [->|]; (eexists; split; [reflexivity|]; unfold lose; cbn; set_solver). }
  destruct X as (s' & X & Hj). pose proof (bm_step_or cmp Hc pol (MMove k j) _ _ HR) as P. rewrite X in P. cbn [magree_or] in P.
  destruct P as [(w' & P & HR')|[_ Hr]]; [|destruct (grants_refuses _ _ Hg Hr)]. rewrite (mrun_cons _ _ _ _ _ _ P). cbn [mrun].
  unfold bind at 1. rewrite (bm_lost_ub cmp pol _ _ _ _ HR' Hj Ho). reflexivity.
Qed.
Theorem am_advance : forall (A : Type) (cmp : A -> A -> bool), swo cmp -> forall pol, sound pol -> grants pol ->
  forall (ops : list (mop (kop A))) rs s k j o, srun (ams_step cmp) ops (kspec0, ∅) = SVal (rs, s) -> (exists p, k_its (fst s) !! j = Some p) ->
  In j (k_moves o) -> mrun (am_step cmp) (ops ++ [MMove k j; MOp o]) (tw_init pol, ∅) = UB.
Proof.
  intros A cmp Hc pol Hs Hg ops rs [t lost] k j o E (p & Ep) Ho. cbn [fst] in Ep. pose proof (am_after cmp Hc pol ops rs (t, lost) Hs Hg E) as (w & Er & HR).
  rewrite (mrun_app _ _ _ _ _ _ Er).
  assert (X : exists s', ams_step cmp (MMove k j) (t, lost) = SVal (OUnit, s') /\ j ∈ snd s').
  { cbn [ams_step]. unfold with_kt. rewrite Ep. eexists. split; [reflexivity|]. unfold lose. cbn. set_solver. }
  destruct X as (s' & X & Hj). pose proof (am_step_or cmp Hc pol (MMove k j) _ _ HR) as P. rewrite X in P. cbn [magree_or] in P.
  destruct P as [(w' & P & HR')|[_ Hr]]; [|destruct (grants_refuses _ _ Hg Hr)]. rewrite (mrun_cons _ _ _ _ _ _ P). cbn [mrun].
  unfold bind at 1. rewrite (am_lost_ub cmp pol _ _ _ _ HR' Hj Ho). reflexivity.
Qed.

(** A copy of a moved-from iterator differs from it (binary search trees), or is as
    useless (AVL trees). *)
Theorem bm_copy : forall (A : Type) (cmp : A -> A -> bool), swo cmp -> forall pol, sound pol -> grants pol ->
  forall (ops : list (mop (jop A))) rs s k i j o n x, srun (bms_step cmp) ops (jspec0, ∅) = SVal (rs, s) ->
  j_its (fst s) !! j = Some (o, Some n) -> j ∉ snd s -> where_at InOrder n (j_trees (fst s)) = Some x -> k <> j -> i <> j -> i <> k ->
  exists w, mrun (bm_step cmp) (ops ++ [MMove k j; MOp (JCopy i j); MOp (JEq k j); MOp (JEq i j)]) (tw_init pol, ∅) = Ok (rs ++ [OUnit; OUnit; OBool true; OBool false], w).
Proof.
  intros A cmp Hc pol Hs Hg ops rs [t lost] k i j o n x E Ej Hj Hx Hk Hi Hik. cbn [fst snd] in *.
  pose proof (bm_history A cmp Hc pol Hs Hg (ops ++ [MMove k j; MOp (JCopy i j); MOp (JEq k j); MOp (JEq i j)])) as P. rewrite srun_app, E in P. cbn [srun] in P.
  unfold bms_step at 1 in P. unfold with_jt in P. rewrite Ej in P. rewrite bool_decide_false, (proj2 (Nat.eqb_neq k j) Hk) in P by exact Hj. cbn [orb snd] in P.
  unfold bms_step at 1 in P. rewrite bool_decide_true in P by (unfold lose; set_solver).
  unfold bms_step at 1 in P. cbn [j_moves j_sets any_lost existsb js_step] in P. unfold with_jt, put_jt in P. cbn [j_its j_trees j_next] in P.
  rewrite (lookup_insert_ne _ i k), (lookup_insert_ne _ j k), lookup_insert in P by congruence. rewrite (lookup_insert_ne _ i j), lookup_insert in P by congruence.
  unfold valid_at in P. cbn [snd] in P. rewrite Hx in P. cbn [andb] in P. rewrite bool_decide_true in P by reflexivity.
  unfold bms_step at 1 in P. cbn [j_moves j_sets any_lost existsb js_step] in P. unfold with_jt, put_jt in P. cbn [j_its j_trees j_next] in P.
  rewrite lookup_insert in P. rewrite (lookup_insert_ne _ i j), lookup_insert in P by congruence. unfold valid_at in P. cbn [snd] in P. rewrite Hx in P. cbn [andb] in P.
  rewrite bool_decide_false in P by discriminate. exact P.
Qed.
Theorem am_copy : forall (A : Type) (cmp : A -> A -> bool), swo cmp -> forall pol, sound pol -> grants pol ->
  forall (ops : list (mop (kop A))) rs s k i j p o, srun (ams_step cmp) ops (kspec0, ∅) = SVal (rs, s) ->
  k_its (fst s) !! j = Some p -> In i (k_moves o) -> i <> j ->
  mrun (am_step cmp) (ops ++ [MMove k j; MOp (KCopy i j); MOp o]) (tw_init pol, ∅) = UB.
Proof.
  intros A cmp Hc pol Hs Hg ops rs [t lost] k i j p o E Ep Ho Hij. cbn [fst] in Ep.
  assert (X : srun (ams_step cmp) (ops ++ [MMove k j; MOp (KCopy i j)]) (kspec0, ∅) =
    SVal (rs ++ [OUnit; OUnit], (put_kt (put_kt t k p) i p, lose i (lose j (if bool_decide (j ∈ lost) then lose k lost else found [k] lost))))).
  { rewrite srun_app, E. cbn [srun]. unfold ams_step at 1. unfold with_kt. rewrite Ep. unfold ams_step at 1. unfold with_kt. cbn [put_kt k_its].
    assert (Y : (<[k := p]> (k_its t)) !! j = Some p). { destruct (decide (k = j)) as [->|Hne]; [apply lookup_insert|rewrite lookup_insert_ne by exact Hne; exact Ep]. }
    rewrite Y, bool_decide_true by (unfold lose; set_solver). reflexivity. }
  pose proof (am_after cmp Hc pol _ _ _ Hs Hg X) as (w & Er & HR). change [MMove k j; MOp (KCopy i j); MOp o] with ([MMove k j; MOp (KCopy i j)] ++ [MOp o]).
  rewrite app_assoc, (mrun_app _ _ _ _ _ _ Er). cbn [mrun]. unfold bind at 1. rewrite (am_lost_ub cmp pol _ _ i _ HR); [reflexivity|unfold lose; cbn; set_solver|exact Ho].
Qed.

(** An iterator moved to itself no longer is at its element (binary search trees). *)
Theorem bm_self : forall (A : Type) (cmp : A -> A -> bool), swo cmp -> forall pol, sound pol -> grants pol ->
  forall (ops : list (mop (jop A))) rs s j p, srun (bms_step cmp) ops (jspec0, ∅) = SVal (rs, s) -> j_its (fst s) !! j = Some p ->
  mrun (bm_step cmp) (ops ++ [MMove j j; MOp (JRead j)]) (tw_init pol, ∅) = UB.
Proof.
  intros A cmp Hc pol Hs Hg ops rs [t lost] j p E Ep. cbn [fst] in Ep. pose proof (bm_after cmp Hc pol ops rs (t, lost) Hs Hg E) as ([tw m] & Er & HR).
  rewrite (mrun_app _ _ _ _ _ _ Er). destruct HR as (HR & _). cbn [fst snd] in HR. destruct (jR_has cmp pol _ _ _ _ _ HR Ep) as (v & Ev).
  cbn [mrun bm_step]. unfold bv_move, get_mv, set_mv, bind, ret. cbn [fst snd]. rewrite Ev. cbn [fst snd]. rewrite lookup_insert. cbn [fst snd]. rewrite lookup_insert. cbn [fst snd].
  rewrite lookup_insert. reflexivity.
Qed.
