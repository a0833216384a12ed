(** Moved deque iterators follow their specification. *)
From Verif Require Import Base VectorModel VectorSpec Adapter Hist ListModel DequeModel DequeSpec DequeIterModel DequeIterSpec DequeIterProofs DqMoveModel DqMoveSpec.
Local Open Scope nat_scope.

Section Move.
Context {A : Type} (N : nat) (HN : 0 < N) (eqb : A -> A -> bool).
Implicit Types (st : dst A) (lost : gset nat) (ws : gmap nat diter) (vs : gmap nat dvar).

(** The variables of a run in which moves are copies, and those of the run. *)
Definition lrel lost ws vs : Prop := forall k i, ws !! k = Some i -> vs !! k = Some (DV (if decide (k ∈ lost) then no_it else i) (i_cur i)).

Lemma lrel_set lost ws vs k i : lrel lost ws vs -> lrel (lost ∖ {[k]}) (<[k := i]> ws) (<[k := synced i]> vs).
Proof.
  intros H j i' Hj. destruct (decide (j = k)) as [->|Hne].
  - rewrite lookup_insert in Hj. rewrite lookup_insert. injection Hj as <-. destruct (decide (k ∈ lost ∖ {[k]})); [set_solver|reflexivity].
  - rewrite lookup_insert_ne in Hj by congruence. rewrite lookup_insert_ne by congruence. rewrite (H _ _ Hj). destruct (decide (j ∈ lost)), (decide (j ∈ lost ∖ {[k]})); reflexivity || set_solver.
Qed.
Lemma lrel_keep lost ws vs k i : k ∉ lost -> lrel lost ws vs -> lrel lost (<[k := i]> ws) (<[k := synced i]> vs).
Proof. intros Hk H. apply (lrel_set _ _ _ k i) in H. replace (lost ∖ {[k]}) with lost in H by set_solver. exact H. Qed.
Lemma lrel_del lost ws vs k v : lrel lost ws vs -> lrel lost (delete k ws) (<[k := v]> vs).
Proof. intros H j i Hj. apply lookup_delete_Some in Hj as [Hne Hj]. rewrite lookup_insert_ne by exact Hne. apply H, Hj. Qed.
Lemma lrel_own lost ws vs k i : lrel lost ws vs -> ws !! k = Some i -> k ∉ lost -> vs !! k = Some (synced i).
Proof. intros H E Hk. rewrite (H _ _ E), decide_False by exact Hk. reflexivity. Qed.
Lemma lrel_none lost ws vs : lrel lost ws vs -> lrel (lost ∖ ∅) ws vs.
Proof. intros H. replace (lost ∖ ∅) with lost by set_solver. exact H. Qed.

Lemma mfind_same e : forall fuel a it st, mfind_loop N eqb fuel a it (synced e) st = find_loop N eqb fuel a it e st.
Proof.
  induction fuel as [|f IH]; intros a it st; cbn [mfind_loop find_loop v_dat v_it synced]; destruct (eqp _ _); try reflexivity.
  unfold bind. destruct (cell_ld _ st) as [[x st1]| | |]; try reflexivity. destruct (eqb x a); [reflexivity|]. destruct (it_next N it st1) as [[i st2]| | |]; try reflexivity. apply IH.
Qed.
Lemma mit_same e v : v_dat v = i_cur e -> forall fuel it acc st, mit_loop N fuel it v acc st = it_loop N fuel (fun acc a => ret (acc ++ [a])) it e acc st.
Proof.
  intros Hv. induction fuel as [|f IH]; intros it acc st; cbn [mit_loop it_loop]; rewrite Hv; destruct (eqp _ _); try reflexivity.
  unfold bind, ret. destruct (cell_ld _ st) as [[x st1]| | |]; try reflexivity. destruct (it_next N it st1) as [[i st2]| | |]; try reflexivity. apply IH.
Qed.

(** A call that uses no lost iterator does what it does where moves are copies. *)
Lemma sim o lost ws vs st : lrel lost ws vs -> existsb (fun j => bool_decide (j ∈ lost)) (jd_uses o) = false ->
  match j_step N eqb o (st, ws) with
  | Ok (r, (st', ws')) => exists vs', dm_step N eqb (DMOp o) (st, vs) = Ok (r, (st', vs')) /\ lrel (lost ∖ list_to_set (jd_sets o)) ws' vs'
  | Abort => dm_step N eqb (DMOp o) (st, vs) = Abort
  | UB | Diverge => True
  end.
Proof.
  intros H Hu.
  assert (Hno : forall j, In j (jd_uses o) -> j ∉ lost).
  { intros j Hj Hl. rewrite <- not_true_iff_false in Hu. apply Hu, existsb_exists. exists j. split; [exact Hj|apply bool_decide_eq_true_2, Hl]. }
  assert (Hs : forall k i st', exists vs', Ok (RUnit : out A, (st', <[k := synced i]> vs)) = Ok (RUnit, (st', vs')) /\ lrel (lost ∖ ({[k]} ∪ ∅)) (<[k := i]> ws) vs').
  { intros k i st'. eexists. split; [reflexivity|]. replace ({[k]} ∪ ∅ : gset nat) with ({[k]} : gset nat) by set_solver. apply lrel_set, H. }
  assert (Hp : forall k j i i' st', j ∉ lost -> exists vs', Ok (RUnit : out A, (st', <[k := synced i]> (<[j := synced i']> vs))) = Ok (RUnit, (st', vs')) /\
    lrel (lost ∖ ({[k]} ∪ ∅)) (<[k := i]> (<[j := i']> ws)) vs').
  { intros k j i i' st' Hj. eexists. split; [reflexivity|]. replace ({[k]} ∪ ∅ : gset nat) with ({[k]} : gset nat) by set_solver. apply lrel_set, lrel_keep, H. exact Hj. }
  assert (Hk : forall (r : out A) st', exists vs', Ok (r, (st', vs)) = Ok (r, (st', vs')) /\ lrel (lost ∖ ∅) ws vs') by (intros r st'; eexists; split; [reflexivity|apply lrel_none, H]).
  destruct o as [o|k id|k id|k id z|k j|k|k|k j|k j|k j z|k j z|k|k j|k j|k b e a|b e]; cbn [jd_uses jd_sets j_step dm_step list_to_set] in *;
    unfold bind, on_deqs, on_dqs, get_var, get_dv, set_var, set_dv, ret; cbn [fst snd].
  - destruct (dq_step N o st) as [[r st']| | |]; try exact I; [apply Hk|reflexivity].
  - destruct (q_get id st) as [[q st']| | |]; cbn [fst snd]; try exact I; [|reflexivity]. destruct (it_copy _ st') as [[i st2]| | |]; try exact I; [apply Hs|reflexivity].
  - destruct (q_get id st) as [[q st']| | |]; cbn [fst snd]; try exact I; [|reflexivity]. destruct (it_copy _ st') as [[i st2]| | |]; try exact I; [apply Hs|reflexivity].
  - destruct (dq_ref N id z st) as [[i st']| | |]; try exact I; [apply Hs|reflexivity].
  - destruct (ws !! j) as [i|] eqn:Ei; [|exact I]. rewrite (lrel_own _ _ _ _ _ H Ei) by (apply Hno; left; reflexivity). cbn [fst snd v_it synced].
    destruct (it_copy i st) as [[i' st']| | |]; try exact I; [apply Hs|reflexivity].
  - destruct (ws !! k) as [i|] eqn:Ei; [|exact I]. rewrite (lrel_own _ _ _ _ _ H Ei) by (apply Hno; left; reflexivity). cbn [fst snd v_it synced].
    destruct (it_next N i st) as [[i' st']| | |]; try exact I; [|reflexivity]. eexists. split; [reflexivity|]. apply lrel_none, lrel_keep, H. apply Hno. left. reflexivity.
  - destruct (ws !! k) as [i|] eqn:Ei; [|exact I]. rewrite (lrel_own _ _ _ _ _ H Ei) by (apply Hno; left; reflexivity). cbn [fst snd v_it synced].
    destruct (it_prev N i st) as [[i' st']| | |]; try exact I; [|reflexivity]. eexists. split; [reflexivity|]. apply lrel_none, lrel_keep, H. apply Hno. left. reflexivity.
  - destruct (ws !! j) as [i|] eqn:Ei; [|exact I]. rewrite (lrel_own _ _ _ _ _ H Ei) by (apply Hno; left; reflexivity). cbn [fst snd v_it synced].
    destruct (it_next N i st) as [[i' st']| | |]; try exact I; [|reflexivity]. apply Hp, Hno. left. reflexivity.
  - destruct (ws !! j) as [i|] eqn:Ei; [|exact I]. rewrite (lrel_own _ _ _ _ _ H Ei) by (apply Hno; left; reflexivity). cbn [fst snd v_it synced].
    destruct (it_prev N i st) as [[i' st']| | |]; try exact I; [|reflexivity]. apply Hp, Hno. left. reflexivity.
  - destruct (ws !! j) as [i|] eqn:Ei; [|exact I]. rewrite (lrel_own _ _ _ _ _ H Ei) by (apply Hno; left; reflexivity). cbn [fst snd v_it synced].
    destruct (it_plus N i z st) as [[i' st']| | |]; try exact I; [apply Hs|reflexivity].
  - destruct (ws !! j) as [i|] eqn:Ei; [|exact I]. rewrite (lrel_own _ _ _ _ _ H Ei) by (apply Hno; left; reflexivity). cbn [fst snd v_it synced].
    destruct (it_minus N i z st) as [[i' st']| | |]; try exact I; [apply Hs|reflexivity].
  - destruct (ws !! k) as [i|] eqn:Ei; [|exact I]. rewrite (H _ _ Ei). cbn [fst snd v_dat]. destruct (cell_ld _ st) as [[x st']| | |]; try exact I; [apply Hk|reflexivity].
  - destruct (ws !! k) as [i|] eqn:Ei; cbn [fst snd]; [|exact I]. destruct (ws !! j) as [i'|] eqn:Ei'; [|exact I]. rewrite (H _ _ Ei). cbn [fst snd]. rewrite (H _ _ Ei'). cbn [fst snd v_dat].
    destruct (rd (i_cur i) st) as [[p st']| | |]; cbn [fst snd]; try exact I; [|reflexivity]. destruct (rd (i_cur i') st') as [[p' st2]| | |]; try exact I; [apply Hk|reflexivity].
  - destruct (ws !! k) as [i|] eqn:Ei; cbn [fst snd]; [|exact I]. destruct (ws !! j) as [i'|] eqn:Ei'; [|exact I]. rewrite (H _ _ Ei). cbn [fst snd]. rewrite (H _ _ Ei'). cbn [fst snd v_dat].
    destruct (rd (i_cur i) st) as [[p st']| | |]; cbn [fst snd]; try exact I; [|reflexivity]. destruct (rd (i_cur i') st') as [[p' st2]| | |]; try exact I; [apply Hk|reflexivity].
  - destruct (ws !! b) as [i|] eqn:Ei; cbn [fst snd]; [|exact I]. destruct (ws !! e) as [i'|] eqn:Ei'; [|exact I]. rewrite (lrel_own _ _ _ _ _ H Ei) by (apply Hno; left; reflexivity). cbn [fst snd].
    rewrite (lrel_own _ _ _ _ _ H Ei') by (apply Hno; right; left; reflexivity). cbn [fst snd].
    assert (E : mit_find N eqb (synced i) (synced i') a st = it_find N eqb i i' a st).
    { unfold mit_find, it_find, bind. cbn [v_it synced]. destruct (loop_fuel i st) as [[n st1]| | |]; try reflexivity. destruct (it_copy i st1) as [[it st2]| | |]; try reflexivity. apply mfind_same. }
    rewrite E. destruct (it_find N eqb i i' a st) as [[i2 st']| | |]; try exact I; [apply Hs|reflexivity].
  - destruct (ws !! b) as [i|] eqn:Ei; cbn [fst snd]; [|exact I]. destruct (ws !! e) as [i'|] eqn:Ei'; [|exact I]. rewrite (lrel_own _ _ _ _ _ H Ei) by (apply Hno; left; reflexivity). cbn [fst snd]. rewrite (H _ _ Ei'). cbn [fst snd].
    set (v := DV _ (i_cur i')).
    assert (E : mit_each N (synced i) v st = it_each N i i' st).
    { unfold mit_each, it_each, bind. cbn [v_it synced]. destruct (loop_fuel i st) as [[n st1]| | |]; try reflexivity. destruct (it_copy i st1) as [[it st2]| | |]; try reflexivity. apply mit_same. reflexivity. }
    rewrite E. destruct (it_each N i i' st) as [[l st']| | |]; try exact I; [apply Hk|reflexivity].
Qed.

(** [k = move(j)], for [j] that has not been lost, and for one that has. *)
Lemma move_ok k j i lost ws vs st : lrel lost ws vs -> ws !! j = Some i -> it_copy i st = Ok (i, st) -> k <> j -> j ∉ lost ->
  exists vs', dm_step N eqb (DMMove k j) (st, vs) = Ok (RUnit : out A, (st, vs')) /\ lrel (({[j]} ∪ lost) ∖ {[k]}) (<[k := i]> ws) vs'.
Proof.
  intros H Ei Hc Hne Hj. pose proof (lrel_own _ _ _ _ _ H Ei Hj) as Ev.
  assert (HX : forall vs1 d, vs1 !! k = Some d -> vs1 !! j = Some (synced i) -> dv_move k j (st, vs1) = Ok (tt, (st, <[k := synced i]> (<[j := DV no_it (i_cur i)]> (<[k := DV i (v_dat d)]> vs1))))).
  { intros vs1 d Ed Ej. unfold dv_move. unfold bind, get_dv, on_dqs, set_dv. cbn [fst snd]. rewrite Ej. cbn [fst snd v_it synced]. rewrite Hc. cbn [fst snd]. rewrite Ed. cbn [fst snd v_dat synced].
    rewrite lookup_insert_ne, Ej by exact Hne. cbn [fst snd v_dat synced]. rewrite lookup_insert_ne, lookup_insert by congruence. cbn [fst snd v_it synced]. reflexivity. }
  assert (HR : forall vs1, (forall l, l <> k -> vs1 !! l = vs !! l) -> lrel (({[j]} ∪ lost) ∖ {[k]}) (<[k := i]> ws) (<[k := synced i]> (<[j := DV no_it (i_cur i)]> vs1))).
  { intros vs1 H1 l i' Hl. destruct (decide (l = k)) as [->|Hlk].
    - rewrite lookup_insert in Hl. injection Hl as <-. rewrite lookup_insert, decide_False by set_solver. reflexivity.
    - rewrite lookup_insert_ne in Hl by congruence. rewrite lookup_insert_ne by congruence. destruct (decide (l = j)) as [->|Hlj].
      + rewrite lookup_insert, decide_True by set_solver. rewrite Ei in Hl. injection Hl as ->. reflexivity.
      + rewrite lookup_insert_ne, H1, (H _ _ Hl) by congruence. destruct (decide (l ∈ lost)), (decide (l ∈ ({[j]} ∪ lost) ∖ {[k]})); reflexivity || set_solver. }
  cbn [dm_step snd]. destruct (vs !! k) as [d|] eqn:Ed.
  - rewrite (bind_ok _ _ _ _ _ (HX vs d Ed Ev)). eexists. split; [reflexivity|]. apply HR. intros l Hl. apply lookup_insert_ne. congruence.
  - unfold dv_move_new, set_dv at 1. unfold bind at 1 2. cbn [fst snd]. rewrite (HX _ (DV (It 0 PUninit None) PUninit)) by (rewrite ?lookup_insert_ne, ?lookup_insert by congruence; trivial). eexists. split; [reflexivity|].
    apply HR. intros l Hl. rewrite !lookup_insert_ne by congruence. reflexivity.
Qed.
Lemma move_bad k j i lost ws vs st : lrel lost ws vs -> ws !! j = Some i -> it_copy i st = Ok (i, st) -> k = j \/ j ∈ lost ->
  exists vs', dm_step N eqb (DMMove k j) (st, vs) = Ok (RUnit : out A, (st, vs')) /\ lrel lost (delete k ws) vs' /\ vs' !! k = Some (synced no_it).
Proof.
  intros H Ei Hc Hb. pose proof (H _ _ Ei) as Ev. set (i' := if decide (j ∈ lost) then no_it else i) in Ev.
  assert (Hc' : it_copy i' st = Ok (i', st)) by (unfold i'; destruct (decide _); [reflexivity|exact Hc]).
  destruct (decide (k = j)) as [->|Hne].
  - cbn [dm_step snd]. rewrite Ev. unfold dv_move, bind, get_dv, on_dqs, set_dv. cbn [fst snd]. rewrite Ev. cbn [fst snd v_it]. rewrite Hc'. cbn [fst snd]. rewrite Ev. cbn [fst snd v_dat].
    rewrite !lookup_insert. cbn [fst snd v_it]. eexists. split; [reflexivity|]. split; [|apply lookup_insert].
    rewrite !insert_insert. apply lrel_del, H.
  - destruct Hb as [Hb|Hb]; [contradiction|]. assert (Ei' : i' = no_it) by (unfold i'; apply decide_True, Hb). rewrite Ei' in Ev.
    assert (HX : forall vs1 d, vs1 !! k = Some d -> vs1 !! j = Some (DV no_it (i_cur i)) -> dv_move k j (st, vs1) = Ok (tt, (st, <[k := synced no_it]> (<[j := DV no_it (i_cur i)]> (<[k := DV no_it (v_dat d)]> vs1))))).
    { intros vs1 d Ed Ej. unfold dv_move. unfold bind, get_dv, on_dqs, set_dv. cbn [fst snd]. rewrite Ej. cbn [fst snd v_it]. change (it_copy no_it st) with (Ok (no_it, st)). cbn [fst snd]. rewrite Ed. cbn [fst snd v_dat].
      rewrite lookup_insert_ne, Ej by exact Hne. cbn [fst snd v_dat]. rewrite lookup_insert_ne, lookup_insert by congruence. cbn [fst snd v_it]. reflexivity. }
    assert (HR : forall vs1, (forall l, l <> k -> vs1 !! l = vs !! l) -> lrel lost (delete k ws) (<[k := synced no_it]> (<[j := DV no_it (i_cur i)]> vs1))).
    { intros vs1 H1 l l' Hl. apply lookup_delete_Some in Hl as [Hlk Hl]. rewrite lookup_insert_ne by congruence. destruct (decide (l = j)) as [->|Hlj].
      - rewrite lookup_insert, decide_True by exact Hb. rewrite Ei in Hl. injection Hl as ->. reflexivity.
      - rewrite lookup_insert_ne, H1 by congruence. apply H, Hl. }
    cbn [dm_step snd]. destruct (vs !! k) as [d|] eqn:Ed.
    + rewrite (bind_ok _ _ _ _ _ (HX vs d Ed Ev)). eexists. split; [reflexivity|]. split; [|apply lookup_insert]. apply HR. intros l Hl. apply lookup_insert_ne. congruence.
    + unfold dv_move_new, set_dv at 1. unfold bind at 1 2. cbn [fst snd]. rewrite (HX _ (DV (It 0 PUninit None) PUninit)) by (rewrite ?lookup_insert_ne, ?lookup_insert by congruence; trivial). eexists. split; [reflexivity|].
      split; [|apply lookup_insert]. apply HR. intros l Hl. rewrite !lookup_insert_ne by congruence. reflexivity.
Qed.

Definition dminv (sl : jspec A * gset nat) (w : dmworld A) : Prop := exists ws, jinv N (fst sl) (fst w, ws) /\ lrel (snd sl) ws (snd w).
Lemma dm_step_ok o sl w : dminv sl w -> magree dminv (dms_step eqb o sl) (dm_step N eqb o w).
Proof.
  destruct sl as [s lost], w as [st vs]. intros (ws & Hj & Hr). cbn [fst snd] in *. destruct o as [o|k j]; cbn [dms_step].
  - destruct (existsb _ _) eqn:Hu; [exact I|]. pose proof (j_step_ok N HN eqb o s (st, ws) Hj) as Hs. pose proof (sim o lost ws vs st Hr Hu) as Hm.
    destruct (js_step eqb o s) as [[r s']| |]; [| |exact I].
    + destruct Hs as ([st' ws'] & R & Hj'). rewrite R in Hm. destruct Hm as (vs' & E & Hr'). exists (st', vs'). split; [exact E|]. exists ws'. split; assumption.
    + unfold magree in *. rewrite Hs in Hm. exact Hm.
  - unfold with_pl. destruct (j_its s !! j) as [p|] eqn:Ep; [|exact I]. destruct (j_dqs s !! dp_id p) as [[l b]|] eqn:El; [|exact I].
    destruct (proj2 Hj _ _ Ep) as (i & Ei & Hp). cbn [fst snd] in *. pose proof (place_copy N HN _ _ _ _ (proj1 Hj) Hp) as Hc. cbn [fst] in Hc.
    destruct (Nat.eqb k j || bool_decide (j ∈ lost)) eqn:Eb.
    + assert (Hb : k = j \/ j ∈ lost) by (apply orb_true_iff in Eb as [Eb|Eb]; [left; apply Nat.eqb_eq, Eb|right; apply bool_decide_eq_true in Eb; exact Eb]).
      destruct (move_bad k j i lost ws vs st Hr Ei Hc Hb) as (vs' & R & Hr' & _). exists (st, vs'). split; [exact R|]. exists (delete k ws). split; [|exact Hr']. split; [exact (proj1 Hj)|].
      cbn [fst snd forget j_its j_dqs]. intros m pl Hm. apply lookup_delete_Some in Hm as [Hmk Hm]. destruct (proj2 Hj _ _ Hm) as (i' & Ei' & Hp'). exists i'. split; [|exact Hp']. cbn [snd] in Ei'. rewrite lookup_delete_ne by exact Hmk. exact Ei'.
    + apply orb_false_iff in Eb as [Ek Ej]. apply Nat.eqb_neq in Ek. apply bool_decide_eq_false in Ej.
      destruct (move_ok k j i lost ws vs st Hr Ei Hc Ek Ej) as (vs' & R & Hr'). exists (st, vs'). split; [exact R|]. exists (<[k := i]> ws). split; [|exact Hr'].
      apply (jinv_set N s (st, ws)); assumption.
Qed.
Lemma dminv0 : dminv (jspec0, ∅) dmworld0.
Proof. exists ∅. split; [apply jinv0|]. intros k i Hk. discriminate Hk. Qed.
Theorem dm_run ops : magree dminv (srun (dms_step eqb) ops (jspec0, ∅)) (mrun (dm_step N eqb) ops dmworld0).
Proof. exact (mrun_agree (dm_step N eqb) (dms_step eqb) dminv dm_step_ok ops (jspec0, ∅) dmworld0 dminv0). Qed.
Theorem dm_history (ops : list (dmop A)) : match srun (dms_step eqb) ops (jspec0, ∅) with
  | SVal (rs, _) => exists w, mrun (dm_step N eqb) ops dmworld0 = Ok (rs, w)
  | SAbort => mrun (dm_step N eqb) ops dmworld0 = Abort
  | SUnspec => True
  end.
Proof.
  pose proof (dm_run ops) as H. destruct (srun (dms_step eqb) ops (jspec0, ∅)) as [[rs s]| |]; [|exact H|exact I]. destruct H as (w & R & _). eauto.
Qed.
End Move.
