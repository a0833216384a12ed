(** for_each over deques whose callback changes deques. *)
From Verif Require Import Base VectorModel VectorSpec Adapter Hist ListModel DequeModel DequeSpec DequeIterModel DequeIterSpec
  DequeProofs DequeResize DequeHist DequeHist2 DequeGeo DequeIterProofs DqEachModel DqEachSpec.

Section Each.
Context {A C : Type} (N : nat) (HN : 0 < N) (eqb : A -> A -> bool).
Notation jinv := (jinv (A := A) N).

Definition dagree {X} (r : dres (X * jspec A)) (c : res (X * jworld A)) : Prop :=
  match r with
  | DEnd (x, s) => exists w, c = Ok (x, w) /\ jinv s w
  | DMore => c = Diverge
  | DAbort => c = Abort
  | DUnspec => True
  end.

Lemma dclient_ok (p : dclient A C) : forall s w, jinv s w -> magree jinv (dclient_spec eqb p s) (dclient_run N eqb p w).
Proof.
  induction p as [c|o k IH]; intros s w Hj; cbn [dclient_spec dclient_run].
  - exists w. auto.
  - pose proof (j_step_ok N HN eqb o s w Hj) as H. destruct (js_step eqb o s) as [[r s1]| |]; cbn [magree] in H; [|rewrite (bind_abort _ _ _ H); reflexivity|exact I].
    destruct H as (w1 & E & H1). rewrite (bind_ok _ _ _ _ _ E). apply IH, H1.
Qed.

Lemma deach_loop_ok (cb : C -> dclient A C) e it x : forall fuel c s w, jinv s w ->
  dagree (deach_spec eqb fuel e it x cb c s) (deach_loop N eqb fuel e it x cb c w).
Proof.
  induction fuel as [|fuel IH]; intros c s w Hj; pose proof Hj as [Hw Hi]; cbn [deach_spec deach_loop].
  all: destruct (j_its s !! it) as [pl|] eqn:E1; [|exact I]; destruct (j_its s !! e) as [pl'|] eqn:E2; [|exact I];
    destruct (Hi _ _ E1) as (i & Ei & Hp); destruct (Hi _ _ E2) as (i' & Ei' & Hp');
    destruct (place_get N HN _ _ _ _ Hw Hp) as (l & q & t & p & El & Hq & Hr & Hst & Et & Hnd & Hfit & _);
    destruct (place_get N HN _ _ _ _ Hw Hp') as (l' & q' & t' & p' & El' & Hq' & Hr' & Hst' & _);
    destruct (Nat.eqb_spec (dp_id pl) (dp_id pl')) as [Eid|]; [|exact I]; cbn [negb];
    rewrite <- Eid in *; rewrite El in El'; injection El' as <-; rewrite Hq in Hq'; injection Hq' as <-;
    destruct (geom_unique _ _ _ _ _ _ _ (rdy_geom N HN _ _ _ _ _ _ Hr) (rdy_geom N HN _ _ _ _ _ _ Hr')) as [-> ->];
    rewrite (bind_ok _ _ _ _ _ (get_var_ok _ _ _ Ei)), (bind_ok _ _ _ _ _ (get_var_ok _ _ _ Ei')), (bind_ok _ _ _ _ _ (on_deqs_id _ _ _ (place_rd N HN _ _ _ _ Hw Hp))),
      (bind_ok _ _ _ _ _ (on_deqs_id _ _ _ (place_rd N HN _ _ _ _ Hw Hp'))), (stands_eqp N HN _ _ _ _ _ _ _ _ _ _ Hnd Hfit Hst Hst').
  all: destruct (dp_ix pl =? dp_ix pl'); [exists w; auto|].
  - reflexivity.
  - unfold len_of. rewrite El. destruct (Nat.ltb_spec (dp_ix pl) (length l)) as [Hlt|]; [|exact I].
    destruct (lookup_lt_is_Some_2 l _ Hlt) as [a Ha].
    rewrite (bind_ok _ _ _ _ _ (get_var_ok _ _ _ Ei)), (bind_ok _ _ _ _ _ (on_deqs_id _ _ _ (stands_ld N HN _ _ _ _ _ _ _ _ _ _ Hr Hst Ha))).
    assert (Hx : place_ok N (j_dqs s) (fst w) (DP (dp_id pl) (dp_ix pl) false) (It 0 (i_cur i) None)).
    { destruct (stands_cell N HN _ _ _ _ _ _ _ Hst Hlt Hfit) as (bb & oo & Hc & Ec).
      eapply place_make; try eassumption. split; [exact Hlt|]. exists bb, oo. auto. }
    pose proof (jinv_set N _ _ x _ _ Hj Hx) as Hj1.
    rewrite (bind_ok _ _ _ tt (fst w, <[x := It 0 (i_cur i) None]> (snd w)) eq_refl).
    pose proof (dclient_ok (cb c) _ _ Hj1) as Hc. destruct (dclient_spec eqb (cb c) _) as [[c' s']| |]; cbn [magree] in Hc; [|rewrite (bind_abort _ _ _ Hc); reflexivity|exact I].
    destruct Hc as (w' & Ec & Hj'). rewrite (bind_ok _ _ _ _ _ Ec).
    pose proof (j_step_ok N HN eqb (JNext it) s' w' Hj') as Hn. cbn [j_step] in Hn.
    destruct (js_step eqb (JNext it) s') as [[r s2]| |]; cbn [magree] in Hn; [| |exact I].
    + destruct Hn as (w2 & En & Hj2).
      apply bind_inv in En as (i2 & w3 & E3 & En). apply bind_inv in En as (i4 & w4 & E4 & En). apply bind_inv in En as ([] & w5 & E5 & En).
      injection En as _ <-. rewrite (bind_ok _ _ _ _ _ E3), (bind_ok _ _ _ _ _ E4), (bind_ok _ _ _ _ _ E5). apply IH, Hj2.
    + cbn [dagree]. revert Hn. unfold bind. destruct (get_var it w') as [[i2 w3]| | |]; [|reflexivity|discriminate..].
      destruct (on_deqs (it_next N i2) w3) as [[i4 w4]| | |]; [|reflexivity|discriminate..]. discriminate.
Qed.

Lemma deach_history ops1 fuel b e it x (cb : C -> dclient A C) c ops2 :
  let run := (rs1 <- mrun (j_step N eqb) ops1 ;; c <- deach N eqb fuel b e it x cb c ;; rs2 <- mrun (j_step N eqb) ops2 ;; ret (rs1, c, rs2))%cpp in
  match deach_in_spec eqb ops1 fuel b e it x cb c ops2 with
  | DEnd r => exists w, run jworld0 = Ok (r, w)
  | DMore => run jworld0 = Diverge
  | DAbort => run jworld0 = Abort
  | DUnspec => True
  end.
Proof.
  intros run. unfold deach_in_spec.
  pose proof (mrun_agree (j_step N eqb) (js_step eqb) jinv (j_step_ok N HN eqb) ops1 jspec0 jworld0 (jinv0 N)) as H1.
  destruct (srun (js_step eqb) ops1 jspec0) as [[rs1 s]| |]; cbn [magree] in H1; [|unfold run; rewrite (bind_abort _ _ _ H1); reflexivity|exact I].
  destruct H1 as (w & E1 & Hj). unfold run. rewrite (bind_ok _ _ _ _ _ E1). destruct (j_its s !! b) as [pl|] eqn:Eb; [|exact I].
  pose proof Hj as [Hw Hi]. destruct (Hi _ _ Eb) as (i & Ei & Hp).
  assert (Ed : forall k : C -> M (jworld A) (list (out A) * C * list (out A)), (bind (deach N eqb fuel b e it x cb c) k) w = bind (deach_loop N eqb fuel e it x cb c) k (fst w, <[it := i]> (snd w))).
  { intros k. unfold deach. unfold bind at 1 2 3 4. rewrite (get_var_ok _ _ _ Ei), (on_deqs_id _ _ _ (place_copy N HN _ _ _ _ Hw Hp)). reflexivity. }
  rewrite Ed. pose proof (deach_loop_ok cb e it x fuel c _ _ (jinv_set N _ _ it _ _ Hj Hp)) as H2.
  destruct (deach_spec eqb fuel e it x cb c (set_pl s it pl)) as [[c' s']| | |]; cbn [dagree] in H2.
  - destruct H2 as (w2 & E2 & Hj2). rewrite (bind_ok _ _ _ _ _ E2).
    pose proof (mrun_agree (j_step N eqb) (js_step eqb) jinv (j_step_ok N HN eqb) ops2 _ _ Hj2) as H3.
    destruct (srun (js_step eqb) ops2 s') as [[rs2 s3]| |]; cbn [magree] in H3; [|rewrite (bind_abort _ _ _ H3); reflexivity|exact I].
    destruct H3 as (w3 & E3 & _). rewrite (bind_ok _ _ _ _ _ E3). exists w3. reflexivity.
  - apply bind_diverge, H2.
  - apply bind_abort, H2.
  - exact I.
Qed.
End Each.
