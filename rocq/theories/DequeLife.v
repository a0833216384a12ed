(** Constructor and destructor calls made by deques. *)
From Verif Require Import Base VectorModel VectorSpec Adapter Hist ListModel DequeModel DequeSpec DequeProofs DequeResize DequeHist DequeHist2 DequeLifeSpec.

Section Life.
Context {A : Type} (N : nat) (HN : 0 < N).
Implicit Types (st : dst A) (l : list A) (q : dq).
Notation heap := (gmap nat (list (option A))).
Notation sw := (gmap nat (list A * bool)).
Notation D := (M (dst A)).

(** ** Cells that hold an element *)
Definition live (H : heap) : nat := sum_list_with (fun bc : nat * list (option A) => live_in bc.2) (map_to_list H).
Lemma sum_perm {X} (f : X -> nat) (l1 l2 : list X) : l1 ≡ₚ l2 -> sum_list_with f l1 = sum_list_with f l2.
Proof. induction 1; cbn [sum_list_with]; lia. Qed.
Lemma live_insert (H : heap) b c : H !! b = None -> live (<[b := c]> H) = live_in c + live H.
Proof. intros E. unfold live. rewrite (sum_perm _ _ _ (map_to_list_insert H b c E)). reflexivity. Qed.
Lemma live_delete (H : heap) b c : H !! b = Some c -> live H = live_in c + live (delete b H).
Proof. intros E. rewrite <- (insert_delete H b c E) at 1. apply live_insert, lookup_delete. Qed.
Lemma live_replace (H : heap) b c c' : H !! b = Some c -> live (<[b := c']> H) + live_in c = live H + live_in c'.
Proof. intros E. rewrite <- insert_delete_insert. rewrite live_insert by apply lookup_delete. rewrite (live_delete _ _ _ E). lia. Qed.
Lemma live_in_cell (c : list (option A)) (o : nat) (x v : option A) : c !! o = Some x ->
  live_in (<[o := v]> c) + (if x then 1 else 0) = live_in c + (if v then 1 else 0).
Proof.
  intros E. rewrite <- (take_drop_middle _ _ _ E) at 2. rewrite insert_take_drop by (eapply lookup_lt_Some; exact E).
  rewrite !live_in_app. change (v :: drop (S o) c) with ([v] ++ drop (S o) c). change (x :: drop (S o) c) with ([x] ++ drop (S o) c).
  rewrite !live_in_app. assert (H1 : forall y : option A, live_in [y] = if y then 1 else 0) by (intros [y|]; [exact (live_in_some [y])|exact (live_in_none 1)]). rewrite !H1. lia.
Qed.
Lemma blank_live (c : list (option A)) : blank c = true -> live_in c = 0.
Proof.
  induction c as [|[x|] c IH]; [reflexivity|discriminate|]. intros H. change (None :: c) with ([None] ++ c). rewrite live_in_app, IH by exact H. reflexivity.
Qed.

(** ** What a piece of code may do: [i] says whether it may construct elements, [o]
    whether it may destroy them *)
Definition life (i o : bool) st st' : Prop := keys_below (d_blk st) (d_fresh st) ->
  keys_below (d_blk st') (d_fresh st') /\
  exists k a z, d_fresh st' = d_fresh st + k /\ t_ctor (d_cnt st') = t_ctor (d_cnt st) + k * (2 * N) + a /\
    t_dtor (d_cnt st') = t_dtor (d_cnt st) + k * N + z /\ live (d_blk st') + z = live (d_blk st) + a /\ (i = false -> a = 0) /\ (o = false -> z = 0).
Definition does (i o : bool) {X} (m : D X) : Prop := forall st a st', m st = Ok (a, st') -> life i o st st'.
Lemma life_refl i o st st' : d_blk st' = d_blk st -> d_fresh st' = d_fresh st -> d_cnt st' = d_cnt st -> life i o st st'.
Proof. unfold life. intros -> -> -> Hk. split; [exact Hk|]. exists 0, 0, 0. lia. Qed.
Lemma life_trans i o st st1 st2 : life i o st st1 -> life i o st1 st2 -> life i o st st2.
Proof.
  intros H1 H2 Hk. destruct (H1 Hk) as (Hk1 & k & a & z & E1 & E2 & E3 & E4 & E5 & E6). destruct (H2 Hk1) as (Hk2 & k' & a' & z' & F1 & F2 & F3 & F4 & F5 & F6).
  split; [exact Hk2|]. exists (k + k'), (a + a'), (z + z'). rewrite !Nat.mul_add_distr_r. repeat (split; [lia|]). split; intros H; [specialize (E5 H); specialize (F5 H)|specialize (E6 H); specialize (F6 H)]; lia.
Qed.

Lemma does_ret i o {X} (x : X) : does i o (ret x).
Proof. intros st a st' [= <- <-]. apply life_refl; reflexivity. Qed.
Lemma does_bind i o {X Y} (m : D X) (k : X -> D Y) : does i o m -> (forall x, does i o (k x)) -> does i o (bind m k).
Proof.
  intros H1 H2 st a st' R. unfold bind in R. destruct (m st) as [[x s1]| | |] eqn:E; try discriminate. eapply life_trans; [eapply H1; exact E|eapply H2; exact R].
Qed.
Lemma does_ub i o {X} : does i o (ub : D X). Proof. intros st a st' H; discriminate. Qed.
Lemma does_abort i o {X} : does i o (abort : D X). Proof. intros st a st' H; discriminate. Qed.
Lemma does_diverge i o {X} : does i o (diverge : D X). Proof. intros st a st' H; discriminate. Qed.
Lemma does_assert i o b : does i o (dassert b : D unit). Proof. intros st a st' H. unfold dassert in H. destruct b; [injection H as <- <-; apply life_refl; reflexivity|discriminate]. Qed.
Lemma does_get i o id : does i o (q_get id : D dq).
Proof. intros st a st' H. unfold q_get in H. destruct (d_obj st !! id); [|discriminate]. injection H as <- <-. apply life_refl; reflexivity. Qed.
Lemma does_put i o id q : does i o (q_put id q : D unit).
Proof. intros st a st' H. unfold q_put in H. destruct (d_obj st !! id); [|discriminate]. injection H as <- <-. apply life_refl; reflexivity. Qed.
Lemma does_tab i o (t : list (option nat)) j : does i o (tab_at t j : D (option nat)).
Proof. intros st a st' H. unfold tab_at in H. destruct (t !! j); [|discriminate]. injection H as <- <-. apply life_refl; reflexivity. Qed.
Lemma does_ld i o p : does i o (cell_ld p : D A).
Proof.
  intros st a st' H. unfold cell_ld in H. destruct p; try discriminate. destruct (d_blk st !! b); try discriminate. destruct (l !! off) as [[x|]|]; try discriminate. injection H as <- <-. apply life_refl; reflexivity.
Qed.
Lemma does_new_arr i o : does i o (new_arr N : D nat).
Proof.
  intros st a st' H. injection H as <- <-. intros Hk. cbn [d_blk d_fresh d_cnt]. assert (Hn : d_blk st !! d_fresh st = None).
  { destruct (d_blk st !! d_fresh st) eqn:E; [|reflexivity]. assert (d_fresh st < d_fresh st) by (apply Hk; eauto). lia. }
  split; [intros b Hb; destruct (decide (b = d_fresh st)) as [->|Hne]; [lia|rewrite lookup_insert_ne in Hb by congruence; apply Hk in Hb; lia]|].
  exists 1, 0, 0. unfold tal_block. cbn [t_ctor t_dtor]. rewrite live_insert, live_in_none by exact Hn. lia.
Qed.
Lemma does_free_arr i o p : does i o (free_arr p : D unit).
Proof.
  intros st a st' H. unfold free_arr in H. destruct p as [b|]; [|discriminate]. destruct (d_blk st !! b) as [c|] eqn:E; [|discriminate]. destruct (blank c) eqn:Eb; [|discriminate]. injection H as <- <-.
  intros Hk. cbn [d_blk d_fresh d_cnt]. split; [intros b' Hb'; apply Hk; destruct Hb' as [c' Hc']; apply lookup_delete_Some in Hc' as [_ Hc']; eauto|].
  exists 0, 0, 0. pose proof (live_delete _ _ _ E) as HL. rewrite (blank_live _ Eb) in HL. lia.
Qed.
Lemma does_construct o p x : does true o (cell_construct p x : D unit).
Proof.
  intros st a st' H. unfold cell_construct in H. destruct p; try discriminate. destruct (d_blk st !! b) as [c|] eqn:E; [|discriminate]. destruct (c !! off) as [[y|]|] eqn:Ec; try discriminate.
  unfold cell_st in H. rewrite E in H. destruct (_ <? _); [|discriminate]. injection H as <- <-. intros Hk. cbn [d_blk d_fresh d_cnt].
  split; [intros b' Hb'; apply Hk; destruct (decide (b' = b)) as [->|]; [eauto|rewrite lookup_insert_ne in Hb' by congruence; exact Hb']|].
  exists 0, 1, 0. unfold tal_in. cbn [t_ctor t_dtor]. pose proof (live_replace _ _ _ (<[off := Some x]> c) E) as HL. pose proof (live_in_cell _ _ _ (Some x) Ec) as HC. cbn in HC.
  repeat (split; [lia|]). lia.
Qed.
Lemma does_destroy i p : does i true (cell_destroy p : D unit).
Proof.
  intros st a st' H. unfold cell_destroy in H. destruct p; try discriminate. unfold bind, cell_ld in H. destruct (d_blk st !! b) as [c|] eqn:E; [|discriminate]. destruct (c !! off) as [[y|]|] eqn:Ec; try discriminate.
  unfold cell_st in H. rewrite E in H. destruct (_ <? _); [|discriminate]. injection H as <- <-. intros Hk. cbn [d_blk d_fresh d_cnt].
  split; [intros b' Hb'; apply Hk; destruct (decide (b' = b)) as [->|]; [eauto|rewrite lookup_insert_ne in Hb' by congruence; exact Hb']|].
  exists 0, 0, 1. unfold tal_out. cbn [t_ctor t_dtor]. pose proof (live_replace _ _ _ (<[off := None]> c) E) as HL. pose proof (live_in_cell _ _ _ None Ec) as HC. cbn in HC.
  repeat (split; [lia|]). lia.
Qed.
Lemma does_new i o id : does i o (dq_new id : D unit).
Proof. intros st a st' H. unfold dq_new in H. destruct (d_obj st !! id); [discriminate|]. injection H as <- <-. apply life_refl; reflexivity. Qed.

Local Hint Resolve does_ret does_ub does_abort does_diverge does_assert does_get does_put does_tab does_ld does_new_arr does_free_arr does_construct does_destroy does_new : life.
Ltac go := repeat first [ progress eauto with life nocore | apply does_bind; [|intros ?] | match goal with |- does _ _ (match ?x with _ => _ end) => destruct x end ].

Lemma does_range i o f : (forall j, does i o (f j : D unit)) -> forall k s, does i o (for_range s k f).
Proof. intros H. induction k as [|k IH]; intros s; cbn [for_range]; go. Qed.
Lemma does_cur_next i o p : does i o (cur_next p : D curp). Proof. unfold cur_next. go. Qed.
Lemma does_cur_prev i o p : does i o (cur_prev p : D curp). Proof. unfold cur_prev. go. Qed.
Lemma does_arr_begin i o p : does i o (arr_begin p : D curp). Proof. unfold arr_begin. go. Qed.
Lemma does_arr_end i o p : does i o (arr_end N p : D curp). Proof. unfold arr_end. go. Qed.
Lemma does_rd i o p : does i o (rd p : D curp). Proof. unfold rd. go. Qed.
Lemma does_it_tab i o it : does i o (it_tab it : D _). Proof. unfold it_tab. go. Qed.
Local Hint Resolve does_range does_cur_next does_cur_prev does_arr_begin does_arr_end does_rd does_it_tab : life.
Lemma does_it_next i o it : does i o (it_next N it : D diter). Proof. unfold it_next. go. Qed.
Lemma does_it_prev i o it : does i o (it_prev N it : D diter). Proof. unfold it_prev. go. Qed.
Local Hint Resolve does_it_next does_it_prev : life.
Lemma does_it_add i o n : forall it, does i o (it_add N n it : D diter). Proof. induction n; intros it; cbn [it_add]; go. Qed.
Lemma does_it_sub i o n : forall it, does i o (it_sub N n it : D diter). Proof. induction n; intros it; cbn [it_sub]; go. Qed.
Lemma does_it_copy i o it : does i o (it_copy it : D diter). Proof. unfold it_copy. go. Qed.
Local Hint Resolve does_it_add does_it_sub does_it_copy : life.
Lemma does_clear_elems i f : forall it e, does i true (clear_elems N f it e : D unit).
Proof. induction f as [|f IH]; intros it e; cbn [clear_elems]; go. Qed.
Lemma does_free_all i o (t : list (option nat)) : does i o (free_all t : D unit). Proof. induction t; cbn [free_all]; go. Qed.
Local Hint Resolve does_clear_elems does_free_all : life.
Lemma does_clear i id : does i true (dq_clear N id : D unit). Proof. unfold dq_clear. go. Qed.
Lemma does_init i o id : does i o (dq_init N id : D unit). Proof. unfold dq_init. go. Qed.
Lemma does_build i o id ns ne os old j : does i o (resize_build N id ns ne os old j : D unit). Proof. unfold resize_build. go. Qed.
Lemma does_rfree i o os oe old j : does i o (resize_free os oe old j : D unit). Proof. unfold resize_free. go. Qed.
Local Hint Resolve does_clear does_init does_build does_rfree : life.
Lemma does_resize i o id n : does i o (dq_resize N id n : D unit). Proof. unfold dq_resize. go. Qed.
Local Hint Resolve does_resize : life.
Lemma does_room_back i o id : does i o (room_back N id : D unit). Proof. unfold room_back. go. Qed.
Lemma does_room_front i o id : does i o (room_front N id : D unit). Proof. unfold room_front. go. Qed.
Lemma does_shrink i o id : does i o (shrink N id : D unit). Proof. unfold shrink. go. Qed.
Local Hint Resolve does_room_back does_room_front does_shrink : life.
Lemma does_push_back o id x : does true o (dq_push_back N id x : D unit). Proof. unfold dq_push_back. go. Qed.
Lemma does_push_front o id x : does true o (dq_push_front N id x : D unit). Proof. unfold dq_push_front. go. Qed.
Lemma does_pop_back i id : does i true (dq_pop_back N id : D unit). Proof. unfold dq_pop_back. go. Qed.
Lemma does_pop_front i id : does i true (dq_pop_front N id : D unit). Proof. unfold dq_pop_front. go. Qed.
Local Hint Resolve does_push_back does_push_front does_pop_back does_pop_front : life.
Lemma does_loop i o {X} (body : X -> A -> D X) f : (forall x a, does i o (body x a)) -> forall it e acc, does i o (it_loop N f body it e acc).
Proof. intros H. induction f as [|f IH]; intros it e acc; cbn [it_loop]; go. Qed.
Lemma does_range_for i o {X} id (body : X -> A -> D X) acc : (forall x a, does i o (body x a)) -> does i o (range_for N id body acc).
Proof. intros H. unfold range_for. pose proof (fun f => does_loop i o body f H). go. Qed.
Lemma does_destroy_dq i id : does i true (dq_destroy N id : D unit).
Proof. unfold dq_destroy. apply does_bind; [go|]. intros _ st a st' [= <- <-]. apply life_refl; reflexivity. Qed.

(** ** Histories *)
Notation winv := (winv N).
Lemma total_insert (s : sw) id l r : elements_total (<[id := (l, r)]> s) = length l + elements_total (delete id s).
Proof.
  rewrite <- insert_delete_insert. unfold elements_total. rewrite (sum_perm _ _ _ (map_to_list_insert _ id (l, r) (lookup_delete s id))). reflexivity.
Qed.
Lemma total_get (s : sw) id l r : s !! id = Some (l, r) -> elements_total s = length l + elements_total (delete id s).
Proof. intros E. rewrite <- (insert_id s id (l, r) E) at 1. apply total_insert. Qed.
Lemma live_total (s : sw) st : winv s st -> live (d_blk st) = elements_total s.
Proof. intros H. rewrite <- (elements_exact N HN s st H). reflexivity. Qed.

Definition step_life (n : nat) st st' : Prop := exists k z, d_fresh st' = d_fresh st + k /\ t_ctor (d_cnt st') = t_ctor (d_cnt st) + k * (2 * N) + n /\
  t_dtor (d_cnt st') = t_dtor (d_cnt st) + k * N + z /\ live (d_blk st') + z = live (d_blk st) + n.
Lemma life_no (s : sw) st st' o : winv s st -> life false o st st' -> step_life 0 st st'.
Proof.
  intros Hw H. destruct (H (winv_keys _ _ _ Hw)) as (_ & k & a & z & E1 & E2 & E3 & E4 & E5 & _). specialize (E5 eq_refl) as ->. exists k, z. auto.
Qed.
Lemma life_yes (s s' : sw) st st' n : winv s st -> winv s' st' -> life true false st st' -> elements_total s' = elements_total s + n -> step_life n st st'.
Proof.
  intros Hw Hw' H E. destruct (H (winv_keys _ _ _ Hw)) as (_ & k & a & z & E1 & E2 & E3 & E4 & _ & E6). specialize (E6 eq_refl) as ->.
  rewrite (live_total _ _ Hw), (live_total _ _ Hw') in E4. assert (a = n) as -> by lia. exists k, 0. rewrite (live_total _ _ Hw), (live_total _ _ Hw'). auto.
Qed.
Lemma life_seq st st1 st2 n m : step_life n st st1 -> step_life m st1 st2 -> step_life (n + m) st st2.
Proof.
  intros (k & z & E1 & E2 & E3 & E4) (k' & z' & F1 & F2 & F3 & F4). exists (k + k'), (z + z'). rewrite !Nat.mul_add_distr_r. lia.
Qed.
Lemma does_unit i o (m : D unit) : does i o m -> does i o (dq_unit m).
Proof. intros H. unfold dq_unit. apply does_bind; [exact H|]. intros _. apply does_ret. Qed.
Lemma step_ok_life o (s s' : sw) st st' r : winv s st -> ds_step o s = SVal (r, s') -> dq_step N o st = Ok (r, st') -> winv s' st' -> step_life (puts_in o s) st st'.
Proof.
  intros Hw Es Em Hw'. assert (Hassign : forall (s0 : sw) st0 id src l0 r0 l, winv s0 st0 -> s0 !! id = Some (l0, r0) -> s0 !! src = Some (l, true) -> id <> src ->
    dq_assign N id src st0 = Ok (tt, st') -> winv (<[id := (l, nonempty l)]> s0) st' -> step_life (length l) st0 st').
  { intros s0 st0 id src l0 r0 l Hw0 E0 E1 Hne R Hw2. unfold dq_assign in R. rewrite (proj2 (Nat.eqb_neq id src) Hne) in R. destruct (clear_w N HN _ _ _ _ _ Hw0 E0) as (st1 & R1 & Hw1 & _).
    rewrite (bind_ok _ _ _ _ _ R1) in R. apply (life_seq _ st1 _ 0 (length l)); [eapply life_no; [exact Hw0|eapply does_clear; exact R1]|].
    eapply life_yes; [exact Hw1|exact Hw2|eapply does_range_for; [|exact R]; intros ? a; apply does_push_back|]. rewrite !total_insert. cbn [length]. lia. }
  destruct o; cbn [ds_step dq_step puts_in] in *; unfold with_dq, no_dq in Es;
    try (eapply (life_no _ _ _ true); [exact Hw|]; revert Em; apply (does_unit false true); first [apply does_new|apply does_destroy_dq|apply does_clear|apply does_pop_back|apply does_pop_front]);
    try (revert Em; match goal with |- ?m st = _ -> _ => intros Em; eapply (life_no _ _ _ true); [exact Hw|]; revert Em; apply (does_bind false true); [|intros ?; apply does_ret] end;
         solve [first [apply does_get|unfold dq_front, dq_back, dq_at, dq_iter; repeat first [apply does_range_for; intros ? ?; apply does_ret|apply does_it_sub|apply does_it_add|apply does_bind; [|intros ?]|apply does_get|apply does_ld|match goal with |- does _ _ (if ?x then _ else _) => destruct x end]]]).
  - (* copy-construct *) destruct (s !! id) as [[l0 r0]|] eqn:E; [discriminate|]. destruct (s !! src) as [[l [|]]|] eqn:Esrc; try discriminate. injection Es as <- <-.
    assert (Hne : id <> src) by congruence. rewrite (proj2 (Nat.eqb_neq id src) Hne).
    set (q0 := DQ 0 0 [] (It 0 PUninit None) (It 0 PUninit None)). set (st0 := DSt (d_blk st) (d_fresh st) (d_cnt st) (<[id := q0]> (d_obj st))) in *.
    assert (Hw0 : winv (<[id := ([], false)]> s) st0) by (apply winv_new; auto).
    assert (Rn : dq_new id st = Ok (tt, st0)) by (unfold dq_new; rewrite (winv_none _ _ _ _ Hw E); reflexivity).
    unfold dq_unit in Em. unfold bind at 1 in Em. rewrite (bind_ok _ _ _ _ _ Rn) in Em. destruct (dq_assign N id src st0) as [[[] st2]| | |] eqn:R; try discriminate. injection Em as <-.
    apply (life_seq _ st0 _ 0 (length l)); [eapply (life_no _ _ _ true); [exact Hw|apply life_refl; reflexivity]|].
    apply (Hassign (<[id := ([], false)]> s) st0 id src [] false l); [exact Hw0|apply lookup_insert|rewrite lookup_insert_ne by congruence; exact Esrc|exact Hne|exact R|]. rewrite insert_insert. exact Hw'.
  - discriminate.
  - (* assign *) destruct (s !! id) as [[l0 r0]|] eqn:E; [|discriminate]. destruct (s !! src) as [[l r1]|] eqn:Esrc; [|discriminate]. unfold dq_unit, bind in Em.
    destruct (dq_assign N id src st) as [[[] st2]| | |] eqn:R; try discriminate. injection Em as <- <-. destruct (Nat.eqb_spec id src) as [->|Hne].
    + unfold dq_assign in R. rewrite Nat.eqb_refl in R. injection R as <-. eapply (life_no _ _ _ true); [exact Hw|apply life_refl; reflexivity].
    + destruct r1; [|discriminate]. injection Es as <-. apply (Hassign s st id src l0 r0 l); assumption.
  - (* move *) destruct (s !! id) as [[l0 r0]|] eqn:E; [|discriminate]. destruct (Nat.eqb_spec id src) as [->|Hne]; [|discriminate]. unfold dq_unit, bind, dq_move in Em. rewrite Nat.eqb_refl in Em. injection Em as <- <-.
    eapply (life_no _ _ _ true); [exact Hw|apply life_refl; reflexivity].
  - (* pushes *) destruct (s !! id) as [[l r0]|] eqn:E; [|discriminate]. injection Es as <- <-. eapply life_yes; [exact Hw|exact Hw'|revert Em; apply (does_unit true false); apply does_push_back|].
    rewrite total_insert, (total_get _ _ _ _ E), app_length. cbn [length]. lia.
  - destruct (s !! id) as [[l r0]|] eqn:E; [|discriminate]. injection Es as <- <-. eapply life_yes; [exact Hw|exact Hw'|revert Em; apply (does_unit true false); apply does_push_front|].
    rewrite total_insert, (total_get _ _ _ _ E). cbn [length]. lia.
  - destruct (s !! id) as [[l r0]|] eqn:E; [|discriminate]. injection Es as <- <-. eapply life_yes; [exact Hw|exact Hw'|revert Em; apply (does_unit true false); apply does_push_back|].
    rewrite total_insert, (total_get _ _ _ _ E), app_length. cbn [length]. lia.
Qed.

Lemma run_life ops : forall (s s' : sw) st rs, winv s st -> srun ds_step ops s = SVal (rs, s') ->
  exists st', mrun (dq_step N) ops st = Ok (rs, st') /\ winv s' st' /\ step_life (puts_all ops s) st st'.
Proof.
  induction ops as [|o ops IH]; intros s s' st rs Hw R.
  - injection R as <- <-. exists st. split; [reflexivity|]. split; [exact Hw|]. exists 0, 0. cbn [puts_all]. lia.
  - cbn [srun puts_all] in *. pose proof (dq_step_ok N HN o s st Hw) as Hs. destruct (ds_step o s) as [[r s1]| |] eqn:E; try discriminate.
    destruct (srun ds_step ops s1) as [[rs1 s2]| |] eqn:E2; try discriminate. injection R as <- <-. destruct Hs as (st1 & R1 & Hw1).
    destruct (IH _ _ _ _ Hw1 E2) as (st2 & R2 & Hw2 & L2). exists st2. split; [cbn [mrun]; rewrite (bind_ok _ _ _ _ _ R1), (bind_ok _ _ _ _ _ R2); reflexivity|].
    split; [exact Hw2|]. eapply life_seq; [eapply step_ok_life; eassumption|exact L2].
Qed.

Theorem lifetimes (ops : list (dop A)) rs s : srun ds_step ops ∅ = SVal (rs, s) ->
  exists w, mrun (dq_step N) ops dst_init = Ok (rs, w) /\
    t_ctor (d_cnt w) = d_fresh w * (2 * N) + puts_all ops ∅ /\ t_dtor (d_cnt w) + elements_total s = d_fresh w * N + puts_all ops ∅.
Proof.
  intros R. destruct (run_life ops ∅ s dst_init rs (winv_empty N) R) as (w & Rw & Hw & k & z & E1 & E2 & E3 & E4). exists w. split; [exact Rw|].
  rewrite (live_total _ _ Hw) in E4. cbn [d_fresh d_cnt d_blk dst_init t_ctor t_dtor] in *. change (live (∅ : heap)) with 0 in E4. assert (k = d_fresh w) as -> by lia. lia.
Qed.

Lemma two_blocks (s : sw) st id l r : winv s st -> s !! id = Some (l, r) -> l <> [] -> 2 <= d_fresh st.
Proof.
  intros Hw E Hl. destruct (winv_get _ _ _ _ _ _ Hw E) as (q & t & Hq & Hd). destruct r; [|destruct Hd as [-> _]; congruence]. pose proof Hd as (p & _ & _ & _ & Hnd & HB & _).
  assert (Hb : forall b, b ∈ t -> b < d_fresh st) by (intros b Hb; apply (winv_keys _ _ _ Hw); eapply dqok_live; eassumption).
  destruct t as [|b0 [|b1 t]]; cbn [length] in HB; try lia. pose proof (Hb b0 ltac:(left)). pose proof (Hb b1 ltac:(right; left)).
  apply NoDup_cons in Hnd as [Hn _]. assert (b0 <> b1) by (intros ->; apply Hn; left). lia.
Qed.
Theorem leak (ops1 ops2 : list (dop A)) rs1 rs2 s s2 id l r : srun ds_step ops1 ∅ = SVal (rs1, s) -> s !! id = Some (l, r) -> l <> [] ->
  srun ds_step ops2 s = SVal (rs2, s2) -> size s2 = 0 ->
  exists w, mrun (dq_step N) (ops1 ++ ops2) dst_init = Ok (rs1 ++ rs2, w) /\ d_blk w = ∅ /\ d_obj w = ∅ /\
    t_ctor (d_cnt w) = t_dtor (d_cnt w) + d_fresh w * N /\ 2 <= d_fresh w.
Proof.
  intros R1 E Hl R2 Hs2. apply map_size_empty_inv in Hs2 as ->. destruct (run_life ops1 ∅ s dst_init rs1 (winv_empty N) R1) as (w1 & Rw1 & Hw1 & L1). destruct (run_life ops2 s ∅ w1 rs2 Hw1 R2) as (w & Rw & Hw & L2).
  pose proof (two_blocks _ _ _ _ _ Hw1 E Hl) as H2. pose proof L2 as (k2 & _ & F2 & _). destruct (life_seq _ _ _ _ _ L1 L2) as (k & z & E1 & E2 & E3 & E4). exists w.
  split; [rewrite (mrun_app _ _ _ _ _ _ Rw1), Rw; reflexivity|].
  assert (Hobj : d_obj w = ∅) by (apply map_eq; intros j; rewrite lookup_empty; apply (winv_none _ _ _ _ Hw); apply lookup_empty).
  assert (Hblk : d_blk w = ∅).
  { apply map_eq. intros b. rewrite lookup_empty. destruct (d_blk w !! b) as [c|] eqn:Eb; [|reflexivity]. destruct Hw as (_ & _ & W3 & _). destruct (W3 b) as (j & q & Hq & _); [eauto|]. rewrite Hobj, lookup_empty in Hq. discriminate. }
  split; [exact Hblk|]. split; [exact Hobj|]. rewrite Hblk in E4. cbn [d_fresh d_cnt d_blk dst_init t_ctor t_dtor] in *. change (live (∅ : heap)) with 0 in E4. assert (k = d_fresh w) as -> by lia. lia.
Qed.
End Life.
