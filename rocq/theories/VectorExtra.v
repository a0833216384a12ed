(** Capacity, amortised cost, self references, and the statements behind PropVector.v. *)
From Verif Require Import Base VectorModel VectorSpec VecProg VectorProofs VectorWorld.

Section Extra.
Context {A : Type} (triv : bool).
Notation world := (world A).

Lemma history_correct (ops : list (vop A)) :
  match s_run triv ops ∅ with
  | SVal (rs, s) => exists w, v_run triv ops world_init = Ok (rs, w) /\ forall id, contents w id = s !! id
  | SAbort => v_run triv ops world_init = Abort
  | SUnspec => v_run triv ops world_init = UB
  end.
Proof.
  pose proof (v_run_sim triv ops world_init ∅ winv_init) as H. rewrite fmap_empty in H.
  destruct (s_run triv ops ∅) as [[rs s]| |]; auto.
  destruct H as (w & ls & Hr & Hw & ->). exists w. split; [exact Hr|]. intros id.
  rewrite lookup_fmap. apply winv_contents, Hw.
Qed.

Lemma live_count_cells (l : list A) n : live_count (cells l n) = length l.
Proof.
  unfold cells. rewrite live_count_app, live_count_raw, Nat.add_0_r.
  unfold live_count. induction l as [|a l IH]; [reflexivity|].
  cbn [map]. rewrite filter_cons_True by reflexivity. cbn [length]. f_equal. exact IH.
Qed.

Lemma winv_storage (w : world) s : winv w s -> storage_ok w.
Proof.
  intros H. destruct H as [Hok Hlk Hrep Hsep Hcov].
  split; [|split; [|split; [|split]]]; auto.
  - intros id v b Hv Hb. specialize (Hrep id). rewrite Hv in Hrep.
    destruct (s !! id) as [l|]; [|contradiction]. destruct Hrep as ((Hs & Hc & Hp) & _). rewrite Hb in Hp.
    exists (cells (l_seq l) (v_cap v)). split_and!; [tauto|rewrite cells_length; lia|].
    rewrite live_count_cells. exact Hs.
  - intros He. apply map_eq. intros b. rewrite lookup_empty.
    destruct (m_blocks (w_mem w) !! b) eqn:E; [|reflexivity].
    destruct (Hcov b ltac:(eauto)) as (i & v & Hi & _). rewrite He, lookup_empty in Hi. discriminate.
Qed.

Lemma storage_accounting (w : world) : reachable triv w -> storage_ok w.
Proof. intros Hre. destruct (reachable_winv triv w Hre) as [s H]. eapply winv_storage, H. Qed.

Lemma winv_view (w : world) s : winv w s -> view w = s.
Proof.
  intros H. apply map_eq. intros id. unfold view. rewrite map_lookup_imap.
  pose proof (wi_rep _ _ H id) as Hr.
  rewrite (winv_contents _ _ H). destruct (w_objs w !! id) as [v|]; destruct (s !! id) as [[l c]|]; try contradiction; auto.
  destruct Hr as [_ Hc]. simpl in *. subst c. reflexivity.
Qed.

Lemma index_get (w : world) id v l i k a :
  reachable triv w -> holds w id v l -> py_index (length l) i = Some k -> nth_error l k = Some a ->
  v_get v i (w_mem w) = Ok (a, w_mem w).
Proof.
  intros Hre Hh Hk Ha. destruct (holds_vrep triv w id v l Hre Hh) as [Hr _].
  rewrite nth_error_lookup in Ha. eapply v_get_ok; eassumption.
Qed.

Lemma reachable_step (w : world) o r w' :
  reachable triv w -> v_step triv o w = Ok (r, w') -> reachable triv w'.
Proof.
  intros (ops & rs & Hrun) Hs. exists (ops ++ [o]), (rs ++ [r]).
  assert (G : forall w0 rs0, v_run triv ops w0 = Ok (rs0, w) -> v_run triv (ops ++ [o]) w0 = Ok (rs0 ++ [r], w')).
  { clear Hrun rs. induction ops as [|o' ops IH]; intros w0 rs0 Hrun; simpl in *.
    - injection Hrun as <- <-. erewrite bind_ok by exact Hs. reflexivity.
    - apply bind_inv in Hrun as (r1 & w1 & H1 & Hrun). erewrite bind_ok by exact H1.
      apply bind_inv in Hrun as (rs1 & w2 & H2 & Hrun). injection Hrun as <- <-.
      erewrite bind_ok by (apply IH; exact H2). reflexivity. }
  apply G, Hrun.
Qed.

Lemma index_set (w : world) id v l i k a :
  reachable triv w -> holds w id v l -> py_index (length l) i = Some k ->
  exists w', v_step triv (OSet id i a) w = Ok (RUnit, w') /\
    contents w' id = Some (<[k := a]> l) /\ forall j, j <> id -> contents w' j = contents w j.
Proof.
  intros Hre Hh Hk. pose proof Hh as [Hv Hl].
  destruct (holds_vrep triv w id v l Hre Hh) as [Hr Hok].
  destruct (reachable_winv triv w Hre) as [s H].
  pose proof (v_step_sim triv (OSet id i a) w s H) as Hs. unfold sim_res in Hs.
  destruct (winv_holds _ _ _ _ _ H Hh) as [Hsl _].
  cbn [lv_step] in Hs. unfold lwith, at_index in Hs. rewrite Hsl in Hs. cbn [l_seq l_cap] in Hs. rewrite Hk in Hs.
  destruct Hs as (w' & Hs & Hw'). exists w'. split_and!; auto.
  - rewrite (winv_contents _ _ Hw'), lookup_insert. reflexivity.
  - intros j Hj. rewrite (winv_contents _ _ Hw'), (winv_contents _ _ H), lookup_insert_ne by congruence. reflexivity.
Qed.

Lemma index_too_large (w : world) id v l i a :
  reachable triv w -> holds w id v l -> (Z.of_nat (length l) <= i)%Z ->
  v_get v i (w_mem w) = Abort /\ v_set v i a (w_mem w) = Abort.
Proof.
  intros Hre Hh Hi. destruct (holds_vrep triv w id v l Hre Hh) as [Hr _].
  split; apply bind_abort, (v_index_abort _ _ _ _ Hr Hi).
Qed.

Lemma index_too_negative (w : world) id v l i a :
  reachable triv w -> holds w id v l -> (i < - Z.of_nat (length l))%Z ->
  v_get v i (w_mem w) = UB /\ v_set v i a (w_mem w) = UB.
Proof.
  intros Hre Hh Hi. destruct (holds_vrep triv w id v l Hre Hh) as [Hr _].
  split; [apply (v_get_neg _ _ _ _ Hr Hi)|apply (v_set_neg _ _ _ _ _ Hr Hi)].
Qed.

(** *** Capacity *)
Lemma capacity_bound (w : world) id v :
  reachable triv w -> w_objs w !! id = Some v -> v_size v <= v_cap v.
Proof.
  intros Hre Hv. destruct (reachable_holds triv w id v Hre Hv) as [l Hh].
  destruct (holds_vrep triv w id v l Hre Hh) as [(Hs & Hc & _) _]. exact Hc.
Qed.

Lemma vpost_world (w : world) s id v m' v' l' c k :
  winv w s -> w_objs w !! id = Some v -> vpost (w_mem w) v m' v' l' c k ->
  let w' := World m' (<[id := v']> (w_objs w)) in
  contents w' id = Some l' /\ forall j, j <> id -> contents w' j = contents w j.
Proof.
  intros H Hv Hpost w'. pose proof (winv_update _ _ _ _ _ _ _ _ _ H Hv Hpost) as Hw.
  split.
  - rewrite (winv_contents _ _ Hw), lookup_insert. reflexivity.
  - intros j Hj. rewrite (winv_contents _ _ Hw), (winv_contents _ _ H), lookup_insert_ne by congruence. reflexivity.
Qed.

Lemma push_capacity (w : world) id v l a :
  reachable triv w -> holds w id v l ->
  exists w' v', v_step triv (OPush id a) w = Ok (RUnit, w') /\ holds w' id v' (l ++ [a]) /\
    v_cap v' = (if Nat.ltb (v_size v) (v_cap v) then v_cap v else Nat.max 2 (2 * v_size v)) /\
    (v_size v < v_cap v -> v_ptr v' = v_ptr v).
Proof.
  intros Hre Hh. pose proof Hh as [Hv _]. destruct (holds_vrep triv w id v l Hre Hh) as [Hr Hok].
  destruct (reachable_winv triv w Hre) as [s H].
  destruct (v_push_back_ok triv a v l _ Hr Hok) as (v' & m' & Hrun & Hpost).
  destruct (vpost_world w s id v m' v' _ _ _ H Hv Hpost) as [Hc1 _].
  exists (World m' (<[id := v']> (w_objs w))), v'. cbn [v_step].
  rewrite (bind_ok _ _ _ _ _ (obj_ok _ _ _ Hv)).
  erewrite bind_ok by (apply lift_ok; exact Hrun). split; [reflexivity|]. split; [|split].
  - split; [apply lookup_insert|exact Hc1].
  - destruct Hpost as (_ & -> & _). pose proof (vrep_cap _ _ _ Hr). rewrite (vrep_size _ _ _ Hr).
    unfold grow. destruct (Nat.ltb_spec (v_cap v) (length l + 1)); destruct (Nat.ltb_spec (length l) (v_cap v)); try lia.
    destruct (Nat.eqb_spec (length l) 0); lia.
  - intros Hlt. unfold v_push_back in Hrun. destruct (Nat.ltb_spec (v_cap v) (v_size v + 1)); [lia|].
    rewrite bind_ret in Hrun. cbn [read_arg] in Hrun. rewrite bind_ret in Hrun.
    apply bind_inv in Hrun as ([] & m1 & _ & Hrun). injection Hrun as <- _. reflexivity.
Qed.

Lemma pop_capacity (w : world) id v l a :
  reachable triv w -> holds w id v (l ++ [a]) ->
  exists w' v', v_step triv (OPop id) w = Ok (RUnit, w') /\ holds w' id v' l /\
    v_cap v' = (if Nat.ltb (length l) (v_cap v / 3) then v_cap v / 2 else v_cap v).
Proof.
  intros Hre Hh. pose proof Hh as [Hv _]. destruct (holds_vrep triv w id v _ Hre Hh) as [Hr Hok].
  destruct (reachable_winv triv w Hre) as [s H].
  destruct (v_pop_back_ok triv a v l _ Hr Hok) as (v' & m' & Hrun & Hpost).
  destruct (vpost_world w s id v m' v' _ _ _ H Hv Hpost) as [Hc1 _].
  exists (World m' (<[id := v']> (w_objs w))), v'. cbn [v_step].
  rewrite (bind_ok _ _ _ _ _ (obj_ok _ _ _ Hv)).
  erewrite bind_ok by (apply lift_ok; exact Hrun). split; [reflexivity|]. split.
  - split; [apply lookup_insert|exact Hc1].
  - destruct Hpost as (_ & -> & _). reflexivity.
Qed.

(** *** Amortised cost *)
(** Twice the potential of a vector with [s] elements and capacity [c]. *)
Definition phi (s c : nat) : nat := 2 * (2 * s - c) + 3 * (c - 2 * s).

Lemma phi_push s c : s <= c -> 2 * push_cost s c + phi (s + 1) (grow s c) <= phi s c + 6.
Proof.
  intros. unfold push_cost, grow, phi.
  destruct (Nat.ltb_spec c (s + 1)); [destruct (Nat.eqb_spec s 0)|]; lia.
Qed.
Lemma phi_pop s c : s + 1 <= c -> 2 * pop_cost s c + phi s (shrink s c) <= phi (s + 1) c + 6.
Proof.
  intros. unfold pop_cost, shrink, phi.
  pose proof (Nat.div_mod c 3 ltac:(lia)). pose proof (Nat.mod_upper_bound c 3 ltac:(lia)).
  pose proof (Nat.div_mod c 2 ltac:(lia)). pose proof (Nat.mod_upper_bound c 2 ltac:(lia)).
  destruct (Nat.ltb_spec s (c / 3)); lia.
Qed.

Definition is_pushpop (id : nat) (o : vop A) : bool :=
  match o with OPush i _ => Nat.eqb i id | OPop i => Nat.eqb i id | _ => false end.

Lemma amortised_gen id ops : forall (w : world) s v l rs w',
  winv w s -> w_objs w !! id = Some v -> s !! id = Some l ->
  forallb (is_pushpop id) ops = true ->
  v_run triv ops w = Ok (rs, w') ->
  exists v', w_objs w' !! id = Some v' /\
    2 * m_ctor (w_mem w') + phi (v_size v') (v_cap v') <=
    2 * m_ctor (w_mem w) + phi (v_size v) (v_cap v) + 6 * length ops.
Proof.
  induction ops as [|o ops IH]; intros w s v l rs w' H Hv Hl Hf Hrun.
  - injection Hrun as <- <-. exists v. split; [exact Hv|]. simpl. lia.
  - cbn [forallb] in Hf. apply andb_true_iff in Hf as [Ho Hf].
    cbn [v_run] in Hrun. apply bind_inv in Hrun as (r & w1 & Hstep & Hrun).
    apply bind_inv in Hrun as (rs1 & w2 & Hrun & Heq). injection Heq as <- <-.
    pose proof (wi_ok _ _ H) as Hok.
    destruct l as [l c].
    assert (Hr : vrep (w_mem w) v l).
    { pose proof (wi_rep _ _ H id) as Hr. rewrite Hv, Hl in Hr. apply Hr. }
    pose proof (vrep_size _ _ _ Hr) as Hsz. pose proof (vrep_cap _ _ _ Hr) as Hcap.
    assert (Hone : exists v1 l1 s1, winv w1 s1 /\ w_objs w1 !! id = Some v1 /\ s1 !! id = Some l1 /\
      2 * m_ctor (w_mem w1) + phi (v_size v1) (v_cap v1) <= 2 * m_ctor (w_mem w) + phi (v_size v) (v_cap v) + 6).
    { destruct o as [ | | | | | |i a|i| | | | | | | | | | | ]; try discriminate Ho;
        simpl in Ho; apply Nat.eqb_eq in Ho; subst i; cbn [v_step] in Hstep;
        rewrite (bind_ok _ _ _ _ _ (obj_ok _ _ _ Hv)) in Hstep.
      - destruct (v_push_back_ok triv a v l _ Hr Hok) as (v1 & m1 & Hp & Hpost).
        erewrite bind_ok in Hstep by (apply lift_ok; exact Hp). injection Hstep as _ <-. simpl.
        eexists v1, (LVec (l ++ [a]) _), (<[id := LVec (l ++ [a]) _]> s). rewrite !lookup_insert.
        split; [eapply winv_update; eassumption|]. split_and!; auto.
        destruct Hpost as (Hr1 & -> & _ & _ & _ & ->). rewrite (vrep_size _ _ _ Hr1), app_length. simpl.
        rewrite Hsz. pose proof (phi_push (length l) (v_cap v) Hcap). lia.
      - destruct (list_snoc_cases l) as [->|(l0 & a & ->)].
        { rewrite (bind_abort _ _ _ (lift_abort _ _ (v_pop_back_empty triv _ _ Hr))) in Hstep. discriminate. }
        destruct (v_pop_back_ok triv a v l0 _ Hr Hok) as (v1 & m1 & Hp & Hpost).
        erewrite bind_ok in Hstep by (apply lift_ok; exact Hp). injection Hstep as _ <-. simpl.
        eexists v1, (LVec l0 _), (<[id := LVec l0 _]> s). rewrite !lookup_insert.
        split; [eapply winv_update; eassumption|]. split_and!; auto.
        destruct Hpost as (Hr1 & -> & _ & _ & _ & ->). rewrite (vrep_size _ _ _ Hr1).
        rewrite Hsz, app_length in *. simpl in *. pose proof (phi_pop (length l0) (v_cap v) Hcap). lia. }
    destruct Hone as (v1 & l1 & s1 & H1 & Hv1 & Hl1 & Hle).
    destruct (IH w1 s1 v1 l1 _ _ H1 Hv1 Hl1 Hf Hrun) as (v' & Hv' & Hle'). exists v'. split; [exact Hv'|].
    simpl length. lia.
Qed.

Lemma amortised (w : world) id ops rs w' :
  reachable triv w -> w_objs w !! id = None ->
  forallb (is_pushpop id) ops = true ->
  v_run triv (ONew id :: ops) w = Ok (rs, w') ->
  m_ctor (w_mem w') <= m_ctor (w_mem w) + 3 * length ops.
Proof.
  intros Hre Hn Hf Hrun. destruct (reachable_winv triv w Hre) as [s H].
  cbn [v_run v_step] in Hrun.
  assert (Hst : v_step triv (ONew id) w = Ok (RUnit, World (w_mem w) (<[id := v_empty]> (w_objs w)))).
  { cbn [v_step]. rewrite (bind_ok _ _ _ _ _ (absent_ok _ _ Hn)). reflexivity. }
  erewrite bind_ok in Hrun by exact Hst.
  apply bind_inv in Hrun as (rs1 & w2 & Hrun & Heq). injection Heq as <- <-.
  assert (Hns : s !! id = None).
  { pose proof (wi_rep _ _ H id) as Hr. rewrite Hn in Hr. destruct (s !! id); [contradiction|reflexivity]. }
  destruct (amortised_gen id ops _ _ v_empty (LVec [] 0) _ _ (winv_new _ _ _ H Hns)
     (lookup_insert _ _ _) (lookup_insert _ _ _) Hf Hrun) as (v' & _ & Hle).
  simpl in Hle. unfold phi in Hle at 2. simpl in Hle. lia.
Qed.

(** *** Copies of types with a destructor *)
Lemma copy_destructor_ub (w : world) id src v l :
  triv = false -> reachable triv w -> holds w src v l -> l <> [] -> w_objs w !! id = None ->
  v_step triv (OCopyNew id src) w = UB.
Proof.
  intros Ht Hre Hh Hne Hn. destruct (reachable_winv triv w Hre) as [s H].
  pose proof (v_step_sim triv (OCopyNew id src) w s H) as Hs. unfold sim_res in Hs.
  destruct (winv_holds _ _ _ _ _ H Hh) as [Hl _]. cbn [lv_step] in Hs.
  assert (Hns : s !! id = None).
  { pose proof (wi_rep _ _ H id) as Hr. rewrite Hn in Hr. destruct (s !! id); [contradiction|reflexivity]. }
  unfold lnew, lwith in Hs. rewrite Hns, Hl in Hs. unfold copyable in Hs. cbn [l_seq] in Hs.
  assert (Hcp : triv || (length l =? 0) = false) by (rewrite Ht; destruct l; [congruence|reflexivity]).
  rewrite Hcp in Hs. exact Hs.
Qed.

Lemma assign_destructor_ub (w : world) id src v l :
  triv = false -> reachable triv w -> holds w src v l -> l <> [] -> id <> src -> is_Some (w_objs w !! id) ->
  v_step triv (OAssign id src) w = UB.
Proof.
  intros Ht Hre Hh Hne Hn [u Hu]. destruct (reachable_winv triv w Hre) as [s H].
  pose proof (v_step_sim triv (OAssign id src) w s H) as Hs. unfold sim_res in Hs.
  destruct (winv_holds _ _ _ _ _ H Hh) as [Hl _]. cbn [lv_step] in Hs.
  pose proof (wi_rep _ _ H id) as Hr. rewrite Hu in Hr.
  unfold lwith in Hs. destruct (s !! id); [|contradiction]. rewrite Hl in Hs. cbn [l_seq] in Hs.
  destruct (Nat.eqb_spec id src); [congruence|]. unfold copyable in Hs.
  assert (Hcp : triv || (length l =? 0) = false) by (rewrite Ht; destruct l; [congruence|reflexivity]).
  rewrite Hcp in Hs. exact Hs.
Qed.

Lemma copy_trivial (w : world) id src v l :
  triv = true -> reachable triv w -> holds w src v l -> w_objs w !! id = None ->
  exists w', v_step triv (OCopyNew id src) w = Ok (RUnit, w') /\ reachable triv w' /\
    contents w' id = Some l /\ (forall j, j <> id -> contents w' j = contents w j).
Proof.
  intros Ht Hre Hh Hn. destruct (reachable_winv triv w Hre) as [s H].
  pose proof (v_step_sim triv (OCopyNew id src) w s H) as Hs. unfold sim_res in Hs.
  destruct (winv_holds _ _ _ _ _ H Hh) as [Hl _]. cbn [lv_step] in Hs.
  assert (Hns : s !! id = None).
  { pose proof (wi_rep _ _ H id) as Hr. rewrite Hn in Hr. destruct (s !! id); [contradiction|reflexivity]. }
  unfold lnew, lwith in Hs. rewrite Hns, Hl in Hs. unfold copyable in Hs. cbn [l_seq] in Hs.
  assert (Hcp : triv || (length l =? 0) = true) by (rewrite Ht; reflexivity).
  rewrite Hcp in Hs. destruct Hs as (w' & Hs & Hw').
  exists w'. split_and!; auto.
  - eapply reachable_step; eassumption.
  - rewrite (winv_contents _ _ Hw'), lookup_insert. reflexivity.
  - intros j Hj. rewrite (winv_contents _ _ Hw'), (winv_contents _ _ H), lookup_insert_ne by congruence. reflexivity.
Qed.

(** *** Arguments that alias the vector's own storage *)
Lemma push_own_element (w : world) id v l i a :
  reachable triv w -> holds w id v l -> nth_error l i = Some a ->
  if Nat.ltb (v_size v) (v_cap v)
  then exists v' m', v_push_back triv (ARef (v_ptr v) i) v (w_mem w) = Ok (v', m') /\
         v_iter v' m' = Ok (l ++ [a], m')
  else v_push_back triv (ARef (v_ptr v) i) v (w_mem w) = UB.
Proof.
  intros Hre Hh Ha. rewrite nth_error_lookup in Ha. destruct (holds_vrep triv w id v l Hre Hh) as [Hr Hok].
  pose proof (vrep_size _ _ _ Hr) as Hsz. pose proof (vrep_cap _ _ _ Hr) as Hcap.
  assert (Hi : i < length l) by (eapply lookup_lt_Some; exact Ha).
  destruct (Nat.ltb_spec (v_size v) (v_cap v)) as [Hlt|Hge].
  - destruct (v_push_own_room triv v l _ i a Hr Hok Ha ltac:(lia)) as (v' & m' & Hrun & Hpost).
    do 2 eexists. split; [exact Hrun|]. apply v_iter_ok. destruct Hpost as [Hp _]. exact Hp.
  - eapply v_push_own_full; eauto. lia.
Qed.

Lemma read_loop_ub (b : option nat) (i : nat) (x : nat -> A -> M (mem A) unit) st k m :
  load b i m = UB -> k <> 0 -> for_range st k (fun j => a <- read_arg (ARef b i) ;; x j a) m = UB.
Proof. intros Hl Hk. destruct k; [lia|]. simpl. apply bind_ub, bind_ub. exact Hl. Qed.

Lemma resize_own_element (w : world) id v l i a n :
  reachable triv w -> holds w id v l -> nth_error l i = Some a ->
  v_size v < n -> v_resize_fill triv n (ARef (v_ptr v) i) v (w_mem w) = UB.
Proof.
  intros Hre Hh Ha Hn. rewrite nth_error_lookup in Ha. destruct (holds_vrep triv w id v l Hre Hh) as [Hr Hok].
  pose proof (vrep_size _ _ _ Hr) as Hsz. pose proof (vrep_cap _ _ _ Hr) as Hcap.
  destruct (vrep_ptr _ _ _ Hr) as (b & Hb & Hbs); [destruct l; [discriminate|congruence]|].
  unfold v_resize_fill. destruct (Nat.eqb_spec n 0); [lia|].
  erewrite bind_ok by reflexivity. rewrite Hb.
  destruct (move_and_free triv (w_mem w) v l n b Hr Hb Hok ltac:(lia)) as (m1 & Hrun & Hbl & _).
  erewrite bind_ok by exact Hrun. apply bind_ub, read_loop_ub; [|lia].
  unfold load. rewrite Hbl. assert (b < m_next (w_mem w)) by (apply Hok; eauto).
  rewrite lookup_insert_ne, lookup_delete by lia. reflexivity.
Qed.

(** *** Iteration and algorithms *)
Lemma iteration_is_indexing (w : world) id v :
  reachable triv w -> w_objs w !! id = Some v ->
  exists l, v_iter v (w_mem w) = Ok (l, w_mem w) /\ length l = v_size v /\
    forall i, i < v_size v -> exists a, nth_error l i = Some a /\
      v_get v (Z.of_nat i) (w_mem w) = Ok (a, w_mem w).
Proof.
  intros Hre Hv. destruct (reachable_holds triv w id v Hre Hv) as [l Hh].
  destruct (holds_vrep triv w id v l Hre Hh) as [Hr Hok]. exists l.
  pose proof (vrep_size _ _ _ Hr) as Hsz.
  split_and!; [apply (v_iter_ok _ _ _ Hr)|auto|].
  intros i Hi. rewrite Hsz in Hi. destruct (lookup_lt_is_Some_2 l i Hi) as [a Ha]. exists a.
  rewrite nth_error_lookup. split; [exact Ha|]. eapply v_get_ok; [exact Hr| |exact Ha].
  unfold py_index. destruct (Z.leb_spec 0 (Z.of_nat i)); [|lia].
  destruct (Z.ltb_spec (Z.of_nat i) (Z.of_nat (length l))); [|lia]. rewrite Nat2Z.id. reflexivity.
Qed.

Lemma for_each_maps (w : world) id v l cb :
  reachable triv w -> holds w id v l ->
  exists m', v_for_each cb v (w_mem w) = Ok (tt, m') /\
    let w' := World m' (w_objs w) in
    contents w' id = Some (map cb l) /\ forall j, j <> id -> contents w' j = contents w j.
Proof.
  intros Hre Hh. pose proof Hh as [Hv _]. destruct (holds_vrep triv w id v l Hre Hh) as [Hr Hok].
  destruct (reachable_winv triv w Hre) as [s H].
  destruct (v_for_each_ok cb v l _ Hr Hok) as (m' & Hrun & Hpost).
  exists m'. split; [exact Hrun|].
  pose proof (vpost_world w s id v m' v _ _ _ H Hv Hpost) as Hw. simpl in Hw.
  rewrite (insert_same _ _ _ Hv) in Hw. exact Hw.
Qed.

Lemma find_first (w : world) id v l eqb o :
  reachable triv w -> holds w id v l ->
  exists k, v_find eqb o v (w_mem w) = Ok (k, w_mem w) /\ k <= length l /\
    (forall j a, j < k -> nth_error l j = Some a -> eqb a o = false) /\
    (k < length l -> exists a, nth_error l k = Some a /\ eqb a o = true).
Proof.
  intros Hre Hh. destruct (holds_vrep triv w id v l Hre Hh) as [Hr _].
  eexists. split; [apply (v_find_ok eqb o _ _ _ Hr)|].
  clear. induction l as [|b l (IH1 & IH2 & IH3)]; simpl.
  - split_and!; [lia|intros; lia|lia].
  - destruct (eqb b o) eqn:E.
    + split_and!; [lia|intros; lia|]. intros _. exists b. auto.
    + split_and!; [lia| |].
      * intros [|j] a Hj Ha; simpl in Ha; [congruence|]. apply (IH2 j); [lia|exact Ha].
      * intros Hlt. apply IH3. lia.
Qed.

(** *** Client programs *)
Lemma client_program {X} (p : wprog A X) (w : world) :
  reachable triv w ->
  match lrun triv p (view w) with
  | Ok (x, s') => exists w', wrun triv p w = Ok (x, w') /\ view w' = s' /\ storage_ok w'
  | Abort => wrun triv p w = Abort
  | UB => wrun triv p w = UB
  | Diverge => wrun triv p w = Diverge
  end.
Proof.
  intros Hre. destruct (reachable_winv triv w Hre) as [s H]. rewrite (winv_view _ _ H).
  pose proof (wrun_sim triv p w s H) as Hs. unfold sim_res in Hs.
  destruct (lrun triv p s) as [[x s']| | |]; auto.
  destruct Hs as (w' & Hrun & Hw). exists w'. split_and!; auto.
  - apply winv_view, Hw.
  - eapply winv_storage, Hw.
Qed.

Lemma program_from_scratch {X} (p : wprog A X) :
  match lrun triv p ∅ with
  | Ok (x, s') => exists w', wrun triv p world_init = Ok (x, w') /\ view w' = s' /\ storage_ok w'
  | Abort => wrun triv p world_init = Abort
  | UB => wrun triv p world_init = UB
  | Diverge => wrun triv p world_init = Diverge
  end.
Proof. apply (client_program p world_init). exists [], []. reflexivity. Qed.

(** *** The view of a state *)
Lemma view_holds (w : world) id v l : holds w id v l -> view w !! id = Some (LVec l (v_cap v)).
Proof. intros [Hv Hc]. unfold view. rewrite map_lookup_imap, Hv. simpl. rewrite Hc. reflexivity. Qed.
Lemma view_none (w : world) id : w_objs w !! id = None -> view w !! id = None.
Proof. intros Hn. unfold view. rewrite map_lookup_imap, Hn. reflexivity. Qed.
Lemma view_contents (w : world) id v : view w !! id = Some v -> contents w id = Some (l_seq v).
Proof.
  unfold view. rewrite map_lookup_imap. destruct (w_objs w !! id); [|discriminate]. simpl.
  destruct (contents w id); [|discriminate]. intros [= <-]. reflexivity.
Qed.
Lemma client_ok {X} (p : wprog A X) (w : world) x s' :
  reachable triv w -> lrun triv p (view w) = Ok (x, s') ->
  exists w', wrun triv p w = Ok (x, w') /\ view w' = s' /\ storage_ok w'.
Proof. intros Hre E. pose proof (client_program p w Hre) as H. rewrite E in H. exact H. Qed.

End Extra.
