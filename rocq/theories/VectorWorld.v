(** Histories and client programs over many vectors refine the same over plain lists. *)
From Verif Require Import Base VectorModel VectorSpec VectorProofs VecProg.

Section WorldProofs.
Context {A : Type} (triv : bool).
Notation world := (world A).
Notation sworld := (gmap nat (lvec A)).

Record winv (w : world) (s : sworld) : Prop := {
  wi_ok : mem_ok (w_mem w);
  wi_leak : m_leaked (w_mem w) = 0;
  wi_rep : forall id,
    match w_objs w !! id, s !! id with
    | Some v, Some l => vrep (w_mem w) v (l_seq l) /\ v_cap v = l_cap l
    | None, None => True
    | _, _ => False
    end;
  wi_sep : forall i j vi vj b,
    w_objs w !! i = Some vi -> w_objs w !! j = Some vj ->
    v_ptr vi = Some b -> v_ptr vj = Some b -> i = j;
  wi_cover : forall b, is_Some (m_blocks (w_mem w) !! b) ->
    exists i v, w_objs w !! i = Some v /\ v_ptr v = Some b
}.

Lemma winv_init : winv world_init ∅.
Proof.
  constructor; simpl; auto.
  - intros b [x Hx]. simpl in Hx. rewrite lookup_empty in Hx. discriminate.
  - intros id. rewrite !lookup_empty. exact I.
  - intros i j vi vj b H. rewrite lookup_empty in H. discriminate.
  - intros b [x Hx]. rewrite lookup_empty in Hx. discriminate.
Qed.

Lemma winv_obj w s id l :
  winv w s -> s !! id = Some l -> exists v, w_objs w !! id = Some v /\ vrep (w_mem w) v (l_seq l) /\ v_cap v = l_cap l.
Proof.
  intros H Hl. pose proof (wi_rep _ _ H id) as Hr. rewrite Hl in Hr.
  destruct (w_objs w !! id) as [v|]; [|contradiction]. eauto.
Qed.
Lemma winv_absent w s id : winv w s -> s !! id = None -> w_objs w !! id = None.
Proof.
  intros H Hl. pose proof (wi_rep _ _ H id) as Hr. rewrite Hl in Hr.
  destruct (w_objs w !! id) as [v|]; [contradiction|reflexivity].
Qed.

Lemma winv_new w s id :
  winv w s -> s !! id = None ->
  winv (World (w_mem w) (<[id := v_empty]> (w_objs w))) (<[id := LVec [] 0]> s).
Proof.
  intros H Hn. pose proof (winv_absent _ _ _ H Hn) as Ha. destruct H as [Hok Hlk Hrep Hsep Hcov].
  constructor; simpl; auto.
  - intros i. destruct (decide (id = i)) as [->|Hne].
    + rewrite !lookup_insert. split; [apply vrep_empty|reflexivity].
    + rewrite !lookup_insert_ne by assumption. apply Hrep.
  - intros i j vi vj b Hi Hj Hpi Hpj.
    destruct (decide (id = i)) as [->|Hni]; [rewrite lookup_insert in Hi; injection Hi as <-; discriminate|].
    destruct (decide (id = j)) as [->|Hnj]; [rewrite lookup_insert in Hj; injection Hj as <-; discriminate|].
    rewrite lookup_insert_ne in Hi, Hj by assumption. eauto.
  - intros b Hb. destruct (Hcov b Hb) as (i & v & Hi & Hv). exists i, v.
    rewrite lookup_insert_ne by congruence. auto.
Qed.

Lemma winv_update w s id v m' v' l' c k :
  winv w s -> w_objs w !! id = Some v -> vpost (w_mem w) v m' v' l' c k ->
  winv (World m' (<[id := v']> (w_objs w))) (<[id := LVec l' c]> s).
Proof.
  intros [Hok Hlk Hrep Hsep Hcov] Hid (Hr & Hc & Hok' & Hrest & Hlk' & _).
  assert (Hfr : forall i u l, id <> i -> w_objs w !! i = Some u -> vrep (w_mem w) u l ->
    vrep m' u l /\ (forall b, v_ptr u = Some b -> v_ptr v' <> Some b)).
  { intros i u l Hne Hu Hru. apply (vrep_frame (w_mem w) v m' v' u l); auto.
    intros b Hb Hvb. apply Hne. eapply Hsep; eauto. }
  constructor; simpl; auto; [lia| | |].
  - intros i. destruct (decide (id = i)) as [->|Hne].
    + rewrite !lookup_insert. split; [exact Hr|exact Hc].
    + rewrite !lookup_insert_ne by assumption. specialize (Hrep i).
      destruct (w_objs w !! i) as [u|] eqn:Hu; destruct (s !! i) as [l|]; auto.
      destruct Hrep as [Hrep1 Hrep2]. split; [|exact Hrep2]. apply (Hfr i u _ Hne Hu Hrep1).
  - assert (Hx : forall i u b, id <> i -> w_objs w !! i = Some u -> v_ptr u = Some b -> v_ptr v' <> Some b).
    { intros i u b Hne Hu Hb. specialize (Hrep i). rewrite Hu in Hrep.
      destruct (s !! i) as [l|]; [|contradiction]. destruct Hrep as [Hrep1 _]. apply (Hfr i u _ Hne Hu Hrep1); assumption. }
    intros i j vi vj b Hi Hj Hpi Hpj.
    destruct (decide (id = i)) as [->|Hni]; destruct (decide (i = j)) as [->|Hij]; auto.
    + rewrite lookup_insert in Hi. injection Hi as <-. rewrite lookup_insert_ne in Hj by assumption.
      exfalso. eapply (Hx j); eauto.
    + destruct (decide (id = j)) as [->|Hnj].
      * rewrite lookup_insert in Hj. injection Hj as <-. rewrite lookup_insert_ne in Hi by congruence.
        exfalso. eapply (Hx i); eauto.
      * rewrite lookup_insert_ne in Hi, Hj by assumption. eauto.
  - intros b Hb. destruct (decide (v_ptr v' = Some b)) as [Hv|Hv].
    { exists id, v'. rewrite lookup_insert. auto. }
    assert (Hb2 : is_Some (rest m' v' !! b)).
    { unfold rest. destruct (v_ptr v') as [p|]; [|exact Hb]. rewrite lookup_delete_ne by congruence. exact Hb. }
    rewrite Hrest in Hb2. unfold rest in Hb2.
    assert (v_ptr v <> Some b).
    { intros Hp. rewrite Hp, lookup_delete in Hb2. destruct Hb2; discriminate. }
    destruct (Hcov b) as (i & u & Hu & Hp).
    { destruct (v_ptr v); [|exact Hb2]. rewrite lookup_delete_ne in Hb2 by congruence. exact Hb2. }
    exists i, u. rewrite lookup_insert_ne by congruence. auto.
Qed.

Lemma winv_delete w s id v m' c k :
  winv w s -> w_objs w !! id = Some v -> vpost (w_mem w) v m' v_empty [] c k ->
  winv (World m' (delete id (w_objs w))) (delete id s).
Proof.
  intros H Hid Hpost. destruct (winv_update _ _ _ _ _ _ _ _ _ H Hid Hpost) as [Hok Hlk Hrep Hsep Hcov].
  simpl in *. constructor; simpl; auto.
  - intros i. specialize (Hrep i). destruct (decide (id = i)) as [->|Hne].
    + rewrite !lookup_delete. exact I.
    + rewrite !lookup_insert_ne in Hrep by assumption. rewrite !lookup_delete_ne by assumption. exact Hrep.
  - intros i j vi vj b Hi Hj. apply lookup_delete_Some in Hi as [Hni Hi], Hj as [Hnj Hj].
    apply (Hsep i j); rewrite lookup_insert_ne; assumption.
  - intros b Hb. destruct (Hcov b Hb) as (i & u & Hu & Hp). exists i, u.
    destruct (decide (id = i)) as [->|Hne].
    + rewrite lookup_insert in Hu. injection Hu as <-. discriminate.
    + rewrite lookup_insert_ne in Hu by assumption. rewrite lookup_delete_ne by assumption. auto.
Qed.

Lemma winv_move w s id src u l m' c k :
  winv w s -> id <> src -> (exists v, w_objs w !! id = Some v /\ vpost (w_mem w) v m' v_empty [] c k) ->
  w_objs w !! src = Some u -> s !! src = Some l ->
  winv (World m' (<[src := v_empty]> (<[id := u]> (w_objs w)))) (<[src := LVec [] 0]> (<[id := l]> s)).
Proof.
  intros H Hne (v & Hid & Hpost) Hu Hl.
  destruct (winv_update _ _ _ _ _ _ _ _ _ H Hid Hpost) as [Hok Hlk Hrep Hsep Hcov]. simpl in *.
  constructor; simpl; auto.
  - intros i. destruct (decide (src = i)) as [->|Hns].
    { rewrite !lookup_insert. split; [apply vrep_empty|reflexivity]. }
    rewrite !(lookup_insert_ne _ src) by assumption.
    destruct (decide (id = i)) as [->|Hni].
    { rewrite !lookup_insert. specialize (Hrep src).
      rewrite !lookup_insert_ne in Hrep by assumption. rewrite Hu, Hl in Hrep. exact Hrep. }
    specialize (Hrep i). rewrite !lookup_insert_ne in Hrep by assumption.
    rewrite !lookup_insert_ne by assumption. exact Hrep.
  - assert (Hmap : forall i vi b, <[src := v_empty]> (<[id := u]> (w_objs w)) !! i = Some vi -> v_ptr vi = Some b ->
      exists i', <[id := v_empty]> (w_objs w) !! i' = Some vi /\ (i = id /\ i' = src \/ i <> id /\ i' = i /\ i <> src)).
    { intros i vi b Hi Hp. destruct (decide (src = i)) as [->|Hns].
      { rewrite lookup_insert in Hi. injection Hi as <-. discriminate. }
      rewrite lookup_insert_ne in Hi by assumption.
      destruct (decide (id = i)) as [->|Hni].
      - rewrite lookup_insert in Hi. injection Hi as <-. exists src.
        rewrite lookup_insert_ne by assumption. auto.
      - rewrite lookup_insert_ne in Hi by assumption. exists i. rewrite lookup_insert_ne by assumption. auto. }
    intros i j vi vj b Hi Hj Hpi Hpj.
    destruct (Hmap _ _ _ Hi Hpi) as (i' & Hi' & Hci). destruct (Hmap _ _ _ Hj Hpj) as (j' & Hj' & Hcj).
    assert (i' = j') by eauto. subst j'. naive_solver.
  - intros b Hb. destruct (Hcov b Hb) as (i & x & Hx & Hp).
    destruct (decide (id = i)) as [->|Hni].
    { rewrite lookup_insert in Hx. injection Hx as <-. discriminate. }
    rewrite lookup_insert_ne in Hx by assumption.
    destruct (decide (src = i)) as [->|Hns].
    + exists id, u. rewrite lookup_insert_ne, lookup_insert by congruence. split; congruence.
    + exists i, x. rewrite !lookup_insert_ne by assumption. auto.
Qed.

Lemma sep_of w s id src v u :
  winv w s -> w_objs w !! id = Some v -> w_objs w !! src = Some u -> id <> src ->
  forall b, v_ptr u = Some b -> v_ptr v <> Some b.
Proof. intros H Hv Hu Hne b Hub Hvb. apply Hne. eapply (wi_sep _ _ H); eauto. Qed.

Lemma obj_ok (w : world) id v : w_objs w !! id = Some v -> obj id w = Ok (v, w).
Proof. intros H. unfold obj. rewrite H. reflexivity. Qed.
Lemma absent_ok (w : world) id : w_objs w !! id = None -> absent id w = Ok (tt, w).
Proof. intros H. unfold absent. rewrite H. reflexivity. Qed.
Lemma lift_ok {X} (f : M (mem A) X) (w : world) x m' :
  f (w_mem w) = Ok (x, m') -> lift f w = Ok (x, World m' (w_objs w)).
Proof. intros H. unfold lift. rewrite H. reflexivity. Qed.
Lemma lift_abort {X} (f : M (mem A) X) (w : world) : f (w_mem w) = Abort -> lift f w = Abort.
Proof. intros H. unfold lift. rewrite H. reflexivity. Qed.
Lemma lift_ub {X} (f : M (mem A) X) (w : world) : f (w_mem w) = UB -> lift f w = UB.
Proof. intros H. unfold lift. rewrite H. reflexivity. Qed.
Lemma obj_ub (w : world) s id : winv w s -> s !! id = None -> obj id w = UB.
Proof. intros H Hn. unfold obj. rewrite (winv_absent _ _ _ H Hn). reflexivity. Qed.
Lemma absent_ub (w : world) s id l : winv w s -> s !! id = Some l -> absent id w = UB.
Proof. intros H Hn. unfold absent. destruct (winv_obj _ _ _ _ H Hn) as (v & -> & _). reflexivity. Qed.
Lemma py_index_none l i : py_index l i = None -> (i < Z.of_nat l)%Z -> (i < - Z.of_nat l)%Z.
Proof.
  unfold py_index. intros Hj Hi. destruct (Z.leb_spec 0 i).
  - destruct (Z.ltb_spec i (Z.of_nat l)); [discriminate|lia].
  - destruct (Z.leb_spec (- Z.of_nat l) i); [discriminate|lia].
Qed.
Lemma v_get_neg v l (m : mem A) i : vrep m v l -> (i < - Z.of_nat (length l))%Z -> v_get v i m = UB.
Proof.
  intros Hr Hi. destruct (v_index_neg _ _ _ _ Hr Hi) as [Hix Hneg].
  unfold v_get. erewrite bind_ok by exact Hix. unfold load_z.
  destruct (Z.ltb_spec (Z.of_nat (length l) + i) 0); [reflexivity|lia].
Qed.
Lemma v_set_neg v l (m : mem A) i a : vrep m v l -> (i < - Z.of_nat (length l))%Z -> v_set v i a m = UB.
Proof.
  intros Hr Hi. destruct (v_index_neg _ _ _ _ Hr Hi) as [Hix Hneg].
  unfold v_set. erewrite bind_ok by exact Hix. unfold store_z.
  destruct (Z.ltb_spec (Z.of_nat (length l) + i) 0); [reflexivity|lia].
Qed.

Lemma nth_error_lookup {B} (l : list B) i : nth_error l i = l !! i.
Proof. revert i. induction l; intros [|i]; simpl; auto. Qed.

Lemma repeat_replicate {B} (a : B) n : repeat a n = replicate n a.
Proof. induction n; simpl; congruence. Qed.

Lemma world_same (w : world) : World (w_mem w) (w_objs w) = w.
Proof. destruct w; reflexivity. Qed.

Lemma insert_same {B} (m : gmap nat B) i x : m !! i = Some x -> <[i := x]> m = m.
Proof. intros. apply insert_id. assumption. Qed.

Lemma list_snoc_cases (l : list A) : l = [] \/ exists l0 a, l = l0 ++ [a].
Proof. destruct l using rev_ind; eauto. Qed.

Lemma cap_push_grow size cap : size <= cap -> cap_push size cap = grow size cap.
Proof.
  intros. unfold cap_push, grow.
  destruct (Nat.eqb_spec size cap); destruct (Nat.ltb_spec cap (size + 1)); try lia.
  destruct (Nat.eqb_spec size 0); lia.
Qed.

(** Matching outcomes, with [winv] between the resulting states. *)
Definition sim_res {X} (r : res (X * sworld)) (c : res (X * world)) : Prop :=
  match r with
  | Ok (x, s') => exists w', c = Ok (x, w') /\ winv w' s'
  | Abort => c = Abort
  | UB => c = UB
  | Diverge => c = Diverge
  end.

Lemma v_step_sim o w s : winv w s -> sim_res (lv_step triv o s) (v_step triv o w).
Proof.
  intros H. pose proof (wi_ok _ _ H) as Hok.
  destruct o as [id|id n a|id src|id src|id src|id src|id a|id|id i a|id n|id n a|id|id|id i|id|id|id|id|id];
    cbn [lv_step v_step]; unfold lnew, lwith;
    destruct (s !! id) as [lv|] eqn:Hl;
    try (apply bind_ub; eapply absent_ub; eassumption);
    try (apply bind_ub; eapply obj_ub; eassumption);
    try (destruct (winv_obj _ _ _ _ H Hl) as (v & Hv & Hr & Hcv); pose proof (vrep_size _ _ _ Hr) as Hsz;
         rewrite (bind_ok _ _ _ _ _ (obj_ok _ _ _ Hv)); destruct lv as [l c]; cbn [l_seq l_cap] in *);
    try (pose proof (winv_absent _ _ _ H Hl) as Ha; rewrite (bind_ok _ _ _ _ _ (absent_ok _ _ Ha))).
  - (* ONew *) eexists. split; [reflexivity|]. apply winv_new; assumption.
  - (* OFill *) destruct (Nat.eqb_spec n 0) as [->|Hn].
    + reflexivity.
    + destruct (v_fill_ok triv n a _ Hn Hok) as (v' & m' & Hrun & Hpost).
      erewrite bind_ok by (apply lift_ok; exact Hrun). eexists. split; [reflexivity|]. simpl.
      rewrite repeat_replicate.
      pose proof (winv_update _ _ id _ _ _ _ _ _ (winv_new _ _ _ H Hl) (lookup_insert _ _ _) Hpost) as Hw.
      simpl in Hw. rewrite !insert_insert in Hw. exact Hw.
  - (* OCopyNew *) destruct (s !! src) as [[lu cu]|] eqn:Hlu; [|apply bind_ub; eapply obj_ub; eassumption].
    destruct (winv_obj _ _ _ _ H Hlu) as (u & Hu & Hru & Hcu). cbn [l_seq l_cap] in *.
    erewrite bind_ok by (apply obj_ok; exact Hu).
    destruct (copyable triv lu) eqn:Hcp.
    2:{ apply bind_ub, lift_ub. apply (v_copy_assign_nontriv triv v_empty u [] lu); auto.
        - unfold copyable in Hcp. destruct triv; [discriminate|reflexivity].
        - intros ->. unfold copyable in Hcp. destruct triv; discriminate.
        - apply vrep_empty. }
    destruct (v_copy_assign_ok triv v_empty u [] lu (w_mem w)) as (v' & m' & Hrun & Hpost & _); eauto.
    { unfold copyable in Hcp. destruct triv; [auto|]. right. destruct lu; [reflexivity|discriminate]. }
    { apply vrep_empty. }
    erewrite bind_ok by (apply lift_ok; exact Hrun). eexists. split; [reflexivity|]. simpl.
    pose proof (winv_update _ _ id _ _ _ _ _ _ (winv_new _ _ _ H Hl) (lookup_insert _ _ _) Hpost) as Hw.
    simpl in Hw. rewrite !insert_insert, Hcu in Hw. exact Hw.
  - (* OMoveNew *) destruct (s !! src) as [lu|] eqn:Hlu; [|apply bind_ub; eapply obj_ub; eassumption].
    destruct (winv_obj _ _ _ _ H Hlu) as (u & Hu & Hru & Hcu).
    erewrite bind_ok by (apply obj_ok; exact Hu).
    destruct (v_move_assign_ok triv v_empty u [] (l_seq lu) (w_mem w)) as (m' & Hrun & Hpost & _); eauto.
    { apply vrep_empty. }
    erewrite bind_ok by (apply lift_ok; exact Hrun). eexists. split; [reflexivity|]. simpl.
    assert (Hne : id <> src) by congruence.
    pose proof (winv_move _ _ id src u lu m' 0 0 (winv_new _ _ _ H Hl) Hne) as Hw. simpl in Hw.
    rewrite !insert_insert in Hw. apply Hw.
    + exists v_empty. rewrite lookup_insert. auto.
    + rewrite lookup_insert_ne by assumption. exact Hu.
    + rewrite lookup_insert_ne by assumption. exact Hlu.
  - (* OAssign *) destruct (s !! src) as [[lu cu]|] eqn:Hlu; [|apply bind_ub; eapply obj_ub; eassumption].
    destruct (winv_obj _ _ _ _ H Hlu) as (u & Hu & Hru & Hcu). cbn [l_seq l_cap] in *.
    erewrite bind_ok by (apply obj_ok; exact Hu).
    destruct (Nat.eqb_spec id src) as [->|Hne].
    { eexists. split; [reflexivity|]. exact H. }
    destruct (copyable triv lu) eqn:Hcp.
    2:{ apply bind_ub, lift_ub. apply (v_copy_assign_nontriv triv v u l lu); auto.
        - unfold copyable in Hcp. destruct triv; [discriminate|reflexivity].
        - intros ->. unfold copyable in Hcp. destruct triv; discriminate. }
    destruct (v_copy_assign_ok triv v u l lu (w_mem w)) as (v' & m' & Hrun & Hpost & _); eauto.
    { unfold copyable in Hcp. destruct triv; [auto|]. right. destruct lu; [reflexivity|discriminate]. }
    { eapply sep_of; eauto. }
    erewrite bind_ok by (apply lift_ok; exact Hrun). eexists. split; [reflexivity|]. simpl.
    rewrite Hcu in Hpost. eapply winv_update; eauto.
  - (* OMoveAssign *) destruct (s !! src) as [lu|] eqn:Hlu; [|apply bind_ub; eapply obj_ub; eassumption].
    destruct (winv_obj _ _ _ _ H Hlu) as (u & Hu & Hru & Hcu).
    erewrite bind_ok by (apply obj_ok; exact Hu).
    destruct (Nat.eqb_spec id src) as [->|Hne].
    { eexists. split; [reflexivity|]. exact H. }
    destruct (v_move_assign_ok triv v u l (l_seq lu) (w_mem w)) as (m' & Hrun & Hpost & _); eauto.
    { eapply sep_of; eauto. }
    erewrite bind_ok by (apply lift_ok; exact Hrun). eexists. split; [reflexivity|]. simpl.
    eapply winv_move; eauto.
  - (* OPush *)
    destruct (v_push_back_ok triv a v l _ Hr Hok) as (v' & m' & Hrun & Hpost).
    erewrite bind_ok by (apply lift_ok; exact Hrun). eexists. split; [reflexivity|].
    pose proof (vrep_cap _ _ _ Hr). rewrite <- cap_push_grow, Hcv in Hpost by assumption.
    simpl. eapply winv_update; eauto.
  - (* OPop *)
    destruct (list_snoc_cases l) as [->|(l0 & a & ->)].
    + apply bind_abort, lift_abort, v_pop_back_empty. exact Hr.
    + destruct (v_pop_back_ok triv a v l0 _ Hr Hok) as (v' & m' & Hrun & Hpost).
      destruct (l0 ++ [a]) eqn:E; [destruct l0; discriminate|]. rewrite <- E.
      erewrite bind_ok by (apply lift_ok; exact Hrun). eexists. split; [reflexivity|].
      rewrite removelast_last, app_length. simpl. rewrite Nat.add_sub.
      rewrite Hcv in Hpost. eapply winv_update; eauto.
  - (* OSet *) unfold at_index.
    destruct (py_index (length l) i) as [k|] eqn:Hk.
    + destruct (v_set_ok v l _ i k a Hr Hok Hk) as (m' & Hrun & Hpost).
      erewrite bind_ok by (apply lift_ok; exact Hrun). eexists. split; [reflexivity|]. simpl.
      pose proof (winv_update _ _ _ _ _ _ _ _ _ H Hv Hpost) as Hw.
      rewrite (insert_same _ _ _ Hv), Hcv in Hw. exact Hw.
    + destruct (Z.leb_spec (Z.of_nat (length l)) i).
      2:{ apply bind_ub, lift_ub, (v_set_neg _ _ _ _ _ Hr). apply py_index_none; [assumption|lia]. }
      apply bind_abort, lift_abort. unfold v_set. apply bind_abort.
      apply (v_index_abort _ _ _ _ Hr). lia.
  - (* OResize *)
    destruct (v_resize_ok triv n v l _ Hr Hok) as (v' & m' & Hrun & Hpost).
    erewrite bind_ok by (apply lift_ok; exact Hrun). eexists. split; [reflexivity|].
    simpl. eapply winv_update; eauto.
  - (* OResizeFill *)
    destruct (v_resize_fill_ok triv n a v l _ Hr Hok) as (v' & m' & Hrun & Hpost).
    erewrite bind_ok by (apply lift_ok; exact Hrun). eexists. split; [reflexivity|].
    rewrite repeat_replicate. simpl. eapply winv_update; eauto.
  - (* OClear *)
    destruct (v_clear_ok triv v l _ Hr Hok) as (m' & Hrun & Hpost).
    erewrite bind_ok by (apply lift_ok; exact Hrun). eexists. split; [reflexivity|].
    simpl. eapply winv_update; eauto.
  - (* ODestroy *)
    destruct (v_clear_ok triv v l _ Hr Hok) as (m' & Hrun & Hpost).
    erewrite bind_ok by (apply lift_ok; exact Hrun). eexists. split; [reflexivity|].
    simpl. eapply winv_delete; eauto.
  - (* OGet *) unfold at_index.
    destruct (py_index (length l) i) as [k|] eqn:Hk.
    + destruct (nth_error l k) as [a|] eqn:Ha.
      2:{ exfalso. destruct (v_index_ok _ _ _ _ _ Hr Hk) as [_ Hlt].
          apply nth_error_None in Ha. lia. }
      erewrite bind_ok; cycle 1.
      { apply lift_ok. apply (v_get_ok _ _ _ _ _ a Hr Hk). rewrite <- nth_error_lookup. exact Ha. }
      rewrite world_same. eexists. split; [reflexivity|]. exact H.
    + destruct (Z.leb_spec (Z.of_nat (length l)) i).
      2:{ apply bind_ub, lift_ub, (v_get_neg _ _ _ _ Hr). apply py_index_none; [assumption|lia]. }
      apply bind_abort, lift_abort. unfold v_get. apply bind_abort.
      apply (v_index_abort _ _ _ _ Hr). lia.
  - (* OBack *)
    destruct (list_snoc_cases l) as [->|(l0 & a & ->)].
    + simpl. apply bind_abort, lift_abort, v_back_abort. exact Hr.
    + rewrite app_length. simpl. replace (length l0 + 1 - 1) with (length l0) by lia.
      rewrite nth_error_app2, Nat.sub_diag by lia. simpl.
      erewrite bind_ok by (apply lift_ok; apply (v_back_ok _ _ _ _ Hr)).
      rewrite world_same. eexists. split; [reflexivity|]. exact H.
  - (* OFront *) destruct l as [|a l]; [apply bind_ub, lift_ub, (load_ub _ _ _ _ Hr); reflexivity|].
    erewrite bind_ok by (apply lift_ok; apply (v_front_ok _ _ _ _ Hr)).
    rewrite world_same. eexists. split; [reflexivity|]. exact H.
  - (* OSize *) rewrite Hsz. eexists. split; [reflexivity|]. exact H.
  - (* OEmpty *) rewrite Hsz. destruct l; (eexists; split; [reflexivity|]; exact H).
  - (* OIter *) erewrite bind_ok by (apply lift_ok; apply (v_iter_ok _ _ _ Hr)).
    rewrite world_same. eexists. split; [reflexivity|]. exact H.
Qed.

Lemma w_step_sim o w s : winv w s -> sim_res (lw_step triv o s) (w_step triv o w).
Proof.
  intros H. destruct o as [o|id|id src i]; [apply v_step_sim, H| |]; cbn [lw_step w_step]; unfold lwith.
  - destruct (s !! id) as [lv|] eqn:Hl; [|apply bind_ub; eapply obj_ub; eassumption].
    destruct (winv_obj _ _ _ _ H Hl) as (v & Hv & Hr & Hcv).
    rewrite (bind_ok _ _ _ _ _ (obj_ok _ _ _ Hv)), Hcv. eexists. split; [reflexivity|]. exact H.
  - destruct (s !! id) as [lv|] eqn:Hl; [|apply bind_ub; eapply obj_ub; eassumption].
    destruct (winv_obj _ _ _ _ H Hl) as (v & Hv & Hr & Hcv).
    rewrite (bind_ok _ _ _ _ _ (obj_ok _ _ _ Hv)).
    destruct (s !! src) as [lu|] eqn:Hlu; [|apply bind_ub; eapply obj_ub; eassumption].
    destruct (winv_obj _ _ _ _ H Hlu) as (u & Hu & Hru & Hcu).
    rewrite (bind_ok _ _ _ _ _ (obj_ok _ _ _ Hu)).
    pose proof (wi_ok _ _ H) as Hok. unfold at_index.
    destruct (py_index (length (l_seq lu)) i) as [k|] eqn:Hk.
    + destruct (v_index_ok _ _ _ _ _ Hru Hk) as [Hi Hlt].
      erewrite bind_ok by (apply lift_ok; exact Hi). rewrite world_same.
      destruct (Z.ltb_spec (Z.of_nat k) 0); [lia|]. rewrite Nat2Z.id.
      destruct (lookup_lt_is_Some_2 _ _ Hlt) as [a Ha]. rewrite nth_error_lookup, Ha.
      pose proof (vrep_cap _ _ _ Hr) as Hcap. rewrite Hcv in Hcap.
      destruct (Nat.eqb_spec id src) as [->|Hne]; cbn [andb].
      * rewrite Hl in Hlu. injection Hlu as <-. rewrite Hv in Hu. injection Hu as <-.
        destruct (Nat.eqb_spec (length (l_seq lv)) (l_cap lv)) as [Hf|Hf].
        -- apply bind_ub, lift_ub. apply (v_push_own_full triv v (l_seq lv) _ k a); auto. congruence.
        -- destruct (v_push_own_room triv v (l_seq lv) _ k a Hr Hok Ha ltac:(lia)) as (v' & m' & Hrun & Hpost).
           erewrite bind_ok by (apply lift_ok; exact Hrun). eexists. split; [reflexivity|].
           unfold cap_push. destruct (Nat.eqb_spec (length (l_seq lv)) (l_cap lv)); [congruence|].
           rewrite Hcv in Hpost. simpl. eapply winv_update; eauto.
      * destruct (v_push_back_gen triv (ARef (v_ptr u) k) a v (l_seq lv) (w_mem w) Hr Hok) as (v' & m' & Hrun & Hpost).
        { intros m1 v1 c1 k1 (_ & _ & _ & Hrest & _). cbn [read_arg].
          destruct (vrep_frame _ _ _ _ _ _ Hrest Hru) as [Hru1 _].
          { eapply sep_of; eauto. }
          eapply load_ok; eassumption. }
        erewrite bind_ok by (apply lift_ok; exact Hrun). eexists. split; [reflexivity|].
        rewrite <- cap_push_grow, Hcv in Hpost by lia. simpl. eapply winv_update; eauto.
    + destruct (Z.leb_spec (Z.of_nat (length (l_seq lu))) i).
      * apply bind_abort, lift_abort, (v_index_abort _ _ _ _ Hru). lia.
      * destruct (v_index_neg _ _ _ i Hru) as [Hix Hneg]; [apply py_index_none; [assumption|lia]|].
        erewrite bind_ok by (apply lift_ok; exact Hix).
        destruct (Z.ltb_spec (Z.of_nat (length (l_seq lu)) + i) 0); [reflexivity|lia].
Qed.

Lemma wrun_sim {X} (p : wprog A X) : forall w s, winv w s -> sim_res (lrun triv p s) (wrun triv p w).
Proof.
  induction p as [x| | | |o k IH]; intros w s H; simpl; try reflexivity.
  - exists w. auto.
  - pose proof (w_step_sim o w s H) as Hs. unfold sim_res in Hs.
    destruct (lw_step triv o s) as [[r s1]| | |].
    + destruct Hs as (w1 & Hstep & H1). erewrite bind_ok by exact Hstep. apply IH, H1.
    + apply bind_abort, Hs.
    + apply bind_ub, Hs.
    + apply bind_diverge, Hs.
Qed.

(** Forgetting the capacities gives the list specification. *)
Definition forget (r : res (out A * sworld)) : sres (out A * gmap nat (list A)) :=
  match r with
  | Ok (x, s) => SVal (x, l_seq <$> s)
  | Abort => SAbort
  | UB | Diverge => SUnspec
  end.

Lemma lv_step_forget o (s : sworld) : s_step triv o (l_seq <$> s) = forget (lv_step triv o s).
Proof.
  destruct o as [id|id n a|id src|id src|id src|id src|id a|id|id i a|id n|id n a|id|id|id i|id|id|id|id|id];
    cbn [lv_step s_step]; unfold when_new, with_seq, lnew, lwith, at_index; rewrite !lookup_fmap;
    destruct (s !! id) as [lv|]; simpl; try reflexivity; rewrite ?fmap_insert; try reflexivity;
    try (destruct (s !! src) as [lu|]; simpl; try reflexivity).
  - destruct (n =? 0); simpl; [reflexivity|]. rewrite fmap_insert. reflexivity.
  - destruct (copyable triv (l_seq lu)); simpl; [|reflexivity]. rewrite fmap_insert. reflexivity.
  - rewrite !fmap_insert. reflexivity.
  - destruct (id =? src); simpl; [reflexivity|].
    destruct (copyable triv (l_seq lu)); simpl; [|reflexivity]. rewrite fmap_insert. reflexivity.
  - destruct (id =? src); simpl; [reflexivity|]. rewrite !fmap_insert. reflexivity.
  - destruct (l_seq lv) eqn:E; simpl; [reflexivity|]. rewrite fmap_insert. reflexivity.
  - destruct (py_index _ i); simpl; [rewrite fmap_insert; reflexivity|]. destruct (_ <=? i)%Z; reflexivity.
  - rewrite fmap_delete. reflexivity.
  - destruct (py_index _ i); simpl; [destruct (nth_error _ _); reflexivity|]. destruct (_ <=? i)%Z; reflexivity.
  - destruct (nth_error _ _); reflexivity.
  - destruct (l_seq lv); reflexivity.
Qed.

Lemma lv_step_no_diverge o (s : sworld) : lv_step triv o s <> Diverge.
Proof.
  destruct o as [id|id n a|id src|id src|id src|id src|id a|id|id i a|id n|id n a|id|id|id i|id|id|id|id|id];
    cbn [lv_step]; unfold lnew, lwith, at_index;
    destruct (s !! id) as [lv|]; try discriminate;
    try (destruct (s !! src) as [lu|]; try discriminate).
  - destruct (n =? 0); discriminate.
  - destruct (copyable triv (l_seq lu)); discriminate.
  - destruct (id =? src); [discriminate|]. destruct (copyable triv (l_seq lu)); discriminate.
  - destruct (id =? src); discriminate.
  - destruct (l_seq lv); discriminate.
  - destruct (py_index _ i); [discriminate|]. destruct (_ <=? i)%Z; discriminate.
  - destruct (py_index _ i); [destruct (nth_error _ _); discriminate|]. destruct (_ <=? i)%Z; discriminate.
  - destruct (nth_error _ _); discriminate.
  - destruct (l_seq lv); discriminate.
Qed.

Lemma v_run_sim ops : forall w s, winv w s ->
  match s_run triv ops (l_seq <$> s) with
  | SVal (rs, s') => exists w' ls, v_run triv ops w = Ok (rs, w') /\ winv w' ls /\ s' = l_seq <$> ls
  | SAbort => v_run triv ops w = Abort
  | SUnspec => v_run triv ops w = UB
  end.
Proof.
  induction ops as [|o ops IH]; intros w s H; simpl.
  - exists w, s. auto.
  - pose proof (v_step_sim o w s H) as Hs. rewrite lv_step_forget.
    pose proof (lv_step_no_diverge o s) as Hnd.
    destruct (lv_step triv o s) as [[r s1]| | |]; simpl in Hs |- *;
      [|apply bind_abort; exact Hs|apply bind_ub; exact Hs|congruence].
    destruct Hs as (w1 & Hstep & H1). erewrite bind_ok by exact Hstep.
    specialize (IH w1 s1 H1). destruct (s_run triv ops (l_seq <$> s1)) as [[rs s2]| |].
    + destruct IH as (w2 & ls & Hrun & H2 & He). erewrite bind_ok by exact Hrun. eexists _, ls. split; [reflexivity|]. auto.
    + apply bind_abort. exact IH.
    + apply bind_ub. exact IH.
Qed.

Lemma winv_contents w s : winv w s -> forall id, contents w id = l_seq <$> (s !! id).
Proof.
  intros H id. unfold contents. pose proof (wi_rep _ _ H id) as Hr.
  destruct (w_objs w !! id) as [v|]; destruct (s !! id) as [l|]; try contradiction; [|reflexivity].
  destruct Hr as [Hr _]. rewrite (v_iter_ok _ _ _ Hr). reflexivity.
Qed.

Lemma reachable_winv (w : world) : reachable triv w -> exists s, winv w s.
Proof.
  intros (ops & rs & Hrun). pose proof (v_run_sim ops world_init ∅ winv_init) as Hs.
  rewrite fmap_empty in Hs.
  destruct (s_run triv ops ∅) as [[rs' s]| |].
  - destruct Hs as (w' & ls & Hrun' & Hw & _). rewrite Hrun in Hrun'. injection Hrun' as <- <-. eauto.
  - congruence.
  - congruence.
Qed.

Lemma winv_holds w s id v l : winv w s -> holds w id v l ->
  s !! id = Some (LVec l (v_cap v)) /\ vrep (w_mem w) v l /\ mem_ok (w_mem w).
Proof.
  intros H [Hv Hl]. rewrite (winv_contents _ _ H) in Hl.
  destruct (s !! id) as [lv|] eqn:Hs; [|discriminate]. injection Hl as <-.
  destruct (winv_obj _ _ _ _ H Hs) as (v' & Hv' & Hr & Hc).
  rewrite Hv in Hv'. injection Hv' as <-. split_and!; [|exact Hr|apply (wi_ok _ _ H)].
  rewrite Hc. destruct lv; reflexivity.
Qed.

Lemma holds_vrep (w : world) id v l : reachable triv w -> holds w id v l -> vrep (w_mem w) v l /\ mem_ok (w_mem w).
Proof. intros Hre Hh. destruct (reachable_winv w Hre) as [s H]. eapply winv_holds; eassumption. Qed.

Lemma winv_holds_rev w s id lv : winv w s -> s !! id = Some lv ->
  exists v, holds w id v (l_seq lv) /\ v_cap v = l_cap lv.
Proof.
  intros H Hs. destruct (winv_obj _ _ _ _ H Hs) as (v & Hv & Hr & Hc). exists v. split; [|exact Hc].
  split; [exact Hv|]. rewrite (winv_contents _ _ H), Hs. reflexivity.
Qed.

Lemma reachable_holds (w : world) id v : reachable triv w -> w_objs w !! id = Some v -> exists l, holds w id v l.
Proof.
  intros Hre Hv. destruct (reachable_winv w Hre) as [s H].
  pose proof (wi_rep _ _ H id) as Hr. rewrite Hv in Hr. destruct (s !! id) as [l|] eqn:Hl; [|contradiction].
  exists (l_seq l). split; [exact Hv|]. rewrite (winv_contents _ _ H), Hl. reflexivity.
Qed.

(** *** Sequencing at the list level *)
Lemma lrun_bind {X Y} (p : wprog A X) (f : X -> wprog A Y) : forall s,
  lrun triv (wbind p f) s =
    match lrun triv p s with
    | Ok (x, s') => lrun triv (f x) s'
    | Abort => Abort | UB => UB | Diverge => Diverge
    end.
Proof.
  induction p as [x| | | |o k IH]; intros s; simpl; try reflexivity.
  destruct (lw_step triv o s) as [[r s']| | |]; auto.
Qed.

Lemma lrun_bind_ok {X Y} (p : wprog A X) (f : X -> wprog A Y) s x s' :
  lrun triv p s = Ok (x, s') -> lrun triv (wbind p f) s = lrun triv (f x) s'.
Proof. intros H. rewrite lrun_bind, H. reflexivity. Qed.

End WorldProofs.
