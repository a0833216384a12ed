(** Pushes with a reference to an element follow their specification. *)
From Verif Require Import Base Alloc AllocProofs VectorModel VectorSpec Adapter Hist ListModel ListSpec ListProofs ListHist ListHist2 ListHist3
  ListIterModel ListIterSpec ListIterProofs ListRefModel ListRefSpec.

Section Ref.
Context {A : Type} (junk : A) (dbl : bool) (pol : policy).
Implicit Types (st : lst A) (w : iworld A) (s : @ispec A).
Notation iR := (iR (A := A) dbl pol).

(** Nobody has the memory a new node gets. *)
Lemma fresh_pick d lay st a : inv d lay st -> al_pick (l_al st) = Some a -> l_cells st !! Node a = None.
Proof.
  intros H Hp. destruct (l_cells st !! Node a) as [c|] eqn:E; [|reflexivity]. exfalso.
  assert (Hd : is_Some (dt (l_cells st) (Node a))) by (unfold dt; rewrite E; eauto).
  apply (i_al _ _ _ H) in Hd. exact (i_sound _ _ _ H _ _ (i_served _ _ _ H) Hp Hd).
Qed.
Lemma node_for_copy d lay st id e x : inv d lay st -> ld_dat e st = Ok (x, st) -> node_for junk id e st = (st_dat (Head id) x ;;; new_node id) st.
Proof.
  intros H He. unfold node_for, get_node, bind at 1. destruct (al_pick (l_al st)) as [a|] eqn:Hp.
  - pose proof (fresh_pick _ _ _ _ H Hp) as Hn. unfold ld_dat, bind, ld in He. destruct (l_cells st !! e) as [c|] eqn:Ee; [|discriminate]. injection He as Hx.
    assert (Hea : e <> Node a) by congruence. unfold ld_dat, st_dat, copy_head, new_node, bind, ld, stc, ret. cbn [l_cells l_al l_size l_tail].
    rewrite lookup_insert_ne by congruence. rewrite Ee, Hx. cbn [l_cells l_al l_size l_tail].
    assert (L1 : forall r : cell A, <[Node a := r]> (l_cells st) !! Head id = l_cells st !! Head id) by (intros r; apply lookup_insert_ne; discriminate).
    rewrite L1. destruct (l_cells st !! Head id) as [ch|] eqn:Eh; [|reflexivity]. cbn [l_cells l_al l_size l_tail]. rewrite L1, Eh. cbn [l_cells l_al l_size l_tail].
    rewrite !lookup_insert, Hp. cbn [l_cells l_al l_size l_tail]. rewrite (lookup_insert_ne _ (Head id) (Node a)) by discriminate. rewrite lookup_insert.
    do 3 f_equal. rewrite (insert_commute _ (Head id) (Node a)) by congruence. apply insert_insert.
  - unfold bind at 1. rewrite He. unfold st_dat, copy_head, new_node, bind, ld, stc. destruct (l_cells st !! Head id) as [ch|] eqn:Eh; [|reflexivity].
    rewrite Eh. cbn [l_cells l_al]. rewrite lookup_insert, Hp. reflexivity.
Qed.
Lemma front_copy lay st id e x : inv dbl lay st -> ld_dat e st = Ok (x, st) -> ll_push_front_ref junk dbl id e st = ll_push_front dbl id x st.
Proof. intros H He. unfold ll_push_front_ref, ll_push_front. unfold bind at 1. rewrite (node_for_copy _ _ _ id _ _ H He). rewrite <- bind_assoc. reflexivity. Qed.
Lemma sl_front_copy lay st id e x : inv dbl lay st -> ld_dat e st = Ok (x, st) -> sl_push_front_ref junk dbl id e st = sl_push_front dbl id x st.
Proof. intros H He. unfold sl_push_front_ref, sl_push_front. unfold bind at 1. rewrite (front_copy _ _ _ _ _ H He). reflexivity. Qed.
Lemma dl_back_copy lay st id e x : inv dbl lay st -> ld_dat e st = Ok (x, st) -> dl_push_back_ref junk dbl id e st = dl_push_back dbl id x st.
Proof. intros H He. unfold dl_push_back_ref, dl_push_back. unfold bind at 1. rewrite (node_for_copy _ _ _ id _ _ H He). rewrite <- bind_assoc. reflexivity. Qed.
Lemma sl_back_copy lay st id e x : inv dbl lay st -> ld_dat e st = Ok (x, st) -> sl_push_back_ref junk dbl id e st = sl_push_back dbl id x st.
Proof. intros H He. unfold sl_push_back_ref, sl_push_back. unfold bind at 1. rewrite (node_for_copy _ _ _ id _ _ H He). rewrite <- bind_assoc. reflexivity. Qed.

(** An iterator at an element, whatever its list. *)
Definition reads s (k : nat) (x : A) : Prop := exists n id xs, s_its s !! k = Some (At n) /\ s_lists s !! id = Some xs /\ (n, x) ∈ xs.
Lemma read_reads s k x : read_at s k = Some x -> reads s k x.
Proof.
  unfold read_at. destruct (s_its s !! k) as [[n|]|] eqn:E; try discriminate. destruct (where_is n (s_lists s)) as [[id [[us y] vs]]|] eqn:Ew; [|discriminate].
  intros [= ->]. apply where_is_some in Ew. exists n, id, (us ++ (n, x) :: vs). split; [exact E|]. split; [exact Ew|]. apply elem_of_app. right. left.
Qed.
Lemma reads_ld s w k x : iR s w -> reads s k x -> exists e lay, get_it k w = Ok (e, w) /\ ld_dat e (fst w) = Ok (x, fst w) /\ inv dbl lay (fst w).
Proof.
  intros (f & H) (n & id & xs & Ek & El & Hx). exists (pos f (At n)), (ren f (s_lists s)). split; [eapply get_it_ok; eassumption|]. split; [|apply H].
  apply ld_dat_ok. eapply i_dat; [exact (proj1 H)|apply ren_some; exact El|]. unfold renl. apply elem_of_list_fmap. exists (n, x). auto.
Qed.

(** Calls that read their argument once. *)
Definition call (k : nat) (f : ptr -> M (lst A) unit) : M (iworld A) (out A) := e <- get_it k ;; on_lists (ld_dat e) ;;; on_lists (f e) ;;; ret RUnit.
Lemma call_copy s w k x (f : ptr -> M (lst A) unit) (g : M (lst A) unit) : iR s w -> reads s k x ->
  (forall e lay, inv dbl lay (fst w) -> get_it k w = Ok (e, w) -> ld_dat e (fst w) = Ok (x, fst w) -> f e (fst w) = g (fst w)) -> call k f w = on_lists (unit_out g) w.
Proof.
  intros HR Hk Hf. destruct (reads_ld _ _ _ _ HR Hk) as (e & lay & G & Ld & Hi). unfold call. rewrite (bind_ok _ _ _ _ _ G).
  assert (Ho : on_lists (ld_dat e) w = Ok (x, w)) by (unfold on_lists; rewrite Ld; destruct w; reflexivity).
  rewrite (bind_ok _ _ _ _ _ Ho). unfold on_lists, unit_out, bind. rewrite (Hf e lay Hi G Ld). destruct (g (fst w)) as [[[] st]| | |]; reflexivity.
Qed.

Lemma push_keeps s s' (id : nat) y k x r : lists_step dbl (LPushBack id y) s = SVal (r, s') -> reads s k x -> reads s' k x.
Proof.
  unfold lists_step. cbn [op_map ls_step]. unfold with_list. destruct (s_lists s !! id) as [l|] eqn:El; [|discriminate]. intros [= _ <-] (n & i & xs & Ek & Ei & Hx).
  destruct (decide (i = id)) as [->|Hne].
  - exists n, id, (l ++ [(s_next s, y)]). cbn [s_its s_lists]. rewrite lookup_insert. split; [exact Ek|]. split; [reflexivity|]. rewrite El in Ei. injection Ei as ->. apply elem_of_app. left. exact Hx.
  - exists n, i, xs. cbn [s_its s_lists]. rewrite lookup_insert_ne by congruence. auto.
Qed.
Definition push_back_ref := if dbl then dl_push_back_ref junk dbl else sl_push_back_ref junk dbl.
Definition push_back (id : nat) (x : A) := if dbl then dl_push_back dbl id x else sl_push_back dbl id x.
Definition fill_loop (n id : nat) (x : A) := if dbl then dl_fill_loop dbl n id x else sl_fill_loop dbl n id x.
Lemma fill_loop_S n id x : fill_loop (S n) id x = (push_back id x ;;; fill_loop n id x).
Proof. unfold fill_loop, push_back. destruct dbl; reflexivity. Qed.
Lemma back_copy lay st id e x : inv dbl lay st -> ld_dat e st = Ok (x, st) -> push_back_ref id e st = push_back id x st.
Proof.
  intros H He. pose proof (dl_back_copy lay st id e x H He) as H1. pose proof (sl_back_copy lay st id e x H He) as H2. unfold push_back_ref, push_back. clear H. destruct dbl; assumption.
Qed.
Lemma step_push_back id x : (if dbl then dl_step junk (LPushBack id x) else sl_step junk (LPushBack id x)) = unit_out (push_back id x).
Proof. unfold push_back. destruct dbl; reflexivity. Qed.
Lemma fill_copy k x id n : forall s w e, iR s w -> reads s k x -> is_Some (s_lists s !! id) -> get_it k w = Ok (e, w) ->
  fill_ref_loop push_back_ref n id e (fst w) = fill_loop n id x (fst w).
Proof.
  induction n as [|n IH]; intros s w e HR Hk [l El] Ge; [unfold fill_loop; cbn [fill_ref_loop dl_fill_loop sl_fill_loop]; destruct dbl; reflexivity|].
  rewrite fill_loop_S. cbn [fill_ref_loop]. destruct (reads_ld _ _ _ _ HR Hk) as (e' & lay & G & Ld & Hi). rewrite Ge in G. injection G as <-.
  unfold bind. rewrite (back_copy _ _ id _ _ Hi Ld).
  pose proof (it_step_or junk dbl pol (IList (LPushBack id x)) s w HR) as St. cbn [is_step it_step] in St. rewrite step_push_back in St.
  destruct (lists_step dbl (LPushBack id x) s) as [[r s']| |] eqn:Es; [|unfold lists_step in Es; cbn [op_map ls_step] in Es; unfold with_list in Es; rewrite El in Es; discriminate..].
  pose proof (push_keeps _ _ _ _ _ _ _ Es Hk) as Hk'.
  assert (El' : is_Some (s_lists s' !! id)).
  { unfold lists_step in Es. cbn [op_map ls_step] in Es. unfold with_list in Es. rewrite El in Es. injection Es as _ <-. cbn [s_lists]. rewrite lookup_insert. eauto. }
  cbn [magree_or] in St. unfold on_lists, unit_out, bind, ret in St. destruct (push_back id x (fst w)) as [[[] st]| | |] eqn:Ep; [|reflexivity..].
  destruct St as [(w' & E & HR')|[E _]]; [|discriminate]. injection E as <- <-.
  exact (IH s' (st, snd w) e HR' Hk' El' ltac:(unfold get_it in Ge |- *; cbn [snd]; destruct (snd w !! k); [injection Ge as ->; reflexivity|discriminate])).
Qed.

Definition step_list (o : lop A) := if dbl then dl_step junk o else sl_step junk o.
Lemma z_copy o s w o' : iR s w -> with_copy o s = Some o' -> is_step dbl o' s <> SUnspec -> z_step junk dbl o w = it_step junk dbl o' w.
Proof.
  intros HR E Hne. destruct o as [o|id k|id k|id k|id n k]; cbn [with_copy] in E; [injection E as <-; reflexivity|..];
    destruct (read_at s k) as [x|] eqn:Ev; try discriminate; injection E as <-; apply read_reads in Ev; cbn [z_step it_step].
  - change (call k ((if dbl then ll_push_front_ref junk dbl else sl_push_front_ref junk dbl) id) w = on_lists (step_list (LPushFront id x)) w).
    rewrite (call_copy s w k x _ (if dbl then ll_push_front dbl id x else sl_push_front dbl id x) HR Ev).
    + unfold step_list. clear. destruct dbl; reflexivity.
    + intros e lay Hi _ He. pose proof (front_copy lay _ id e x Hi He). pose proof (sl_front_copy lay _ id e x Hi He). clear Hi. destruct dbl; assumption.
  - change (call k (push_back_ref id) w = on_lists (step_list (LPushBack id x)) w). rewrite (call_copy s w k x _ (push_back id x) HR Ev).
    + unfold step_list. rewrite <- step_push_back. reflexivity.
    + intros e lay Hi _ He. exact (back_copy lay _ id e x Hi He).
  - change (call k (ll_push_front_ref junk dbl id) w = on_lists (step_list (LPush id x)) w). rewrite (call_copy s w k x _ (ll_push_front dbl id x) HR Ev).
    + unfold step_list. clear. destruct dbl; reflexivity.
    + intros e lay Hi _ He. exact (front_copy lay _ id e x Hi He).
  - change (call k (fun e => ll_init junk dbl id ;;; fill_ref_loop push_back_ref n id e) w = on_lists (step_list (LFill id n x)) w).
    rewrite (call_copy s w k x _ (ll_init junk dbl id ;;; fill_loop n id x) HR Ev).
    + unfold step_list, fill_loop. clear. destruct dbl; reflexivity.
    + intros e lay Hi Ge He. unfold bind.
      assert (Enew : exists r s', lists_step dbl (LNew id) s = SVal (r, s') /\ reads s' k x /\ is_Some (s_lists s' !! id)).
      { cbn [is_step] in Hne. unfold lists_step in Hne |- *. cbn [op_map ls_step] in Hne |- *. unfold no_list in *. destruct (s_lists s !! id) eqn:El; [destruct (Hne eq_refl)|].
        do 2 eexists. split; [reflexivity|]. cbn [s_lists]. rewrite lookup_insert. split; [|eauto]. destruct Ev as (m & i & xs & Ek & Ei & Hx). exists m, i, xs. cbn [s_its s_lists].
        rewrite lookup_insert_ne by congruence. auto. }
      destruct Enew as (r & s' & Es & Ev' & El').
      pose proof (it_step_or junk dbl pol (IList (LNew id)) s w HR) as St. cbn [is_step it_step] in St. rewrite Es in St.
      assert (Eq : (if dbl then dl_step junk (LNew id) else sl_step junk (LNew id)) = unit_out (ll_init junk dbl id)) by (clear; destruct dbl; reflexivity). rewrite Eq in St.
      cbn [magree_or] in St. unfold on_lists, unit_out, bind, ret in St. destruct (ll_init junk dbl id (fst w)) as [[[] st]| | |] eqn:Ep; [|reflexivity..].
      destruct St as [(w' & E & HR')|[E _]]; [|discriminate]. injection E as <- <-.
      exact (fill_copy k x id n s' (st, snd w) e HR' Ev' El' ltac:(unfold get_it in Ge |- *; cbn [snd]; destruct (snd w !! k); [injection Ge as ->; reflexivity|discriminate])).
Qed.
Notation F := (fun s : @ispec A => refuses pol (elements_total (strip (s_lists s)))).
Lemma z_step_or o s w : iR s w -> magree_or iR F (zs_step dbl o s) (z_step junk dbl o w).
Proof.
  intros HR. unfold zs_step. destruct (with_copy o s) as [o'|] eqn:E; [|exact I]. pose proof (it_step_or junk dbl pol o' s w HR) as St.
  destruct (is_step dbl o' s) as [[r s']| |] eqn:Es; [..|exact I]; (rewrite (z_copy _ _ _ _ HR E); [exact St|congruence]).
Qed.
Lemma z_run ops : sound pol ->
  match srun (zs_step dbl) ops ispec0 with
  | SVal (rs, s) => (exists w, mrun (z_step junk dbl) ops (lst_init pol, ∅) = Ok (rs, w) /\ iR s w) \/
      (mrun (z_step junk dbl) ops (lst_init pol, ∅) = Abort /\
       exists ops1 ops2 rs1 s1, ops = ops1 ++ ops2 /\ srun (zs_step dbl) ops1 ispec0 = SVal (rs1, s1) /\ F s1)
  | SAbort => mrun (z_step junk dbl) ops (lst_init pol, ∅) = Abort
  | SUnspec => True
  end.
Proof. intros Hs. exact (mrun_agree_or (z_step junk dbl) (zs_step dbl) iR F z_step_or ops ispec0 (lst_init pol, ∅) (iR_init dbl pol Hs)). Qed.
End Ref.

Theorem lref_history_or : forall (A : Type) (junk : A) (dbl : bool) (pol : policy) (ops : list (zop A)), sound pol ->
  match srun (zs_step dbl) ops ispec0 with
  | SVal (rs, _) => (exists w, mrun (z_step junk dbl) ops (lst_init pol, ∅) = Ok (rs, w)) \/
      (mrun (z_step junk dbl) ops (lst_init pol, ∅) = Abort /\
       exists ops1 ops2 rs1 s1, ops = ops1 ++ ops2 /\ srun (zs_step dbl) ops1 ispec0 = SVal (rs1, s1) /\ refuses pol (elements_total (strip (s_lists s1))))
  | SAbort => mrun (z_step junk dbl) ops (lst_init pol, ∅) = Abort
  | SUnspec => True
  end.
Proof.
  intros A junk dbl pol ops Hs. pose proof (z_run junk dbl pol ops Hs) as H. destruct (srun _ ops ispec0) as [[rs s]| |]; [|exact H|exact I].
  destruct H as [(w & R & _)|H]; [left; eauto|right; exact H].
Qed.
Theorem lref_history : forall (A : Type) (junk : A) (dbl : bool) (pol : policy) (ops : list (zop A)), sound pol -> grants pol ->
  match srun (zs_step dbl) ops ispec0 with
  | SVal (rs, _) => exists w, mrun (z_step junk dbl) ops (lst_init pol, ∅) = Ok (rs, w)
  | SAbort => mrun (z_step junk dbl) ops (lst_init pol, ∅) = Abort
  | SUnspec => True
  end.
Proof.
  intros A junk dbl pol ops Hs Hg. pose proof (lref_history_or A junk dbl pol ops Hs) as H. destruct (srun _ ops ispec0) as [[rs s]| |]; [|exact H|exact I].
  destruct H as [H|(_ & ops1 & ops2 & rs1 & s1 & _ & _ & Hr)]; [exact H|]. destruct (grants_refuses _ _ Hg Hr).
Qed.
(** At any point of any history the call and the call with a copy leave the same memory. *)
Theorem lref_copy : forall (A : Type) (junk : A) (dbl : bool) (pol : policy) (ops : list (zop A)) rs s w o o', sound pol ->
  srun (zs_step dbl) ops ispec0 = SVal (rs, s) -> mrun (z_step junk dbl) ops (lst_init pol, ∅) = Ok (rs, w) ->
  with_copy o s = Some o' -> is_step dbl o' s <> SUnspec -> z_step junk dbl o w = z_step junk dbl (ZI o') w.
Proof.
  intros A junk dbl pol ops rs s w o o' Hs E R Hc Hne. pose proof (z_run junk dbl pol ops Hs) as H. rewrite E in H.
  destruct H as [(w' & R' & HR)|[R' _]]; rewrite R in R'; [|discriminate]. injection R' as <-. exact (z_copy junk dbl pol _ _ _ _ HR Hc Hne).
Qed.
(** A list given one of its own elements. *)
Theorem lref_own : forall (A : Type) (junk : A) (dbl : bool) (pol : policy) (ops : list (zop A)) rs s k n id us x vs, sound pol -> grants pol ->
  srun (zs_step dbl) ops ispec0 = SVal (rs, s) -> s_its s !! k = Some (At n) -> where_is n (s_lists s) = Some (id, (us, x, vs)) ->
  (exists w, mrun (z_step junk dbl) (ops ++ [ZPushBack id k; ZI (IList (LIter id))]) (lst_init pol, ∅) = Ok (rs ++ [RUnit; RList (us.*2 ++ x :: vs.*2 ++ [x])], w)) /\
  (exists w, mrun (z_step junk dbl) (ops ++ [ZPushFront id k; ZI (IList (LIter id))]) (lst_init pol, ∅) = Ok (rs ++ [RUnit; RList (x :: us.*2 ++ x :: vs.*2)], w)).
Proof.
  intros A junk dbl pol ops rs s k n id us x vs Hs Hg E Ek Ew. pose proof (where_is_some _ _ _ _ _ _ Ew) as El.
  assert (Hv : read_at s k = Some x) by (unfold read_at; rewrite Ek, Ew; reflexivity).
  split.
  - pose proof (lref_history A junk dbl pol (ops ++ [ZPushBack id k; ZI (IList (LIter id))]) Hs Hg) as H. rewrite srun_app, E in H. cbn [srun] in H. unfold zs_step in H. cbn [with_copy] in H.
    rewrite Hv in H. cbn [fmap option_fmap option_map with_copy is_step] in H. unfold lists_step in H. cbn [op_map ls_step] in H. unfold with_list in H. rewrite El in H. cbn [s_lists s_next] in H. rewrite lookup_insert in H.
    cbn [out_map] in H. rewrite !fmap_app, fmap_cons, <- app_assoc in H. exact H.
  - pose proof (lref_history A junk dbl pol (ops ++ [ZPushFront id k; ZI (IList (LIter id))]) Hs Hg) as H. rewrite srun_app, E in H. cbn [srun] in H. unfold zs_step in H. cbn [with_copy] in H.
    rewrite Hv in H. cbn [fmap option_fmap option_map with_copy is_step] in H. unfold lists_step in H. cbn [op_map ls_step] in H. unfold with_list in H. rewrite El in H. cbn [s_lists s_next] in H. rewrite lookup_insert in H.
    cbn [out_map] in H. rewrite fmap_cons, !fmap_app, fmap_cons in H. exact H.
Qed.
