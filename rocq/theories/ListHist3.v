(** Singly linked lists: histories, and what copying, push/pop and moving from an
    empty list really do. *)
From Verif Require Import Base Alloc AllocProofs VectorModel VectorSpec Adapter Hist ListModel ListSpec ListProofs ListHist ListHist2.

Section SLL.
Context {A : Type} (junk : A).
Implicit Types (C : gmap ptr (cell A)) (st : lst A) (p q r : ptr) (xs ys us vs : list (nat * A)) (lay : gmap nat (list (nat * A))).

Definition tails lay st : Prop := forall id xs, lay !! id = Some xs -> l_tail st !! id = last (Head id :: nodes xs).

Lemma ld_tail_ok st id p : l_tail st !! id = Some p -> ld_tail id st = Ok (p, st).
Proof. intros H. unfold ld_tail. rewrite H. reflexivity. Qed.
Lemma st_tail_ok st id p q : l_tail st !! id = Some p ->
  st_tail id q st = Ok (tt, LSt (l_cells st) (l_al st) (l_size st) (<[id := q]> (l_tail st))).
Proof. intros H. unfold st_tail. rewrite H. reflexivity. Qed.
Definition set_tails (m : gmap nat ptr) st : lst A := LSt (l_cells st) (l_al st) (l_size st) m.
Lemma inv_tails d lay st m : inv d lay st -> inv d lay (set_tails m st).
Proof. intros [H1 H2 H3 H4 H5 H6 H7 H8 H9 H10]. constructor; assumption. Qed.

Lemma tails_insert lay st st' id xs p : tails lay st -> l_tail st' = <[id := p]> (l_tail st) -> last (Head id :: nodes xs) = Some p ->
  tails (<[id := xs]> lay) st'.
Proof.
  intros H E Hl j ys [[<- <-]|[Hj Ej]]%lookup_insert_Some; rewrite E; [rewrite lookup_insert; congruence|].
  rewrite lookup_insert_ne by congruence. apply H. exact Ej.
Qed.
Lemma tails_same lay st st' id xs ys : tails lay st -> lay !! id = Some xs -> l_tail st' = l_tail st -> last (Head id :: nodes ys) = last (Head id :: nodes xs) ->
  tails (<[id := ys]> lay) st'.
Proof.
  intros H Ei E Hl j zs [[<- <-]|[Hj Ej]]%lookup_insert_Some; rewrite E; [rewrite Hl; apply H; exact Ei|]. apply H. exact Ej.
Qed.

(** push_back when the tail pointer designates the end of [us]. *)
Lemma sl_push_back_at lay st id us vs a p n : inv false lay st -> lay !! id = Some (us ++ vs) -> last (Head id :: nodes us) = Some p ->
  l_tail st !! id = Some p -> al_pick (l_al st) = Some n -> exists st',
  sl_push_back false id a st = Ok (tt, st') /\ inv false (<[id := us ++ (n, a) :: vs]> lay) st' /\ l_tail st' = <[id := Node n]> (l_tail st) /\ al_pol (l_al st') = al_pol (l_al st).
Proof.
  intros H E Hp Ht Hn.
  destruct (push_at false lay st id us vs a p n H E Hp Hn) as (C1 & R1 & _ & _ & st' & R2 & Hi & Ht' & Hf).
  exists (set_tails (<[id := Node n]> (l_tail st)) st'). split; [|split; [apply inv_tails; exact Hi|split; [reflexivity|cbn [set_tails l_al]; rewrite Hf; reflexivity]]].
  unfold sl_push_back. rewrite R1. erewrite bind_ok by (apply ld_tail_ok; exact Ht).
  rewrite R2. erewrite st_tail_ok by (rewrite Ht'; exact Ht). rewrite Ht'. reflexivity.
Qed.
Lemma sl_push_back_got lay st id xs a n : inv false lay st -> tails lay st -> lay !! id = Some xs -> al_pick (l_al st) = Some n -> exists st',
  sl_push_back false id a st = Ok (tt, st') /\ inv false (<[id := xs ++ [(n, a)]]> lay) st' /\ tails (<[id := xs ++ [(n, a)]]> lay) st' /\ al_pol (l_al st') = al_pol (l_al st).
Proof.
  intros H Ht E Hn. destruct (last (Head id :: nodes xs)) as [p|] eqn:Hp; [|apply last_None in Hp; discriminate].
  pose proof (Ht _ _ E) as Htl. rewrite Hp in Htl. rewrite <- (app_nil_r xs) in E.
  destruct (sl_push_back_at lay st id xs [] a p n H E Hp Htl Hn) as (st' & R & Hi & Ht' & Hf). exists st'. split; [exact R|]. split; [exact Hi|]. split; [|exact Hf].
  eapply tails_insert; [exact Ht|exact Ht'|]. rewrite nodes_app, app_comm_cons. apply last_snoc.
Qed.
Lemma sl_push_back_ok lay st id xs a : inv false lay st -> tails lay st -> lay !! id = Some xs ->
  (exists st' n, sl_push_back false id a st = Ok (tt, st') /\ inv false (<[id := xs ++ [(n, a)]]> lay) st' /\ tails (<[id := xs ++ [(n, a)]]> lay) st' /\
    al_pol (l_al st') = al_pol (l_al st)) \/
  refused st (S (tot lay)) (sl_push_back false id a st).
Proof.
  intros H Ht E. destruct (al_pick (l_al st)) as [n|] eqn:Hn.
  - left. destruct (sl_push_back_got _ _ _ _ a _ H Ht E Hn) as (st' & Hst). exists st', n. exact Hst.
  - right. split; [|eapply refuses_now; eassumption]. unfold sl_push_back. eapply prep_refused; eassumption.
Qed.

Lemma last_cons_nodes id a x xs : xs <> [] -> last (Head id :: nodes ((a, x) :: xs)) = last (Head id :: nodes xs).
Proof. intros Hne. destruct xs as [|[b y] xs]; [contradiction|]. reflexivity. Qed.

Lemma sl_push_front_got lay st id xs a n : inv false lay st -> tails lay st -> lay !! id = Some xs -> al_pick (l_al st) = Some n -> exists st',
  sl_push_front false id a st = Ok (tt, st') /\ inv false (<[id := (n, a) :: xs]> lay) st' /\ tails (<[id := (n, a) :: xs]> lay) st' /\ al_pol (l_al st') = al_pol (l_al st).
Proof.
  intros H Ht E Hpk. destruct (push_front_got false _ _ _ _ a n H E Hpk) as (st1 & R & Hi & Ht1 & Hn & Hf).
  unfold sl_push_front. pose proof (size_of _ _ _ _ _ Hi (lookup_insert _ _ _)) as Hsz. destruct xs as [|x xs].
  - exists (set_tails (<[id := Node n]> (l_tail st1)) st1). split; [|split; [apply inv_tails; exact Hi|]].
    + rewrite (bind_ok _ _ _ _ _ R), (bind_ok _ _ _ _ _ (ld_size_ok _ _ _ Hsz)). cbn [length Nat.eqb].
      rewrite (bind_ok _ _ _ _ _ (ld_next_ok' _ _ _ Hn)). cbn [nonnull]. rewrite bind_ret.
      erewrite st_tail_ok; [reflexivity|]. rewrite Ht1. apply (Ht _ _ E).
    + split; [|exact Hf]. eapply tails_insert; [exact Ht|simpl; rewrite Ht1; reflexivity|reflexivity].
  - exists st1. split; [|split; [exact Hi|split; [|exact Hf]]].
    + rewrite (bind_ok _ _ _ _ _ R), (bind_ok _ _ _ _ _ (ld_size_ok _ _ _ Hsz)). reflexivity.
    + eapply tails_same; [exact Ht|exact E|exact Ht1|]. apply last_cons_nodes. discriminate.
Qed.
Lemma sl_push_front_ok lay st id xs a : inv false lay st -> tails lay st -> lay !! id = Some xs ->
  (exists st' n, sl_push_front false id a st = Ok (tt, st') /\ inv false (<[id := (n, a) :: xs]> lay) st' /\ tails (<[id := (n, a) :: xs]> lay) st' /\
    al_pol (l_al st') = al_pol (l_al st)) \/
  refused st (S (tot lay)) (sl_push_front false id a st).
Proof.
  intros H Ht E. destruct (al_pick (l_al st)) as [n|] eqn:Hn.
  - left. destruct (sl_push_front_got _ _ _ _ a _ H Ht E Hn) as (st' & Hst). exists st', n. exact Hst.
  - right. split; [|eapply refuses_now; eassumption]. unfold sl_push_front. apply bind_abort. unfold ll_push_front. eapply prep_refused; eassumption.
Qed.
Lemma sl_pop_front_ok lay st id a x xs : inv false lay st -> tails lay st -> lay !! id = Some ((a, x) :: xs) -> exists st',
  sl_pop_front false id st = Ok (tt, st') /\ inv false (<[id := xs]> lay) st' /\ tails (<[id := xs]> lay) st' /\ l_al st' = al_gave a (l_al st).
Proof.
  intros H Ht E. destruct (pop_front_ok false _ _ _ _ _ _ H E) as (st1 & R & Hi & Ht1 & _ & Hf).
  unfold sl_pop_front. pose proof (size_of _ _ _ _ _ Hi (lookup_insert _ _ _)) as Hsz. destruct xs as [|y xs].
  - exists (set_tails (<[id := Head id]> (l_tail st1)) st1). split; [|split; [apply inv_tails; exact Hi|]].
    + rewrite (bind_ok _ _ _ _ _ R), (bind_ok _ _ _ _ _ (ld_size_ok _ _ _ Hsz)). cbn [length Nat.eqb].
      erewrite st_tail_ok; [reflexivity|]. rewrite Ht1. apply (Ht _ _ E).
    + split; [|exact Hf]. eapply tails_insert; [exact Ht|simpl; rewrite Ht1; reflexivity|reflexivity].
  - exists st1. split; [|split; [exact Hi|split; [|exact Hf]]].
    + rewrite (bind_ok _ _ _ _ _ R), (bind_ok _ _ _ _ _ (ld_size_ok _ _ _ Hsz)). reflexivity.
    + eapply tails_same; [exact Ht|exact E|exact Ht1|]. symmetry. apply last_cons_nodes. discriminate.
Qed.
Lemma sl_clear_ok lay st id xs t : inv false lay st -> lay !! id = Some xs -> l_tail st !! id = Some t -> exists st',
  sl_clear false id st = Ok (tt, st') /\ inv false (<[id := []]> lay) st' /\ l_tail st' = <[id := Head id]> (l_tail st) /\ al_pol (l_al st') = al_pol (l_al st).
Proof.
  intros H E Ht. destruct (clear_ok _ _ _ _ _ H E) as (st1 & R & Hi & Ht1 & Hf). unfold sl_clear.
  exists (set_tails (<[id := Head id]> (l_tail st1)) st1). split; [|split; [apply inv_tails; exact Hi|split; [simpl; congruence|exact Hf]]].
  rewrite (bind_ok _ _ _ _ _ R). erewrite st_tail_ok; [reflexivity|]. rewrite Ht1. exact Ht.
Qed.

Lemma sl_back_ok lay st id us a x : inv false lay st -> tails lay st -> lay !! id = Some (us ++ [(a, x)]) -> sl_back id st = Ok (x, st).
Proof.
  intros H Ht E. unfold sl_back. rewrite (bind_ok _ _ _ _ _ (ld_size_ok _ _ _ (size_of _ _ _ _ _ H E))). rewrite app_length, Nat.add_1_r.
  cbn [length Nat.ltb Nat.leb dassert]. rewrite bind_ret. pose proof (Ht _ _ E) as Hl. rewrite nodes_app, app_comm_cons in Hl.
  change (nodes [(a, x)]) with [Node a] in Hl. rewrite last_snoc in Hl. rewrite (bind_ok _ _ _ _ _ (ld_tail_ok _ _ _ Hl)).
  apply ld_dat_ok. eapply i_dat; [exact H|exact E|]. apply elem_of_app. right. left.
Qed.
Lemma sl_back_abort lay st id : inv false lay st -> lay !! id = Some [] -> sl_back id st = Abort.
Proof. intros H E. unfold sl_back. rewrite (bind_ok _ _ _ _ _ (ld_size_ok _ _ _ (size_of _ _ _ _ _ H E))). reflexivity. Qed.

Lemma ring_next d lay st id us vs p : inv d lay st -> lay !! id = Some (us ++ vs) -> last (Head id :: nodes us) = Some p ->
  forall q, head (nodes vs ++ [Head id]) = Some q -> nx (l_cells st) p = Some q.
Proof.
  intros H E Hp q Hq. destruct (ringl_split id us vs) as (l1 & p' & q' & l2 & E1 & Hp' & E2 & Hq' & Hspl).
  pose proof (i_ring _ _ _ H _ _ E) as Hring. pose proof (Hspl []) as Hs. simpl in Hs. rewrite Hs in Hring.
  apply path_app in Hring as [_ [[Hx _] _]]. rewrite Hp in Hp'. rewrite Hq in Hq'. injection Hp' as <-. injection Hq' as <-. auto.
Qed.

Lemma find_prev_ok lay st id us a x : inv false lay st -> lay !! id = Some (us ++ [(a, x)]) ->
  forall us2 us1 fuel p, us = us1 ++ us2 -> last (Head id :: nodes us1) = Some p -> length us2 < fuel ->
  exists r, sl_find_prev fuel p (Node a) st = Ok (r, st) /\ last (Head id :: nodes us) = Some r.
Proof.
  intros H E. pose proof (i_nodup _ _ _ H _ _ E) as Hnd.
  induction us2 as [|[b y] us2 IH]; intros us1 fuel p -> Hp Hf; (destruct fuel as [|fuel]; [lia|]); cbn [sl_find_prev].
  - rewrite app_nil_r in *. exists p. split; [|exact Hp].
    rewrite (bind_ok _ _ _ _ _ (ld_next_ok' _ _ _ (ring_next _ _ _ _ _ _ _ H E Hp (Node a) eq_refl))).
    rewrite bool_decide_eq_true_2 by reflexivity. reflexivity.
  - pose proof E as E'. rewrite <- app_assoc in E'.
    rewrite (bind_ok _ _ _ _ _ (ld_next_ok' _ _ _ (ring_next _ _ _ _ _ _ _ H E' Hp (Node b) eq_refl))).
    rewrite bool_decide_eq_false_2.
    + cbn [nonnull]. rewrite bind_ret. apply (IH (us1 ++ [(b, y)])); [rewrite <- app_assoc; reflexivity| |simpl in Hf; lia].
      rewrite nodes_app, app_comm_cons. apply last_snoc.
    + intros [= ->]. rewrite fmap_app in Hnd. apply NoDup_app in Hnd as (_ & Hnd & _). apply (Hnd a); [|left].
      rewrite fmap_app. apply elem_of_app. right. left.
Qed.

Lemma sl_pop_back_ok lay st id us a x : inv false lay st -> tails lay st -> lay !! id = Some (us ++ [(a, x)]) -> exists st',
  sl_pop_back id st = Ok (tt, st') /\ inv false (<[id := us]> lay) st' /\ tails (<[id := us]> lay) st' /\ l_al st' = al_gave a (l_al st).
Proof.
  intros H Ht E. unfold sl_pop_back. pose proof (size_of _ _ _ _ _ H E) as Hsz.
  rewrite (bind_ok _ _ _ _ _ (ld_size_ok _ _ _ Hsz)).
  assert (Hlt : (0 <? length (us ++ [(a, x)])) = true) by (rewrite app_length, Nat.add_1_r; reflexivity). rewrite Hlt.
  cbn [dassert]. rewrite bind_ret. pose proof (Ht _ _ E) as Hl. rewrite nodes_app, app_comm_cons in Hl.
  change (nodes [(a, x)]) with [Node a] in Hl. rewrite last_snoc in Hl. rewrite (bind_ok _ _ _ _ _ (ld_tail_ok _ _ _ Hl)).
  destruct (find_prev_ok _ _ _ _ _ _ H E us [] (S (size (l_cells st))) (Head id) eq_refl eq_refl) as (p & R & Hp).
  { pose proof (ring_fits _ _ _ _ _ H E) as Hf. rewrite app_length in Hf. simpl in Hf. lia. }
  erewrite bind_ok by exact R.
  pose proof (i_nodup _ _ _ H _ _ E) as Hnd.
  assert (Ha : a ∉ us.*1 /\ NoDup us.*1).
  { rewrite fmap_app in Hnd. apply NoDup_app in Hnd as (Hn1 & Hn2 & _). split; [|exact Hn1]. intros Hi. apply (Hn2 _ Hi). left. }
  destruct Ha as [Ha Hnd'].
  assert (Hlive : is_Some (dt (l_cells st) (Node a))).
  { rewrite (i_dat _ _ _ H _ _ a x E); [eauto|]. apply elem_of_app. right. left. }
  destruct (free_node_ok st a Hlive) as (C1 & R1 & F1 & D1). rewrite (bind_ok _ _ _ _ _ R1).
  erewrite bind_ok by (eapply st_size_ok; exact Hsz). erewrite bind_ok by (eapply st_tail_ok; exact Hl).
  cbn [l_cells l_al l_size l_tail set_cells].
  assert (Hpin : p ∈ Head id :: nodes us) by (apply last_Some_elem_of; exact Hp).
  assert (Hpa : p <> Node a). { intros ->. apply elem_points in Hpin as [?|Hx]; [discriminate|]. apply elem_nodes in Hx. contradiction. }
  destruct (st_next_ok (LSt C1 (al_gave a (l_al st)) (<[id := length (us ++ [(a, x)]) - 1]> (l_size st)) (<[id := p]> (l_tail st))) p (Some (Head id))) as (C2 & R2 & N2 & P2 & D2).
  { simpl. destruct (F1 p Hpa) as (_ & _ & ->). apply (i_points _ _ _ id (us ++ [(a, x)]) p H E). rewrite nodes_app, app_comm_cons. apply elem_of_app. left. exact Hpin. }
  simpl in N2, D2. eexists. split; [exact R2|]. cbn [set_cells l_al l_size l_tail].
  split; [|split; [eapply tails_insert; [exact Ht|reflexivity|exact Hp]|reflexivity]].
  apply (inv_upd _ lay st id (us ++ [(a, x)])); cbn [l_cells l_al l_size l_tail]; try assumption.
  - destruct (ringl_split id us []) as (l1 & p' & q & l2 & E1 & Hp' & E2 & Hq & Hspl). rewrite Hp in Hp'. injection Hp' as <-.
    simpl in E2. injection E2 as <- <-.
    pose proof (Hspl []) as Hs0. pose proof (Hspl [(a, x)]) as Hs1. rewrite !app_nil_r in Hs0. rewrite app_nil_r in Hs1. simpl in Hs0, Hs1. rewrite Hs0.
    apply (path_remove false (nx (l_cells st)) (pv (l_cells st)) _ _ l1 p (Node a) (Head id) []).
    + rewrite <- Hs1. apply ringl_nodup1. exact Hnd.
    + rewrite <- Hs1. apply ringl_nodup2. exact Hnd.
    + rewrite <- Hs1. apply (i_ring _ _ _ H _ _ E).
    + intros r Hr. rewrite N2. destruct (F1 r Hr) as (-> & _ & _). reflexivity.
    + discriminate.
  - intros b y Hb. rewrite D2. assert (Hba : Node b <> Node a).
    { intros [= ->]. apply Ha. apply elem_of_list_fmap. exists (a, y). auto. }
    destruct (F1 (Node b) Hba) as (_ & _ & ->). eapply i_dat; [exact H|exact E|]. apply elem_of_app. auto.
  - intros b Hb. left. rewrite fmap_app. apply elem_of_app. auto.
  - intros r Hr1 Hr2 Hr3.
    assert (Hra : r <> Node a). { intros ->. apply Hr2. apply elem_nodes. rewrite fmap_app. apply elem_of_app. right. left. }
    assert (Hrp : r <> p). { intros ->. apply elem_points in Hpin as [?|?]; contradiction. }
    rewrite N2, D2, decide_False by exact Hrp. destruct (F1 r Hra) as (-> & _ & ->). split; [reflexivity|]. split; [discriminate|reflexivity].
  - intros b Hb Hb2. rewrite D2. rewrite fmap_app in Hb. apply elem_of_app in Hb as [Hb| ->%elem_of_list_singleton]; [contradiction|exact D1].
  - rewrite D2. destruct (F1 (Head id)) as (_ & _ & ->); [discriminate|]. apply (i_heads _ _ _ H). eauto.
  - intros b. cbn [al_gave al_log al_live set_cells l_al]. rewrite elem_of_difference, elem_of_singleton. rewrite !fmap_app, !elem_of_app in *. cbn [fmap list_fmap fst]. rewrite elem_of_list_singleton.
    split; [intros [Hb Hba]; destruct (decide (b ∈ us.*1)); tauto|intros [Hb|Hb]; [|tauto]].
    split; [|intros ->; contradiction]. apply (i_al _ _ _ H). eapply i_live; [exact H|exact E|]. rewrite fmap_app. apply elem_of_app. left. exact Hb.
  - reflexivity.
  - split; [|apply (i_served _ _ _ H)]. apply (i_al _ _ _ H). exact Hlive.
  - simpl. f_equal. rewrite app_length. simpl. lia.
Qed.
Lemma sl_pop_back_abort lay st id : inv false lay st -> lay !! id = Some [] -> sl_pop_back id st = Abort.
Proof. intros H E. unfold sl_pop_back. rewrite (bind_ok _ _ _ _ _ (ld_size_ok _ _ _ (size_of _ _ _ _ _ H E))). reflexivity. Qed.

Lemma sl_move_ok lay st id src xs ys : inv false lay st -> tails lay st -> lay !! id = Some xs -> lay !! src = Some ys -> id <> src -> ys <> [] ->
  exists st', sl_move false id src st = Ok (tt, st') /\ inv false (<[src := []]> (<[id := ys]> lay)) st' /\ tails (<[src := []]> (<[id := ys]> lay)) st' /\ al_pol (l_al st') = al_pol (l_al st).
Proof.
  intros H Ht Ei Es Hne Hys.
  destruct (base_move _ _ _ _ _ _ _ H Ei Es Hne) as (st1 & st2 & Hi & Ht1 & R & Ht2 & Hf & Hs & N & P & D).
  assert (Es1 : <[id := []]> lay !! src = Some ys) by (rewrite lookup_insert_ne by congruence; exact Es).
  destruct (last_nodes ys Hys) as (us & b & x & Ey & Hl & Hl').
  assert (Htb : l_tail st2 !! src = Some (Node b)) by (rewrite Ht2, (Ht _ _ Es); apply Hl').
  assert (Hti : exists t, l_tail st2 !! id = Some t).
  { rewrite Ht2, (Ht _ _ Ei). destruct (last (Head id :: nodes xs)) eqn:El; [eauto|]. apply last_None in El. discriminate. }
  destruct Hti as [ti Hti].
  unfold sl_move. rewrite (proj2 (Nat.eqb_neq id src) Hne). rewrite (bind_ok _ _ _ _ _ R).
  rewrite (bind_ok _ _ _ _ _ (ld_tail_ok _ _ _ Htb)). erewrite bind_ok by (eapply st_tail_ok; exact Hti).
  assert (Hlb : is_Some (dt (l_cells st1) (Node b))).
  { apply (i_live false (<[id:=[]]> lay) st1 src ys); [exact Hi|exact Es1|]. apply elem_nodes, last_Some_elem_of. exact Hl. }
  destruct (st_next_ok (LSt (l_cells st2) (l_al st2) (l_size st2) (<[id := Node b]> (l_tail st2))) (Node b) (Some (Head id))) as (C3 & R3 & N3 & P3 & D3).
  { simpl. rewrite D, decide_False by discriminate. exact Hlb. }
  simpl in N3, D3. rewrite (bind_ok _ _ _ _ _ R3). cbn [set_cells l_al l_size l_tail].
  eexists. split; [eapply st_tail_ok; simpl; rewrite lookup_insert_ne by congruence; exact Htb|]. split; [|split; [|cbn [l_al set_cells]; destruct Hf as [-> ->]; reflexivity]]; apply proj1 in Hf.
  - rewrite <- (insert_insert lay id ys []).
    apply (inv_moved _ _ st1); cbn [l_cells set_cells l_al l_size]; try assumption; [apply lookup_insert| |discriminate|].
    + intros r. rewrite N3, N, Hl. repeat case_decide; congruence.
    + intros r. rewrite D3, D. reflexivity.
  - assert (Htm : tails (<[id := ys]> lay) (set_tails (<[id := Node b]> (l_tail st)) st)) by (eapply (tails_insert lay st); [exact Ht|reflexivity|apply Hl']).
    eapply tails_insert; [exact Htm|simpl; rewrite Ht2; reflexivity|reflexivity].
Qed.

Lemma sl_fill_ok id a : forall n lay st xs, inv false lay st -> tails lay st -> lay !! id = Some xs ->
  (exists st' zs, sl_fill_loop false n id a st = Ok (tt, st') /\ inv false (<[id := xs ++ zs]> lay) st' /\ tails (<[id := xs ++ zs]> lay) st' /\ zs.*2 = repeat a n /\
    al_pol (l_al st') = al_pol (l_al st)) \/
  refused st (tot lay + n) (sl_fill_loop false n id a st).
Proof.
  induction n as [|n IH]; intros lay st xs H Ht E; cbn [sl_fill_loop].
  - left. exists st, []. rewrite app_nil_r, insert_id by exact E. auto 10.
  - destruct (sl_push_back_ok _ _ _ _ a H Ht E) as [(st1 & k & R1 & Hi & Ht1 & Hf1)|[R1 Hr]].
    2: { right. split; [apply bind_abort; exact R1|]. eapply refuses_mono; [exact Hr|]. lia. }
    rewrite (bind_ok _ _ _ _ _ R1).
    destruct (IH _ _ _ Hi Ht1 (lookup_insert _ _ _)) as [(st' & zs & R2 & Hi2 & Ht2 & E2 & Hf2)|[R2 Hr]].
    + left. exists st', ((k, a) :: zs). split; [exact R2|].
      rewrite insert_insert, <- app_assoc in Hi2, Ht2. split; [exact Hi2|]. split; [exact Ht2|]. split; [exact (f_equal (cons a) E2)|rewrite Hf2; exact Hf1].
    + right. split; [exact R2|]. rewrite Hf1 in Hr. pose proof (tot_insert lay id xs (xs ++ [(k, a)]) E) as Htt.
      rewrite app_length in Htt. simpl in Htt. eapply refuses_mono; [exact Hr|]. lia.
Qed.

Lemma tails_init lay st st' id : tails lay st -> l_tail st' = <[id := Head id]> (l_tail st) -> tails (<[id := []]> lay) st'.
Proof. intros H E. eapply tails_insert; [exact H|exact E|reflexivity]. Qed.

Definition slR (pol : policy) (s : gmap nat (list A)) st : Prop := exists lay, s = (fun xs => xs.*2) <$> lay /\ inv false lay st /\ tails lay st /\ al_pol (l_al st) = pol.

Ltac pol := repeat match goal with H : l_al ?x = _ |- context [l_al ?x] => rewrite H | H : al_pol (l_al ?x) = _ |- context [al_pol (l_al ?x)] => rewrite H end;
  try reflexivity; try assumption.
Ltac upd := eexists; split; [|split; [eassumption|split; [eassumption|pol]]]; rewrite ?fmap_insert, ?fmap_delete; subst; try reflexivity.
Ltac same := match goal with H : inv false ?lay ?st |- _ => left; exists st; split; [|exists lay; auto] end.
Theorem sl_step_or pol o s st : slR pol s st -> magree_or (slR pol) (fun s' => refuses pol (elements_total s')) (ls_step false o s) (sl_step junk o st).
Proof.
  intros (lay & Hs & H & Ht & Hpol). destruct o; cbn [ls_step sl_step]; unfold no_list, with_list.
  - destruct (s !! id) as [l|] eqn:E; [exact I|]. pose proof (dlR_none _ _ _ Hs E) as E'.
    destruct (init_ok junk false _ _ _ H E') as (st' & R & Hi & Ht1 & Hf1). pose proof (tails_init _ _ _ _ Ht Ht1).
    left; exists st'; split; [apply unit_out_ok; exact R|]. upd.
  - destruct (s !! id) as [l|] eqn:E; [exact I|]. pose proof (dlR_none _ _ _ Hs E) as E'.
    destruct (init_ok junk false _ _ _ H E') as (st1 & R & Hi & Ht1 & Hf1). pose proof (tails_init _ _ _ _ Ht Ht1) as Ht1'.
    destruct (sl_fill_ok id a n _ _ _ Hi Ht1' (lookup_insert _ _ _)) as [(st' & xs' & R2 & Hi2 & Ht2 & E2 & Hf2)|[R2 Hr]].
    + rewrite insert_insert in Hi2, Ht2.
      left; exists st'; split; [apply unit_out_ok; rewrite (bind_ok _ _ _ _ _ R); exact R2|]. upd. simpl. rewrite E2. reflexivity.
    + right. split; [apply unit_out_abort; rewrite (bind_ok _ _ _ _ _ R); exact R2|]. rewrite Hf1, Hpol in Hr. eapply refuses_mono; [exact Hr|].
      rewrite (tot_new _ _ [] E'). simpl. rewrite et_new, repeat_length, Hs by exact E. unfold tot. lia.
  - destruct (s !! id) as [l|] eqn:E; [exact I|]. destruct (s !! src) as [[|b l']|] eqn:E2; [|exact I|exact I].
    pose proof (dlR_none _ _ _ Hs E) as E'. destruct (dlR_look _ _ _ _ Hs E2) as (ys & E2' & Hy).
    symmetry in Hy. apply fmap_nil_inv in Hy. subst ys.
    assert (Hne : id <> src) by congruence.
    destruct (init_ok junk false _ _ _ H E') as (st1 & R & Hi & Ht1 & Hf1). pose proof (tails_init _ _ _ _ Ht Ht1) as Ht1'.
    destruct (sl_clear_ok _ _ _ _ (Head id) Hi (lookup_insert _ _ _)) as (st2 & R2 & Hi2 & Ht2 & Hf2); [rewrite Ht1; apply lookup_insert|].
    pose proof (tails_init _ _ _ _ Ht1' Ht2) as Ht2'. rewrite insert_insert in Hi2, Ht2'.
    left; exists st2; split; [|upd]. apply unit_out_ok. rewrite (bind_ok _ _ _ _ _ R). unfold sl_assign. rewrite (proj2 (Nat.eqb_neq id src) Hne).
    rewrite (bind_ok _ _ _ _ _ R2). erewrite bind_ok by (apply ld_size_ok; apply (size_of _ _ _ src [] Hi2); rewrite lookup_insert_ne by congruence; exact E2'). reflexivity.
  - destruct (s !! id) as [l|] eqn:E; [exact I|]. destruct (s !! src) as [l'|] eqn:E2; [|exact I].
    pose proof (dlR_none _ _ _ Hs E) as E'. destruct (dlR_look _ _ _ _ Hs E2) as (ys & E2' & ->).
    assert (Hne : id <> src) by congruence. destruct (ys.*2) as [|b l] eqn:Ey; [exact I|]. rewrite <- Ey.
    destruct (init_ok junk false _ _ _ H E') as (st1 & R & Hi & Ht1 & Hf1). pose proof (tails_init _ _ _ _ Ht Ht1) as Ht1'.
    destruct (sl_move_ok _ _ id src [] ys Hi Ht1' (lookup_insert _ _ _)) as (st' & R2 & Hi2 & Ht2 & Hf2); [rewrite lookup_insert_ne by congruence; exact E2'|exact Hne|intros ->; discriminate|].
    rewrite insert_insert in Hi2, Ht2.
    left; exists st'; split; [apply unit_out_ok; rewrite (bind_ok _ _ _ _ _ R); exact R2|]. upd.
  - destruct (s !! id) as [l|] eqn:E; [|exact I]. destruct (s !! src) as [l'|] eqn:E2; [|exact I].
    destruct (Nat.eqb_spec id src) as [->|Hne].
    { same. apply unit_out_ok. unfold sl_assign. rewrite Nat.eqb_refl. reflexivity. }
    destruct l' as [|b l']; [|exact I].
    destruct (dlR_look _ _ _ _ Hs E) as (xs & E' & ->). destruct (dlR_look _ _ _ _ Hs E2) as (ys & E2' & Hy).
    symmetry in Hy. apply fmap_nil_inv in Hy. subst ys.
    destruct (last (Head id :: nodes xs)) as [t|] eqn:El; [|apply last_None in El; discriminate].
    destruct (sl_clear_ok _ _ _ _ t H E') as (st2 & R2 & Hi2 & Ht2 & Hf2); [rewrite (Ht _ _ E'); exact El|].
    pose proof (tails_init _ _ _ _ Ht Ht2) as Ht2'.
    left; exists st2; split; [|upd]. apply unit_out_ok. unfold sl_assign. rewrite (proj2 (Nat.eqb_neq id src) Hne).
    rewrite (bind_ok _ _ _ _ _ R2). erewrite bind_ok by (apply ld_size_ok; apply (size_of _ _ _ src [] Hi2); rewrite lookup_insert_ne by congruence; exact E2'). reflexivity.
  - destruct (s !! id) as [l|] eqn:E; [|exact I]. destruct (s !! src) as [l'|] eqn:E2; [|exact I].
    destruct (Nat.eqb_spec id src) as [->|Hne].
    { same. apply unit_out_ok. unfold sl_move. rewrite Nat.eqb_refl. reflexivity. }
    destruct (dlR_look _ _ _ _ Hs E) as (xs & E' & ->). destruct (dlR_look _ _ _ _ Hs E2) as (ys & E2' & ->).
    destruct (ys.*2) as [|b l] eqn:Ey; [exact I|]. rewrite <- Ey.
    destruct (sl_move_ok _ _ id src xs ys H Ht E' E2' Hne) as (st' & R2 & Hi2 & Ht2 & Hf2); [intros ->; discriminate|].
    left; exists st'; split; [apply unit_out_ok; exact R2|]. upd.
  - destruct (s !! id) as [l|] eqn:E; [|exact I]. destruct (dlR_look _ _ _ _ Hs E) as (xs & E' & ->).
    destruct (destroy_ok _ _ _ _ _ H E') as (st' & R & Hi & Ht1 & Hf1).
    assert (Ht' : tails (delete id lay) st').
    { intros j ys [Hj Ej]%lookup_delete_Some. rewrite Ht1, lookup_delete_ne by exact Hj. apply Ht. exact Ej. }
    left; exists st'; split; [apply unit_out_ok; exact R|]. upd.
  - destruct (s !! id) as [l|] eqn:E; [|exact I]. destruct (dlR_look _ _ _ _ Hs E) as (xs & E' & ->).
    destruct (last (Head id :: nodes xs)) as [t|] eqn:El; [|apply last_None in El; discriminate].
    destruct (sl_clear_ok _ _ _ _ t H E') as (st2 & R2 & Hi2 & Ht2 & Hf2); [rewrite (Ht _ _ E'); exact El|].
    pose proof (tails_init _ _ _ _ Ht Ht2). left; exists st2; split; [apply unit_out_ok; exact R2|]. upd.
  - destruct (s !! id) as [l|] eqn:E; [|exact I]. destruct (dlR_look _ _ _ _ Hs E) as (xs & E' & ->).
    destruct (sl_push_front_ok _ _ _ _ a H Ht E') as [(st' & n & R & Hi & Ht1 & Hf1)|[R Hr]].
    + left; exists st'; split; [apply unit_out_ok; exact R|]. upd.
    + right. split; [apply unit_out_abort; exact R|]. rewrite Hpol in Hr. eapply refuses_mono; [exact Hr|]. unfold tot. rewrite <- Hs.
      pose proof (et_insert _ _ _ (a :: xs.*2) E) as Htt. simpl in Htt. lia.
  - destruct (s !! id) as [l|] eqn:E; [|exact I]. destruct (dlR_look _ _ _ _ Hs E) as (xs & E' & ->).
    destruct (sl_push_back_ok _ _ _ _ a H Ht E') as [(st' & n & R & Hi & Ht1 & Hf1)|[R Hr]].
    + left; exists st'; split; [apply unit_out_ok; exact R|]. upd. rewrite fmap_app. reflexivity.
    + right. split; [apply unit_out_abort; exact R|]. rewrite Hpol in Hr. eapply refuses_mono; [exact Hr|]. unfold tot. rewrite <- Hs.
      pose proof (et_insert _ _ _ (xs.*2 ++ [a]) E) as Htt. rewrite app_length in Htt. simpl in Htt. lia.
  - destruct (s !! id) as [l|] eqn:E; [|exact I]. destruct (dlR_look _ _ _ _ Hs E) as (xs & E' & ->).
    destruct xs as [|[a x] xs]; simpl.
    + apply unit_out_abort. unfold sl_pop_front. apply bind_abort. eapply pop_front_abort; eassumption.
    + destruct (sl_pop_front_ok _ _ _ _ _ _ H Ht E') as (st' & R & Hi & Ht1 & Hf1). left; exists st'; split; [apply unit_out_ok; exact R|]. upd.
  - destruct (s !! id) as [l|] eqn:E; [|exact I]. destruct (dlR_look _ _ _ _ Hs E) as (xs & E' & ->).
    destruct xs as [|[a x] us _] using rev_ind; [apply unit_out_abort; eapply sl_pop_back_abort; eassumption|].
    destruct (sl_pop_back_ok _ _ _ _ _ _ H Ht E') as (st' & R & Hi & Ht1 & Hf1).
    rewrite fmap_app. cbn [fmap list_fmap snd]. rewrite removelast_last. destruct (us.*2 ++ [x]) eqn:Eu; [destruct (us.*2); discriminate|].
    left; exists st'; split; [apply unit_out_ok; exact R|]. upd.
  - destruct (s !! id) as [l|] eqn:E; [|exact I]. destruct (dlR_look _ _ _ _ Hs E) as (xs & E' & ->).
    destruct xs as [|y xs]; simpl; [exact I|].
    destruct (push_front_ok _ _ _ _ _ a H E') as [(st' & n & R & Hi & Ht1 & _ & Hf1)|[R Hr]].
    + left; exists st'; split; [apply unit_out_ok; exact R|].
      assert (Ht' : tails (<[id := (n, a) :: y :: xs]> lay) st') by (eapply tails_same; [exact Ht|exact E'|exact Ht1|apply last_cons_nodes; discriminate]). upd.
    + right. split; [apply unit_out_abort; exact R|]. rewrite Hpol in Hr. eapply refuses_mono; [exact Hr|]. unfold tot. rewrite <- Hs.
      change (list_fmap _ _ snd xs) with (xs.*2). pose proof (et_insert _ _ _ (a :: snd y :: xs.*2) E) as Htt. simpl in Htt. change (list_fmap _ _ snd xs) with (xs.*2) in Htt. lia.
  - destruct (s !! id) as [l|] eqn:E; [|exact I]. destruct (dlR_look _ _ _ _ Hs E) as (xs & E' & ->).
    destruct xs as [|[a x] xs]; simpl.
    + apply unit_out_abort. eapply pop_front_abort; eassumption.
    + destruct xs as [|y xs]; simpl; [exact I|].
      destruct (pop_front_ok _ _ _ _ _ _ _ H E') as (st' & R & Hi & Ht1 & _ & Hf1). left; exists st'; split; [apply unit_out_ok; exact R|].
      assert (Ht' : tails (<[id := y :: xs]> lay) st') by (eapply tails_same; [exact Ht|exact E'|exact Ht1|symmetry; apply last_cons_nodes; discriminate]). upd.
  - destruct (s !! id) as [l|] eqn:E; [|exact I]. destruct (dlR_look _ _ _ _ Hs E) as (xs & E' & ->).
    destruct xs as [|[a x] xs]; simpl; [exact I|]. same.
    erewrite bind_ok by (eapply front_ok; eassumption). reflexivity.
  - destruct (s !! id) as [l|] eqn:E; [|exact I]. destruct (dlR_look _ _ _ _ Hs E) as (xs & E' & ->).
    destruct xs as [|[a x] us _] using rev_ind; [simpl; apply bind_abort; eapply sl_back_abort; eassumption|].
    rewrite fmap_app. cbn [fmap list_fmap snd]. rewrite last_snoc. same.
    erewrite bind_ok by (eapply sl_back_ok; eassumption). reflexivity.
  - destruct (s !! id) as [l|] eqn:E; [|exact I]. destruct (dlR_look _ _ _ _ Hs E) as (xs & E' & ->).
    same. rewrite (bind_ok _ _ _ _ _ (ld_size_ok _ _ _ (size_of _ _ _ _ _ H E'))). rewrite fmap_length. reflexivity.
  - destruct (s !! id) as [l|] eqn:E; [|exact I]. destruct (dlR_look _ _ _ _ Hs E) as (xs & E' & ->).
    same. erewrite bind_ok by (eapply empty_ok; eassumption). destruct xs; reflexivity.
  - destruct (s !! id) as [l|] eqn:E; [|exact I]. destruct (dlR_look _ _ _ _ Hs E) as (xs & E' & ->).
    same. erewrite bind_ok by (eapply iter_ok; eassumption). reflexivity.
  - destruct (s !! id) as [l|]; exact I.
Qed.
Theorem sl_step_ok pol o s st : grants pol -> slR pol s st -> magree (slR pol) (ls_step false o s) (sl_step junk o st).
Proof. intros Hg H. apply (magree_or_no _ (fun s' => refuses pol (elements_total s'))); [intros s'; apply grants_refuses; exact Hg|apply sl_step_or; exact H]. Qed.
End SLL.

Lemma slR_init {A} pol : sound pol -> slR pol ∅ (@lst_init A pol).
Proof.
  intros Hs. exists ∅. split; [rewrite fmap_empty; reflexivity|]. split; [apply inv_init; exact Hs|].
  split; [intros id xs E; rewrite lookup_empty in E; discriminate|reflexivity].
Qed.

Theorem sl_history_or : forall (A : Type) (junk : A) (pol : policy) (ops : list (lop A)), sound pol ->
  match srun (ls_step false) ops ∅ with
  | SVal (rs, s) =>
      (exists w, mrun (sl_step junk) ops (lst_init pol) = Ok (rs, w) /\ nodes_allocated w = elements_total s) \/
      (mrun (sl_step junk) ops (lst_init pol) = Abort /\
       exists ops1 ops2 rs1 s1, ops = ops1 ++ ops2 /\ srun (ls_step false) ops1 ∅ = SVal (rs1, s1) /\ refuses pol (elements_total s1))
  | SAbort => mrun (sl_step junk) ops (lst_init pol) = Abort
  | SUnspec => True
  end.
Proof.
  intros A junk pol ops Hs.
  pose proof (mrun_agree_or (sl_step junk) (ls_step false) (slR pol) (fun s => refuses pol (elements_total s)) (fun o s w => sl_step_or junk pol o s w) ops ∅ (lst_init pol) (slR_init pol Hs)) as Ha.
  destruct (srun (ls_step false) ops ∅) as [[rs s]| |]; [|exact Ha|exact I].
  destruct Ha as [(w & E & lay & -> & Hi & _)|Ha]; [left; exists w|right; exact Ha]. split; [exact E|]. eapply nodes_exact. exact Hi.
Qed.
Theorem sl_history : forall (A : Type) (junk : A) (pol : policy) (ops : list (lop A)), sound pol -> grants pol ->
  match srun (ls_step false) ops ∅ with
  | SVal (rs, s) => exists w, mrun (sl_step junk) ops (lst_init pol) = Ok (rs, w) /\ nodes_allocated w = elements_total s
  | SAbort => mrun (sl_step junk) ops (lst_init pol) = Abort
  | SUnspec => True
  end.
Proof.
  intros A junk pol ops Hs Hg. pose proof (sl_history_or A junk pol ops Hs) as Ha.
  destruct (srun (ls_step false) ops ∅) as [[rs s]| |]; [|exact Ha|exact I].
  destruct Ha as [Ha|(_ & ops1 & ops2 & rs1 & s1 & _ & _ & Hr)]; [exact Ha|]. destruct (grants_refuses _ _ Hg Hr).
Qed.
