(** Linked lists: the invariant, and that every call keeps it. *)
From Verif Require Import Base Alloc AllocProofs VectorModel VectorSpec Adapter Hist ListModel ListSpec ListProofs.

Section Inv.
Context {A : Type} (junk : A) (d : bool).
Implicit Types (C : gmap ptr (cell A)) (st : lst A) (p q r : ptr) (xs ys us vs : list (nat * A)) (lay : gmap nat (list (nat * A))).

Definition nodes xs : list ptr := Node <$> xs.*1.
Definition ringl (id : nat) xs : list ptr := Head id :: nodes xs ++ [Head id].

(** The addresses in use. *)
Notation live st := (al_live (al_log (l_al st))).

Record inv lay st : Prop := Inv {
  i_ring : forall id xs, lay !! id = Some xs -> path d (nx (l_cells st)) (pv (l_cells st)) (ringl id xs);
  i_dat : forall id xs a x, lay !! id = Some xs -> (a, x) ∈ xs -> dt (l_cells st) (Node a) = Some x;
  i_nodup : forall id xs, lay !! id = Some xs -> NoDup xs.*1;
  i_disj : forall i j xs ys a, lay !! i = Some xs -> lay !! j = Some ys -> a ∈ xs.*1 -> a ∈ ys.*1 -> i = j;
  i_nodes : forall a, is_Some (dt (l_cells st) (Node a)) -> exists id xs, lay !! id = Some xs /\ a ∈ xs.*1;
  i_heads : forall id, is_Some (dt (l_cells st) (Head id)) <-> is_Some (lay !! id);
  i_size : forall id, l_size st !! id = length <$> lay !! id;
  i_al : forall a, is_Some (dt (l_cells st) (Node a)) <-> a ∈ live st;
  i_sound : sound (al_pol (l_al st));
  i_served : served (al_pol (l_al st)) (al_log (l_al st));
}.

Lemma elem_nodes a xs : Node a ∈ nodes xs <-> a ∈ xs.*1.
Proof.
  unfold nodes. rewrite elem_of_list_fmap. split; [|eauto]. intros (b & [= ->] & H). exact H.
Qed.
Lemma head_nodes id xs : Head id ∉ nodes xs.
Proof. unfold nodes. rewrite elem_of_list_fmap. intros (b & [=] & _). Qed.
Lemma nodes_nodup xs : NoDup xs.*1 -> NoDup (nodes xs).
Proof. apply NoDup_fmap_2. intros x y [= ->]. reflexivity. Qed.
Lemma nodes_app us vs : nodes (us ++ vs) = nodes us ++ nodes vs.
Proof. unfold nodes. rewrite !fmap_app. reflexivity. Qed.
Lemma ringl_removelast id xs : removelast (ringl id xs) = Head id :: nodes xs.
Proof. unfold ringl. rewrite app_comm_cons. apply removelast_last. Qed.
Lemma ringl_nodup1 id xs : NoDup xs.*1 -> NoDup (removelast (ringl id xs)).
Proof. intros H. rewrite ringl_removelast. apply NoDup_cons. split; [apply head_nodes|]. apply nodes_nodup. exact H. Qed.
Lemma ringl_nodup2 id xs : NoDup xs.*1 -> NoDup (tail (ringl id xs)).
Proof.
  intros H. simpl. apply NoDup_app. split; [apply nodes_nodup; exact H|]. split; [|apply NoDup_singleton].
  intros p Hp ->%elem_of_list_singleton. apply (head_nodes _ _ Hp).
Qed.

Lemma i_live lay st id xs a : inv lay st -> lay !! id = Some xs -> a ∈ xs.*1 -> is_Some (dt (l_cells st) (Node a)).
Proof. intros H E [[b x] [-> Hb]]%elem_of_list_fmap. simpl. rewrite (i_dat _ _ H _ _ _ _ E Hb). eauto. Qed.
Lemma i_points lay st id xs p : inv lay st -> lay !! id = Some xs -> p ∈ Head id :: nodes xs -> is_Some (dt (l_cells st) p).
Proof.
  intros H E [->|Hp]%elem_of_cons; [apply (i_heads _ _ H); eauto|].
  unfold nodes in Hp. apply elem_of_list_fmap in Hp as (a & -> & Ha). eauto using i_live.
Qed.

(** A ring list as a part up to [p], then [q] and the rest. *)
Lemma ringl_split id us vs : exists l1 p q l2,
  Head id :: nodes us = l1 ++ [p] /\ last (Head id :: nodes us) = Some p /\
  nodes vs ++ [Head id] = q :: l2 /\ head (nodes vs ++ [Head id]) = Some q /\
  forall ws, ringl id (us ++ ws ++ vs) = l1 ++ p :: nodes ws ++ q :: l2.
Proof.
  destruct (exists_last (l := Head id :: nodes us)) as (l1 & p & E1); [discriminate|].
  destruct (nodes vs ++ [Head id]) as [|q l2] eqn:E2; [destruct (nodes vs); discriminate|].
  exists l1, p, q, l2. split; [exact E1|]. split; [rewrite E1; apply last_snoc|]. split; [reflexivity|]. split; [reflexivity|].
  intros ws. unfold ringl. rewrite !nodes_app.
  rewrite <- !app_assoc. rewrite E2. rewrite app_comm_cons, E1. rewrite <- app_assoc. reflexivity.
Qed.

Lemma elem_points id us p : p ∈ Head id :: nodes us -> p = Head id \/ p ∈ nodes us.
Proof. apply elem_of_cons. Qed.

(** One list changes; everything else is left alone. *)
Lemma inv_upd lay st id xs st' xs' :
  inv lay st -> lay !! id = Some xs ->
  path d (nx (l_cells st')) (pv (l_cells st')) (ringl id xs') ->
  (forall a x, (a, x) ∈ xs' -> dt (l_cells st') (Node a) = Some x) ->
  NoDup xs'.*1 ->
  (forall a, a ∈ xs'.*1 -> a ∈ xs.*1 \/ a ∉ live st) ->
  (forall r, r <> Head id -> r ∉ nodes xs -> r ∉ nodes xs' ->
     nx (l_cells st') r = nx (l_cells st) r /\ (d = true -> pv (l_cells st') r = pv (l_cells st) r) /\ dt (l_cells st') r = dt (l_cells st) r) ->
  (forall a, a ∈ xs.*1 -> a ∉ xs'.*1 -> dt (l_cells st') (Node a) = None) ->
  is_Some (dt (l_cells st') (Head id)) ->
  (forall a, a ∈ live st' <-> a ∈ xs'.*1 \/ a ∈ live st /\ a ∉ xs.*1) -> al_pol (l_al st') = al_pol (l_al st) -> served (al_pol (l_al st')) (al_log (l_al st')) ->
  l_size st' = <[id := length xs']> (l_size st) ->
  inv (<[id := xs']> lay) st'.
Proof.
  intros H E Hring Hdat Hnd Hown Hframe Hgone Hhead Hlv Hpol Hserv Hsize.
  assert (Hoth : forall j ys a, j <> id -> lay !! j = Some ys -> a ∈ ys.*1 -> a ∉ xs.*1 /\ a ∉ xs'.*1).
  { intros j ys a Hj Ej Ha. assert (Hx : a ∉ xs.*1) by (intros Hx; apply Hj; apply (i_disj _ _ H _ _ _ _ a Ej E Ha Hx)).
    split; [exact Hx|]. intros [?|Hf]%Hown; [contradiction|].
    apply Hf. apply (i_al _ _ H). eapply i_live; eassumption. }
  assert (Hpt : forall j ys r, j <> id -> lay !! j = Some ys -> r ∈ Head j :: nodes ys -> r <> Head id /\ r ∉ nodes xs /\ r ∉ nodes xs').
  { intros j ys r Hj Ej [->|Hr]%elem_points; [split; [congruence|split; apply head_nodes]|].
    unfold nodes in Hr. apply elem_of_list_fmap in Hr as (a & -> & Ha). rewrite !elem_nodes.
    destruct (Hoth j ys a Hj Ej Ha). split; [discriminate|auto]. }
  constructor.
  - intros j ys [[<- <-]|[Hj Ej]]%lookup_insert_Some; [exact Hring|].
    apply (path_frame d (nx (l_cells st)) (pv (l_cells st))); [apply (i_ring _ _ H _ _ Ej)| |].
    + intros r Hr. rewrite ringl_removelast in Hr. destruct (Hpt j ys r ltac:(congruence) Ej Hr) as (Ha & Hb & Hc). apply Hframe; assumption.
    + intros Hd r Hr. assert (Hr' : r ∈ Head j :: nodes ys).
      { simpl in Hr. apply elem_of_app in Hr as [Hr| ->%elem_of_list_singleton]; [right; exact Hr|left]. }
      destruct (Hpt j ys r ltac:(congruence) Ej Hr') as (Ha & Hb & Hc). apply Hframe; assumption.
  - intros j ys a x [[<- <-]|[Hj Ej]]%lookup_insert_Some Hx; [apply Hdat; exact Hx|].
    assert (Ha : a ∈ ys.*1) by (apply elem_of_list_fmap; exists (a, x); auto).
    destruct (Hpt j ys (Node a) ltac:(congruence) Ej) as (Hb & Hc & Hd); [right; apply elem_nodes; exact Ha|].
    destruct (Hframe (Node a) Hb Hc Hd) as (_ & _ & ->). apply (i_dat _ _ H _ _ _ _ Ej Hx).
  - intros j ys [[<- <-]|[Hj Ej]]%lookup_insert_Some; [exact Hnd|]. apply (i_nodup _ _ H _ _ Ej).
  - intros i j us vs a [[<- <-]|[Hi Ei]]%lookup_insert_Some [[<- <-]|[Hj Ej]]%lookup_insert_Some Ha Hb; [reflexivity| | |].
    + destruct (Hoth j vs a ltac:(congruence) Ej Hb). contradiction.
    + destruct (Hoth i us a ltac:(congruence) Ei Ha). contradiction.
    + apply (i_disj _ _ H _ _ _ _ a Ei Ej Ha Hb).
  - intros a Ha. destruct (decide (a ∈ xs'.*1)) as [Hi|Hi]; [exists id, xs'; rewrite lookup_insert; auto|].
    destruct (decide (a ∈ xs.*1)) as [Hi2|Hi2]; [rewrite (Hgone a Hi2 Hi) in Ha; destruct Ha; discriminate|].
    destruct (Hframe (Node a)) as (_ & _ & Ed); [discriminate|rewrite elem_nodes; exact Hi2|rewrite elem_nodes; exact Hi|].
    rewrite Ed in Ha. destruct (i_nodes _ _ H a Ha) as (j & ys & Ej & Hy). exists j, ys. split; [|exact Hy].
    rewrite lookup_insert_ne; [exact Ej|]. intros <-. congruence.
  - intros j. destruct (decide (j = id)) as [->|Hj].
    + rewrite lookup_insert. split; [eauto|intros _; exact Hhead].
    + rewrite lookup_insert_ne by congruence. rewrite <- (i_heads _ _ H j).
      destruct (Hframe (Head j)) as (_ & _ & ->); [congruence|apply head_nodes|apply head_nodes|]. reflexivity.
  - intros j. rewrite Hsize. destruct (decide (j = id)) as [->|Hj].
    + rewrite !lookup_insert. reflexivity.
    + rewrite !lookup_insert_ne by congruence. apply (i_size _ _ H).
  - intros a. rewrite Hlv. destruct (decide (a ∈ xs'.*1)) as [Hi|Hi].
    + split; [auto|]. intros _. apply elem_of_list_fmap in Hi as ([b x] & -> & Hb). cbn [fst]. rewrite (Hdat _ _ Hb). eauto.
    + destruct (decide (a ∈ xs.*1)) as [Hi2|Hi2].
      * rewrite (Hgone a Hi2 Hi). split; [intros [? ?]; discriminate|tauto].
      * destruct (Hframe (Node a)) as (_ & _ & ->); [discriminate|rewrite elem_nodes; exact Hi2|rewrite elem_nodes; exact Hi|].
        rewrite (i_al _ _ H). tauto.
  - rewrite Hpol. apply (i_sound _ _ H).
  - exact Hserv.
Qed.

(** ** Pushing a node at any position *)
Lemma new_node_ok st id n : is_Some (dt (l_cells st) (Head id)) -> al_pick (l_al st) = Some n -> exists C',
  new_node id st = Ok (Node n, LSt C' (al_got n (l_al st)) (l_size st) (l_tail st)) /\
  (forall r, r <> Node n -> nx C' r = nx (l_cells st) r /\ pv C' r = pv (l_cells st) r /\ dt C' r = dt (l_cells st) r) /\
  dt C' (Node n) = dt (l_cells st) (Head id).
Proof.
  intros [a (c & E & _)%dt_some] Hn. unfold new_node. rewrite E, Hn. eexists. split; [reflexivity|]. unfold nx, pv, dt. split.
  - intros r Hr. rewrite lookup_insert_ne by congruence. auto.
  - rewrite lookup_insert, E. reflexivity.
Qed.
Lemma prep_refused lay st id xs a : inv lay st -> lay !! id = Some xs -> al_pick (l_al st) = None ->
  forall (X : Type) (k : ptr -> M (lst A) X), (st_dat (Head id) a ;;; n <- new_node id ;; k n) st = Abort.
Proof.
  intros H E Hn X k. assert (Hh : is_Some (dt (l_cells st) (Head id))) by (apply (i_heads _ _ H); eauto).
  destruct (st_dat_ok st (Head id) a Hh) as (C0 & E0 & _ & _ & D0). rewrite (bind_ok _ _ _ _ _ E0). apply bind_abort.
  assert (Hc : dt C0 (Head id) = Some a) by (rewrite D0, decide_True by reflexivity; reflexivity). apply dt_some in Hc as (c & Ec & _).
  unfold new_node. cbn [set_cells l_cells l_al]. rewrite Ec, Hn. reflexivity.
Qed.

Lemma prep_ok lay st id xs a n : inv lay st -> lay !! id = Some xs -> al_pick (l_al st) = Some n -> exists C1,
  (forall (X : Type) (k : ptr -> M (lst A) X), (st_dat (Head id) a ;;; n <- new_node id ;; k n) st
     = k (Node n) (LSt C1 (al_got n (l_al st)) (l_size st) (l_tail st))) /\
  (forall r, r <> Node n -> nx C1 r = nx (l_cells st) r /\ pv C1 r = pv (l_cells st) r) /\
  (forall r, r <> Node n -> r <> Head id -> dt C1 r = dt (l_cells st) r) /\
  dt C1 (Node n) = Some a /\ dt C1 (Head id) = Some a.
Proof.
  intros H E Hn. assert (Hh : is_Some (dt (l_cells st) (Head id))) by (apply (i_heads _ _ H); eauto).
  destruct (st_dat_ok st (Head id) a Hh) as (C0 & E0 & N0 & P0 & D0).
  destruct (new_node_ok (set_cells C0 st) id n) as (C1 & E1 & F1 & D1); [simpl; rewrite D0, decide_True by reflexivity; eauto|exact Hn|].
  simpl in *. exists C1. split; [|split; [|split; [|split]]].
  - intros X k. rewrite (bind_ok _ _ _ _ _ E0). rewrite (bind_ok _ _ _ _ _ E1). reflexivity.
  - intros r Hr. destruct (F1 r Hr) as (-> & -> & _). auto.
  - intros r Hr Hr2. destruct (F1 r Hr) as (_ & _ & ->). rewrite D0, decide_False by congruence. reflexivity.
  - rewrite D1, D0, decide_True by reflexivity. reflexivity.
  - destruct (F1 (Head id)) as (_ & _ & ->); [discriminate|]. rewrite D0, decide_True by reflexivity. reflexivity.
Qed.

Lemma ld_size_ok st id n : l_size st !! id = Some n -> ld_size id st = Ok (n, st).
Proof. intros H. unfold ld_size. rewrite H. reflexivity. Qed.
Lemma st_size_ok st id n m : l_size st !! id = Some n ->
  st_size id m st = Ok (tt, LSt (l_cells st) (l_al st) (<[id := m]> (l_size st)) (l_tail st)).
Proof. intros H. unfold st_size. rewrite H. reflexivity. Qed.
Lemma size_of lay st id xs : inv lay st -> lay !! id = Some xs -> l_size st !! id = Some (length xs).
Proof. intros H E. rewrite (i_size _ _ H), E. reflexivity. Qed.

Lemma pick_free lay st n : inv lay st -> al_pick (l_al st) = Some n -> n ∉ live st.
Proof. intros H Hn. apply (i_sound _ _ H); [apply (i_served _ _ H)|exact Hn]. Qed.
Lemma fresh_notin lay st id xs n : inv lay st -> lay !! id = Some xs -> al_pick (l_al st) = Some n -> n ∉ xs.*1.
Proof. intros H E Hn Hi. apply (pick_free _ _ _ H Hn). apply (i_al _ _ H). eapply i_live; eassumption. Qed.

Lemma push_at lay st id us vs a p n : inv lay st -> lay !! id = Some (us ++ vs) -> last (Head id :: nodes us) = Some p -> al_pick (l_al st) = Some n ->
  exists C1, let st1 := LSt C1 (al_got n (l_al st)) (l_size st) (l_tail st) in
  (forall (X : Type) (k : ptr -> M (lst A) X), (st_dat (Head id) a ;;; n <- new_node id ;; k n) st = k (Node n) st1) /\
  nx C1 (Head id) = nx (l_cells st) (Head id) /\ pv C1 (Head id) = pv (l_cells st) (Head id) /\
  exists st', (forall (X : Type) (k : unit -> M (lst A) X),
    (link_add d p (Node n) ;;; m <- ld_size id ;; u <- st_size id (S m) ;; k u) st1 = k tt st') /\
    inv (<[id := us ++ (n, a) :: vs]> lay) st' /\ l_tail st' = l_tail st /\ l_al st' = al_got n (l_al st).
Proof.
  intros H E Hp Hn. destruct (prep_ok _ _ _ _ a _ H E Hn) as (C1 & R1 & F1 & D1 & Dn & Dh).
  pose proof (fresh_notin _ _ _ _ _ H E Hn) as Hfr.
  destruct (ringl_split id us vs) as (l1 & p' & q & l2 & E1 & Hp' & E2 & Hq & Hspl).
  rewrite Hp in Hp'. injection Hp' as <-.
  pose proof (i_ring _ _ H _ _ E) as Hring. pose proof (Hspl []) as Hs0. simpl in Hs0. rewrite Hs0 in Hring.
  assert (Hpin : p ∈ Head id :: nodes (us ++ vs)).
  { rewrite nodes_app, app_comm_cons, E1. rewrite <- app_assoc. apply elem_of_app. right. left. }
  assert (Hqin : q ∈ Head id :: nodes (us ++ vs)).
  { assert (Hq' : q ∈ nodes vs ++ [Head id]) by (rewrite E2; left). rewrite nodes_app.
    apply elem_of_app in Hq' as [Hq'| ->%elem_of_list_singleton]; [right; apply elem_of_app; auto|left]. }
  assert (Hne : forall r, r ∈ Head id :: nodes (us ++ vs) -> r <> Node n).
  { intros r [->|Hr]%elem_points; [discriminate|]. intros ->. apply elem_nodes in Hr. contradiction. }
  assert (Hnp : nx (l_cells st) p = Some q).
  { apply path_app in Hring as [_ [[Hx _] _]]. exact Hx. }
  exists C1. intros st1. split; [exact R1|]. split; [apply F1; discriminate|]. split; [apply F1; discriminate|].
  destruct (link_add_ok d st1 p (Node n) q) as (C2 & E3 & N2 & P2 & D2).
  { simpl. destruct (F1 p (Hne p Hpin)) as [-> _]. exact Hnp. }
  { simpl. destruct (decide (q = Head id)) as [->|Hqh]; [rewrite Dh; eauto|]. rewrite D1 by auto. eapply i_points; eassumption. }
  { simpl. rewrite Dn. eauto. }
  { intros Hx. apply (Hne p Hpin). congruence. }
  { intros Hx. apply (Hne q Hqin). congruence. }
  simpl in N2, P2, D2.
  pose proof (size_of _ _ _ _ H E) as Hsz.
  eexists. split.
  { intros X k. rewrite (bind_ok _ _ _ _ _ E3). erewrite bind_ok by (apply ld_size_ok; exact Hsz).
    erewrite bind_ok by (apply st_size_ok with (n := length (us ++ vs)); exact Hsz). reflexivity. }
  simpl. split; [|split; reflexivity].
  apply (inv_upd lay st id (us ++ vs)); cbn [l_cells l_al l_size l_tail set_cells]; try assumption.
  - pose proof (Hspl [(n, a)]) as Hs. simpl in Hs. rewrite Hs.
    assert (Hr1 : path d (nx C1) (pv C1) (l1 ++ p :: q :: l2)).
    { apply (path_frame d (nx (l_cells st)) (pv (l_cells st))); [exact Hring| |].
      - intros r Hr. rewrite <- Hs0, ringl_removelast in Hr. apply F1. apply Hne. exact Hr.
      - intros _ r Hr. rewrite <- Hs0 in Hr. apply F1. apply Hne. simpl in Hr.
        apply elem_of_app in Hr as [Hr| ->%elem_of_list_singleton]; [right; exact Hr|left]. }
    apply (path_insert d (nx C1) (pv C1)); try assumption.
    + rewrite <- Hs0. apply ringl_nodup1. eapply i_nodup; eassumption.
    + rewrite <- Hs0. apply ringl_nodup2. eapply i_nodup; eassumption.
    + rewrite <- Hs0. unfold ringl. intros [?|[Hi|?%elem_of_list_singleton]%elem_of_app]%elem_of_cons; [discriminate| |discriminate].
      apply elem_nodes in Hi. contradiction.
  - intros b x Hb. rewrite D2. apply elem_of_app in Hb as [Hb|[[= -> ->]|Hb]%elem_of_cons]; [|exact Dn|].
    + rewrite D1; [eapply i_dat; [exact H|exact E|apply elem_of_app; left; exact Hb]| |discriminate].
      intros [= ->]. apply Hfr. apply elem_of_list_fmap. exists (n, x). split; [reflexivity|]. apply elem_of_app. left. exact Hb.
    + rewrite D1; [eapply i_dat; [exact H|exact E|apply elem_of_app; right; exact Hb]| |discriminate].
      intros [= ->]. apply Hfr. apply elem_of_list_fmap. exists (n, x). split; [reflexivity|]. apply elem_of_app. right. exact Hb.
  - rewrite fmap_app. simpl. pose proof (i_nodup _ _ H _ _ E) as Hnd. rewrite fmap_app in Hnd, Hfr.
    apply (NoDup_Permutation_proper _ (n :: us.*1 ++ vs.*1)); [symmetry; apply Permutation_middle|]. apply NoDup_cons. auto.
  - intros b Hb. rewrite fmap_app in Hb |- *. apply elem_of_app in Hb as [Hb|[->|Hb]%elem_of_cons]; [left; apply elem_of_app; auto|right; simpl; eapply pick_free; eassumption|left; apply elem_of_app; auto].
  - intros r Hr1 Hr2 Hr3.
    assert (Hrn : r <> Node n).
    { intros ->. apply Hr3. apply elem_nodes. rewrite fmap_app. apply elem_of_app. right. left. }
    assert (Hrp : r <> p). { intros ->. apply elem_points in Hpin as [?|?]; contradiction. }
    assert (Hrq : r <> q). { intros ->. apply elem_points in Hqin as [?|?]; contradiction. }
    rewrite N2, D2. rewrite !decide_False by assumption. destruct (F1 r Hrn) as [-> Hpv]. rewrite D1 by assumption.
    split; [reflexivity|]. split; [|reflexivity]. intros Hd. rewrite (P2 Hd), !decide_False by assumption. exact Hpv.
  - intros b Hb Hb2. exfalso. apply Hb2. rewrite fmap_app in *. apply elem_of_app in Hb as [Hb|Hb]; apply elem_of_app; [left; exact Hb|right; right; exact Hb].
  - rewrite D2, Dh. eauto.
  - intros b. cbn [st1 l_al al_got al_log al_live]. rewrite elem_of_union, elem_of_singleton, !fmap_app, !elem_of_app. cbn [fmap list_fmap fst]. rewrite elem_of_cons.
    split; [intros [->|Hb]; [tauto|]|intros [[Hb|[->|Hb]]|[Hb _]]; [|tauto| |tauto]].
    + destruct (decide (b ∈ us.*1)); [tauto|]. destruct (decide (b ∈ vs.*1)); tauto.
    + right. apply (i_al _ _ H). eapply i_live; [exact H|exact E|]. rewrite fmap_app. apply elem_of_app. auto.
    + right. apply (i_al _ _ H). eapply i_live; [exact H|exact E|]. rewrite fmap_app. apply elem_of_app. auto.
  - reflexivity.
  - split; [exact Hn|apply (i_served _ _ H)].
  - f_equal. rewrite !app_length. simpl. lia.
Qed.

Lemma push_front_got lay st id xs a n : inv lay st -> lay !! id = Some xs -> al_pick (l_al st) = Some n -> exists st',
  ll_push_front d id a st = Ok (tt, st') /\ inv (<[id := (n, a) :: xs]> lay) st' /\ l_tail st' = l_tail st /\ nx (l_cells st') (Head id) = Some (Node n) /\
  al_pol (l_al st') = al_pol (l_al st).
Proof.
  intros H E Hn. destruct (push_at lay st id [] xs a (Head id) n H E eq_refl Hn) as (C1 & R1 & _ & _ & st' & R2 & Hi & Ht & Hf).
  exists st'. split; [|split; [exact Hi|split; [exact Ht|split; [|rewrite Hf; reflexivity]]]].
  - unfold ll_push_front. rewrite R1. specialize (R2 unit ret). unfold bind in R2 |- *.
    destruct (link_add d (Head id) (Node n) _) as [[[] w]| | |]; try discriminate.
    destruct (ld_size id w) as [[m w2]| | |]; try discriminate.
    destruct (st_size id (S m) w2) as [[[] w3]| | |]; try discriminate. exact R2.
  - pose proof (i_ring _ _ Hi id _ (lookup_insert _ _ _)) as [[Hx _] _]. exact Hx.
Qed.

(** When the allocator refuses. *)
Definition tot lay : nat := elements_total ((fun xs => xs.*2) <$> lay).
Definition refused {X} st B (c : res (X * lst A)) : Prop := c = Abort /\ refuses (al_pol (l_al st)) B.

Lemma nodup_bind {X Y : Type} (f : X -> list Y) l :
  (forall x1 x2 y, x1 ∈ l -> x2 ∈ l -> y ∈ f x1 -> y ∈ f x2 -> x1 = x2) -> (forall x, x ∈ l -> NoDup (f x)) -> NoDup l -> NoDup (l ≫= f).
Proof.
  induction l as [|x l IH]; intros H1 H2 H3; [constructor|]. cbn [mbind list_bind]. apply NoDup_cons in H3 as [H3 H4].
  apply NoDup_app. split; [apply H2; left|]. split.
  - intros y Hy (x' & Hx & Hl)%elem_of_list_bind. apply H3. rewrite (H1 x x' y); [exact Hl|left|right; exact Hl|exact Hy|exact Hx].
  - apply IH; [|intros x' Hx; apply H2; right; exact Hx|exact H4]. intros x1 x2 y Ha Hb. apply H1; right; assumption.
Qed.

Lemma filter_fst_nodup (l : list (ptr * cell A)) : NoDup l.*1 -> NoDup (List.filter (fun pc => is_node (fst pc)) l).*1.
Proof.
  induction l as [|pc l IH]; simpl; [auto|]. intros [Hn Hd]%NoDup_cons.
  destruct (is_node (fst pc)); [|auto]. simpl. apply NoDup_cons. split; [|auto].
  intros Hi. apply Hn. apply elem_of_list_fmap in Hi as (y & -> & Hy). apply elem_of_list_fmap. exists y. split; [reflexivity|].
  apply elem_of_list_In. apply elem_of_list_In in Hy. apply filter_In in Hy. tauto.
Qed.

(** No node is leaked: the allocated nodes are the elements. *)
Lemma nodes_exact lay st : inv lay st -> nodes_allocated st = elements_total ((fun xs => xs.*2) <$> lay).
Proof.
  intros H. unfold nodes_allocated, elements_total.
  assert (Hp : (List.filter (fun pc => is_node (fst pc)) (map_to_list (l_cells st))).*1 ≡ₚ (map_to_list lay) ≫= (fun kx => nodes (snd kx))).
  { apply NoDup_Permutation.
    - apply filter_fst_nodup. apply NoDup_fst_map_to_list.
    - apply nodup_bind; [| |apply NoDup_map_to_list].
      + intros [i xs] [j ys] r Hi%elem_of_map_to_list Hj%elem_of_map_to_list Hri Hrj. simpl in *.
        unfold nodes in Hri. apply elem_of_list_fmap in Hri as (a & -> & Ha). apply elem_nodes in Hrj.
        assert (i = j) by (apply (i_disj _ _ H _ _ _ _ a Hi Hj Ha Hrj)). subst. congruence.
      + intros [i xs] Hi%elem_of_map_to_list. apply nodes_nodup. eapply i_nodup; eassumption.
    - intros r. rewrite elem_of_list_fmap, elem_of_list_bind. split.
      + intros ([p c] & -> & Hy). apply elem_of_list_In, filter_In in Hy as [Hy Hn]. apply elem_of_list_In, elem_of_map_to_list in Hy.
        destruct p as [?|a]; [discriminate|]. destruct (i_nodes _ _ H a) as (id & xs & E & Ha); [unfold dt; rewrite Hy; eauto|].
        exists (id, xs). split; [apply elem_nodes; exact Ha|apply elem_of_map_to_list; exact E].
      + intros ([id xs] & Hr & E%elem_of_map_to_list). simpl in Hr. unfold nodes in Hr. apply elem_of_list_fmap in Hr as (a & -> & Ha).
        destruct (i_live _ _ _ _ _ H E Ha) as [b (c & Ec & _)%dt_some]. exists (Node a, c). split; [reflexivity|].
        apply elem_of_list_In, filter_In. split; [apply elem_of_list_In, elem_of_map_to_list; exact Ec|reflexivity]. }
  apply Permutation_length in Hp. rewrite fmap_length in Hp. rewrite Hp. rewrite map_to_list_fmap.
  generalize (map_to_list lay). intros l. induction l as [|[k xs] l IH]; [reflexivity|].
  cbn [fmap list_fmap mbind list_bind]. rewrite !app_length. f_equal; [|exact IH]. simpl. unfold nodes. rewrite !fmap_length. reflexivity.
Qed.

Lemma live_size lay st : inv lay st -> size (live st) = tot lay.
Proof.
  intros H. unfold tot. rewrite <- (nodes_exact _ _ H). unfold nodes_allocated.
  assert (Hp : Node <$> elements (live st) ≡ₚ (List.filter (fun pc => is_node (fst pc)) (map_to_list (l_cells st))).*1).
  { apply NoDup_Permutation.
    - apply NoDup_fmap_2; [intros x y [= ->]; reflexivity|apply NoDup_elements].
    - apply filter_fst_nodup. apply NoDup_fst_map_to_list.
    - intros r. rewrite !elem_of_list_fmap. split.
      + intros (a & -> & Ha). apply elem_of_elements, (i_al _ _ H) in Ha as [b (c & Ec & _)%dt_some].
        exists (Node a, c). split; [reflexivity|]. apply elem_of_list_In, filter_In. split; [|reflexivity].
        apply elem_of_list_In, elem_of_map_to_list. exact Ec.
      + intros ([p c] & -> & Hy). apply elem_of_list_In, filter_In in Hy as [Hy Hn]. apply elem_of_list_In, elem_of_map_to_list in Hy.
        destruct p as [?|a]; [discriminate|]. exists a. split; [reflexivity|]. apply elem_of_elements, (i_al _ _ H). unfold dt. rewrite Hy. eauto. }
  apply Permutation_length in Hp. rewrite !fmap_length in Hp. rewrite <- Hp. reflexivity.
Qed.
Lemma refuses_now lay st : inv lay st -> al_pick (l_al st) = None -> refuses (al_pol (l_al st)) (S (tot lay)).
Proof. intros H Hn. exists (al_log (l_al st)). split; [apply (i_served _ _ H)|]. split; [exact Hn|]. rewrite (live_size _ _ H). lia. Qed.
Lemma et_new (s : gmap nat (list A)) id l : s !! id = None -> elements_total (<[id := l]> s) = elements_total s + length l.
Proof.
  intros E. unfold elements_total. rewrite (map_to_list_insert s) by exact E.
  cbn [mbind list_bind snd]. rewrite app_length. apply Nat.add_comm.
Qed.
Lemma et_insert (s : gmap nat (list A)) id l0 l : s !! id = Some l0 -> elements_total (<[id := l]> s) + length l0 = elements_total s + length l.
Proof.
  intros E. rewrite <- (insert_delete s id l0 E) at 2. rewrite <- insert_delete_insert.
  rewrite !et_new by apply lookup_delete. lia.
Qed.
Lemma tot_new lay id ys : lay !! id = None -> tot (<[id := ys]> lay) = tot lay + length ys.
Proof. intros E. unfold tot. rewrite fmap_insert, et_new, fmap_length; [reflexivity|]. rewrite lookup_fmap, E. reflexivity. Qed.
Lemma tot_insert lay id xs ys : lay !! id = Some xs -> tot (<[id := ys]> lay) + length xs = tot lay + length ys.
Proof.
  intros E. unfold tot. rewrite fmap_insert.
  rewrite <- (fmap_length snd xs), <- (fmap_length snd ys). apply et_insert. rewrite lookup_fmap, E. reflexivity.
Qed.

Lemma push_front_ok lay st id xs a : inv lay st -> lay !! id = Some xs ->
  (exists st' n, ll_push_front d id a st = Ok (tt, st') /\ inv (<[id := (n, a) :: xs]> lay) st' /\ l_tail st' = l_tail st /\
    nx (l_cells st') (Head id) = Some (Node n) /\ al_pol (l_al st') = al_pol (l_al st)) \/
  refused st (S (tot lay)) (ll_push_front d id a st).
Proof.
  intros H E. destruct (al_pick (l_al st)) as [n|] eqn:Hn.
  - left. destruct (push_front_got _ _ _ _ a _ H E Hn) as (st' & Hst). exists st', n. exact Hst.
  - right. split; [|eapply refuses_now; eassumption]. unfold ll_push_front. eapply prep_refused; eassumption.
Qed.

(** ** Removing a node at any position *)
Lemma free_node_ok st a : is_Some (dt (l_cells st) (Node a)) -> exists C',
  free_node (Node a) st = Ok (tt, LSt C' (al_gave a (l_al st)) (l_size st) (l_tail st)) /\
  (forall r, r <> Node a -> nx C' r = nx (l_cells st) r /\ pv C' r = pv (l_cells st) r /\ dt C' r = dt (l_cells st) r) /\
  dt C' (Node a) = None.
Proof.
  intros [b (c & E & _)%dt_some]. unfold free_node. rewrite E. eexists. split; [reflexivity|]. unfold nx, pv, dt. split.
  - intros r Hr. rewrite lookup_delete_ne by congruence. auto.
  - rewrite lookup_delete. reflexivity.
Qed.

Lemma pop_at lay st id us a x vs p : inv lay st -> lay !! id = Some (us ++ (a, x) :: vs) -> last (Head id :: nodes us) = Some p ->
  exists st', (forall m, (link_del d p (Node a) ;;; free_node (Node a) ;;; st_size id m) st
      = Ok (tt, LSt (l_cells st') (l_al st') (<[id := m]> (l_size st)) (l_tail st))) /\
    l_size st' = <[id := length (us ++ vs)]> (l_size st) /\ l_tail st' = l_tail st /\
    inv (<[id := us ++ vs]> lay) st' /\ dt (l_cells st') (Node a) = None /\ l_al st' = al_gave a (l_al st).
Proof.
  intros H E Hp. destruct (ringl_split id us vs) as (l1 & p' & q & l2 & E1 & Hp' & E2 & Hq & Hspl).
  rewrite Hp in Hp'. injection Hp' as <-.
  pose proof (i_ring _ _ H _ _ E) as Hring. pose proof (Hspl [(a, x)]) as Hs1. simpl in Hs1. rewrite Hs1 in Hring.
  pose proof (i_nodup _ _ H _ _ E) as Hnd.
  assert (Ha : a ∉ (us ++ vs).*1 /\ NoDup (us ++ vs).*1).
  { rewrite fmap_app in *. simpl in Hnd. apply NoDup_cons. apply (NoDup_Permutation_proper (us.*1 ++ a :: vs.*1)); [symmetry; apply Permutation_middle|exact Hnd]. }
  destruct Ha as [Ha Hnd'].
  assert (Hpin' : p ∈ Head id :: nodes (us ++ vs)).
  { rewrite nodes_app, app_comm_cons, E1. rewrite <- app_assoc. apply elem_of_app. right. left. }
  assert (Hqin' : q ∈ Head id :: nodes (us ++ vs)).
  { assert (Hq' : q ∈ nodes vs ++ [Head id]) by (rewrite E2; left). rewrite nodes_app.
    apply elem_of_app in Hq' as [Hq'| ->%elem_of_list_singleton]; [right; apply elem_of_app; auto|left]. }
  assert (Hsub : forall r, r ∈ Head id :: nodes (us ++ vs) -> r ∈ Head id :: nodes (us ++ (a, x) :: vs)).
  { intros r. rewrite !nodes_app. cbn [nodes fmap list_fmap]. rewrite !elem_of_cons, !elem_of_app. simpl. rewrite elem_of_cons. tauto. }
  assert (Hne : forall r, r ∈ Head id :: nodes (us ++ vs) -> r <> Node a).
  { intros r [->|Hr]%elem_points; [discriminate|]. intros ->. apply elem_nodes in Hr. contradiction. }
  assert (Hlive : is_Some (dt (l_cells st) (Node a))).
  { rewrite (i_dat _ _ H _ _ a x E); [eauto|]. apply elem_of_app. right. left. }
  assert (Hnn : nx (l_cells st) (Node a) = Some q).
  { apply path_app in Hring as [_ [_ [[Hx _] _]]]. exact Hx. }
  destruct (link_del_ok d st p (Node a) q) as (C1 & R1 & N1 & P1 & D1).
  { exact Hnn. } { eapply i_points; eauto. } { eapply i_points; eauto. }
  { intros Hx. apply (Hne p Hpin'). congruence. } { intros Hx. apply (Hne q Hqin'). congruence. }
  destruct (free_node_ok (set_cells C1 st) a) as (C2 & R2 & F2 & D2); [simpl; rewrite D1; exact Hlive|].
  simpl in F2. pose proof (size_of _ _ _ _ H E) as Hsz.
  exists (LSt C2 (al_gave a (l_al st)) (<[id := length (us ++ vs)]> (l_size st)) (l_tail st)). split.
  { intros m. rewrite (bind_ok _ _ _ _ _ R1), (bind_ok _ _ _ _ _ R2). erewrite st_size_ok by exact Hsz. reflexivity. }
  split; [reflexivity|]. split; [reflexivity|]. split; [|split; [exact D2|reflexivity]].
  apply (inv_upd lay st id (us ++ (a, x) :: vs)); cbn [l_cells l_al l_size l_tail]; try assumption.
  - pose proof (Hspl []) as Hs0. simpl in Hs0. rewrite Hs0.
    apply (path_remove d (nx (l_cells st)) (pv (l_cells st)) _ _ l1 p (Node a) q l2).
    + rewrite <- Hs1. apply ringl_nodup1. exact Hnd.
    + rewrite <- Hs1. apply ringl_nodup2. exact Hnd.
    + exact Hring.
    + intros r Hr. destruct (F2 r Hr) as (-> & _ & _). rewrite N1, decide_False by assumption. reflexivity.
    + intros Hd r Hr. destruct (F2 r Hr) as (_ & -> & _). rewrite (P1 Hd), decide_False by assumption. reflexivity.
  - intros b y Hb. assert (Hba : Node b <> Node a).
    { intros [= ->]. apply Ha. apply elem_of_list_fmap. exists (a, y). auto. }
    destruct (F2 (Node b) Hba) as (_ & _ & ->). rewrite D1. apply (i_dat _ _ H _ _ _ _ E).
    apply elem_of_app in Hb as [Hb|Hb]; apply elem_of_app; [left; exact Hb|right; right; exact Hb].
  - intros b Hb. left. rewrite fmap_app in *. apply elem_of_app in Hb as [Hb|Hb]; apply elem_of_app; [left; exact Hb|right; right; exact Hb].
  - intros r Hr1 Hr2 Hr3.
    assert (Hra : r <> Node a). { intros ->. apply Hr2. apply elem_nodes. rewrite fmap_app. apply elem_of_app. right. left. }
    assert (Hrp : r <> p). { intros ->. apply elem_points in Hpin' as [?|?]; contradiction. }
    assert (Hrq : r <> q). { intros ->. apply elem_points in Hqin' as [?|?]; contradiction. }
    destruct (F2 r Hra) as (-> & -> & ->). rewrite N1, D1, !decide_False by assumption. split; [reflexivity|]. split; [|reflexivity].
    intros Hd. rewrite (P1 Hd), !decide_False by assumption. reflexivity.
  - intros b Hb Hb2. assert (b = a); [|subst; exact D2]. rewrite fmap_app in Hb, Hb2.
    apply elem_of_app in Hb as [Hb|[Hb|Hb]%elem_of_cons]; [|exact Hb|]; exfalso; apply Hb2, elem_of_app; auto.
  - destruct (F2 (Head id)) as (_ & _ & ->); [discriminate|]. rewrite D1. apply (i_heads _ _ H). eauto.
  - intros b. cbn [al_gave al_log al_live]. rewrite elem_of_difference, elem_of_singleton. rewrite !fmap_app, !elem_of_app in *. cbn [fmap list_fmap fst]. rewrite elem_of_cons.
    split; [intros [Hb Hba]|intros [Hb|Hb]].
    + destruct (decide (b ∈ us.*1)); [tauto|]. destruct (decide (b ∈ vs.*1)); tauto.
    + split; [|intros ->; tauto]. apply (i_al _ _ H). eapply i_live; [exact H|exact E|]. rewrite fmap_app. apply elem_of_app. simpl. rewrite elem_of_cons. tauto.
    + tauto.
  - reflexivity.
  - split; [|apply (i_served _ _ H)]. apply (i_al _ _ H). eapply i_live; [exact H|exact E|]. rewrite fmap_app. apply elem_of_app. right. left.
  - reflexivity.
Qed.

Lemma pop_front_ok lay st id a x xs : inv lay st -> lay !! id = Some ((a, x) :: xs) -> exists st',
  ll_pop_front d id st = Ok (tt, st') /\ inv (<[id := xs]> lay) st' /\ l_tail st' = l_tail st /\ dt (l_cells st') (Node a) = None /\ l_al st' = al_gave a (l_al st).
Proof.
  intros H E. destruct (pop_at lay st id [] a x xs (Head id) H E eq_refl) as (st' & R & Hs & Ht & Hi & Hd).
  exists st'. split; [|tauto]. unfold ll_pop_front.
  rewrite (bind_ok _ _ _ _ _ (ld_size_ok _ _ _ (size_of _ _ _ _ H E))). cbn [length Nat.ltb Nat.leb dassert]. rewrite bind_ret.
  pose proof (i_ring _ _ H _ _ E) as [[Hx _] _].
  rewrite (bind_ok _ _ _ _ _ (ld_next_ok' _ _ _ Hx)). cbn [nonnull]. rewrite bind_ret. rewrite R.
  f_equal. f_equal. destruct st'; simpl in *. f_equal; [|congruence]. rewrite Hs. f_equal. lia.
Qed.
Lemma pop_front_abort lay st id : inv lay st -> lay !! id = Some [] -> ll_pop_front d id st = Abort.
Proof.
  intros H E. unfold ll_pop_front. rewrite (bind_ok _ _ _ _ _ (ld_size_ok _ _ _ (size_of _ _ _ _ H E))). reflexivity.
Qed.

Lemma empty_ok lay st id xs : inv lay st -> lay !! id = Some xs ->
  ll_empty id st = Ok (match xs with [] => true | _ => false end, st).
Proof.
  intros H E. unfold ll_empty. rewrite (bind_ok _ _ _ _ _ (ld_size_ok _ _ _ (size_of _ _ _ _ H E))).
  destruct xs as [|y xs]; [|reflexivity]. cbn [length Nat.eqb].
  pose proof (i_ring _ _ H _ _ E) as [[Hx _] _]. rewrite (bind_ok _ _ _ _ _ (ld_next_ok' _ _ _ Hx)).
  rewrite bool_decide_eq_true_2 by reflexivity. reflexivity.
Qed.

Lemma clear_loop_ok : forall xs lay st id, inv lay st -> lay !! id = Some xs -> exists st',
  ll_clear_loop d (S (length xs)) id st = Ok (tt, st') /\ inv (<[id := []]> lay) st' /\ l_tail st' = l_tail st /\ al_pol (l_al st') = al_pol (l_al st).
Proof.
  induction xs as [|[a x] xs IH]; intros lay st id H E; cbn [ll_clear_loop length].
  - rewrite (bind_ok _ _ _ _ _ (empty_ok _ _ _ _ H E)). exists st. split; [reflexivity|]. rewrite insert_id by exact E. auto.
  - rewrite (bind_ok _ _ _ _ _ (empty_ok _ _ _ _ H E)).
    destruct (pop_front_ok _ _ _ _ _ _ H E) as (st1 & R1 & Hi & Ht & _ & Hf). rewrite (bind_ok _ _ _ _ _ R1).
    destruct (IH _ _ id Hi (lookup_insert _ _ _)) as (st2 & R2 & Hi2 & Ht2 & Hf2). exists st2. split; [exact R2|].
    rewrite insert_insert in Hi2. split; [exact Hi2|split; [congruence|rewrite Hf2, Hf; reflexivity]].
Qed.
Lemma clear_ok lay st id xs : inv lay st -> lay !! id = Some xs -> exists st',
  ll_clear d id st = Ok (tt, st') /\ inv (<[id := []]> lay) st' /\ l_tail st' = l_tail st /\ al_pol (l_al st') = al_pol (l_al st).
Proof.
  intros H E. unfold ll_clear. rewrite (bind_ok _ _ _ _ _ (ld_size_ok _ _ _ (size_of _ _ _ _ H E))). eapply clear_loop_ok; eassumption.
Qed.

(** ** Walking *)
Lemma ring_fits lay st id xs : inv lay st -> lay !! id = Some xs -> length xs < size (l_cells st).
Proof.
  intros H E. assert (Hl : length (Head id :: nodes xs) <= size (l_cells st)); [|simpl in Hl; unfold nodes in Hl; rewrite !fmap_length in Hl; lia].
  rewrite <- size_dom. rewrite <- (size_list_to_set (C := gset ptr) (Head id :: nodes xs)).
  - apply subseteq_size. intros r Hr%elem_of_list_to_set. apply elem_of_dom.
    destruct (i_points _ _ _ _ r H E Hr) as [b (c & Ec & _)%dt_some]. eauto.
  - apply NoDup_cons. split; [apply head_nodes|]. apply nodes_nodup. eapply i_nodup; eassumption.
Qed.

Lemma iter_loop_ok lay st id xs : inv lay st -> lay !! id = Some xs ->
  forall vs us fuel p, xs = us ++ vs -> head (nodes vs ++ [Head id]) = Some p -> length vs < fuel ->
  ll_iter_loop fuel p (Head id) st = Ok (vs.*2, st).
Proof.
  intros H E. induction vs as [|[a x] vs IH]; intros us fuel p -> Hp Hf; (destruct fuel as [|fuel]; [lia|]); cbn [ll_iter_loop]; simpl in Hp; injection Hp as <-.
  - rewrite bool_decide_eq_true_2 by reflexivity. reflexivity.
  - rewrite bool_decide_eq_false_2 by discriminate.
    rewrite (bind_ok _ _ _ _ _ (ld_dat_ok _ _ _ (i_dat _ _ H _ _ a x E ltac:(apply elem_of_app; right; left)))).
    pose proof (i_ring _ _ H _ _ E) as Hring. unfold ringl in Hring. rewrite nodes_app in Hring. cbn [nodes fmap list_fmap] in Hring.
    rewrite <- app_assoc in Hring. simpl app in Hring. rewrite app_comm_cons in Hring. apply path_app in Hring as [_ Hring].
    fold (nodes vs) in Hring.
    destruct (nodes vs ++ [Head id]) as [|q l2] eqn:Eq; [destruct (nodes vs); discriminate|].
    destruct Hring as [[Hx _] _].
    rewrite (bind_ok _ _ _ _ _ (ld_next_ok' _ _ _ Hx)). cbn [nonnull]. rewrite bind_ret.
    erewrite bind_ok; [|apply (IH (us ++ [(a, x)]) fuel q); [rewrite <- app_assoc; reflexivity|reflexivity|simpl in Hf; lia]].
    reflexivity.
Qed.
Lemma iter_ok lay st id xs : inv lay st -> lay !! id = Some xs -> ll_iter id st = Ok (xs.*2, st).
Proof.
  intros H E. unfold ll_iter. pose proof (i_ring _ _ H _ _ E) as Hring. unfold ringl in Hring.
  destruct (nodes xs ++ [Head id]) as [|q l2] eqn:Eq; [destruct (nodes xs); discriminate|]. destruct Hring as [[Hx _] _].
  rewrite (bind_ok _ _ _ _ _ (ld_next_ok' _ _ _ Hx)). cbn [nonnull]. rewrite bind_ret.
  apply (iter_loop_ok _ _ _ _ H E xs []); [reflexivity|rewrite Eq; reflexivity|]. pose proof (ring_fits _ _ _ _ H E). lia.
Qed.
Lemma front_ok lay st id a x xs : inv lay st -> lay !! id = Some ((a, x) :: xs) -> ll_front id st = Ok (x, st).
Proof.
  intros H E. unfold ll_front. pose proof (i_ring _ _ H _ _ E) as [[Hx _] _].
  rewrite (bind_ok _ _ _ _ _ (ld_next_ok' _ _ _ Hx)). cbn [nonnull]. rewrite bind_ret.
  apply ld_dat_ok. eapply i_dat; [exact H|exact E|left].
Qed.

(** ** Construction and destruction *)
Lemma init_ok lay st id : inv lay st -> lay !! id = None -> exists st',
  ll_init junk d id st = Ok (tt, st') /\ inv (<[id := []]> lay) st' /\ l_tail st' = <[id := Head id]> (l_tail st) /\ al_pol (l_al st') = al_pol (l_al st).
Proof.
  intros H E. unfold ll_init. rewrite (i_size _ _ H id), E. cbn [fmap option_fmap option_map].
  set (C0 := <[Head id := Cell None None junk]> (l_cells st)).
  assert (F0 : forall r, r <> Head id -> nx C0 r = nx (l_cells st) r /\ pv C0 r = pv (l_cells st) r /\ dt C0 r = dt (l_cells st) r).
  { intros r Hr. unfold nx, pv, dt, C0. rewrite lookup_insert_ne by congruence. auto. }
  set (st0 := LSt C0 (l_al st) _ _).
  assert (Hh : is_Some (dt C0 (Head id))) by (unfold dt, C0; rewrite lookup_insert; eauto).
  destruct (link_init_ok d st0 (Head id) Hh) as (C1 & R1 & N1 & P1 & D1). exists (set_cells C1 st0). split; [exact R1|]. simpl in N1, P1, D1.
  assert (Hpt : forall j ys r, lay !! j = Some ys -> r ∈ Head j :: nodes ys -> r <> Head id).
  { intros j ys r Ej [->|Hr]%elem_points; [congruence|]. intros ->. apply (head_nodes _ _ Hr). }
  split; [|split; reflexivity]. constructor; cbn [l_cells l_al l_size set_cells st0].
  - intros j ys [[<- <-]|[Hj Ej]]%lookup_insert_Some.
    + unfold ringl. simpl. split; [|exact I]. split; [rewrite N1, decide_True by reflexivity; reflexivity|].
      intros Hd. rewrite (P1 Hd), decide_True by reflexivity. reflexivity.
    + apply (path_frame d (nx (l_cells st)) (pv (l_cells st))); [apply (i_ring _ _ H _ _ Ej)| |].
      * intros r Hr. rewrite ringl_removelast in Hr. pose proof (Hpt j ys r Ej Hr). rewrite N1, decide_False by assumption. apply F0. assumption.
      * intros Hd r Hr. assert (Hr' : r ∈ Head j :: nodes ys).
        { simpl in Hr. apply elem_of_app in Hr as [Hr| ->%elem_of_list_singleton]; [right; exact Hr|left]. }
        pose proof (Hpt j ys r Ej Hr'). rewrite (P1 Hd), decide_False by assumption. apply F0. assumption.
  - intros j ys a x [[<- <-]|[Hj Ej]]%lookup_insert_Some Hx; [inversion Hx|]. rewrite D1.
    destruct (F0 (Node a)) as (_ & _ & ->); [discriminate|]. eapply i_dat; eassumption.
  - intros j ys [[<- <-]|[Hj Ej]]%lookup_insert_Some; [constructor|]. eapply i_nodup; eassumption.
  - intros i j us vs a [[<- <-]|[Hi Ei]]%lookup_insert_Some [[<- <-]|[Hj Ej]]%lookup_insert_Some Ha Hb; [reflexivity|inversion Ha|inversion Hb|].
    apply (i_disj _ _ H _ _ _ _ a Ei Ej Ha Hb).
  - intros a. rewrite D1. destruct (F0 (Node a)) as (_ & _ & ->); [discriminate|]. intros (j & ys & Ej & Hy)%(i_nodes _ _ H).
    exists j, ys. split; [|exact Hy]. rewrite lookup_insert_ne; [exact Ej|]. congruence.
  - intros j. rewrite D1. destruct (decide (j = id)) as [->|Hj].
    + rewrite lookup_insert. split; [eauto|intros _; exact Hh].
    + rewrite lookup_insert_ne by congruence. destruct (F0 (Head j)) as (_ & _ & ->); [congruence|]. apply (i_heads _ _ H).
  - intros j. destruct (decide (j = id)) as [->|Hj]; [rewrite !lookup_insert; reflexivity|].
    rewrite !lookup_insert_ne by congruence. apply (i_size _ _ H).
  - intros a. rewrite D1. destruct (F0 (Node a)) as (_ & _ & ->); [discriminate|]. apply (i_al _ _ H).
  - apply (i_sound _ _ H).
  - apply (i_served _ _ H).
Qed.

Lemma inv_delete lay st id : inv lay st -> lay !! id = Some [] ->
  inv (delete id lay) (LSt (delete (Head id) (l_cells st)) (l_al st) (delete id (l_size st)) (delete id (l_tail st))).
Proof.
  intros H E. set (C0 := delete (Head id) (l_cells st)).
  assert (F0 : forall r, r <> Head id -> nx C0 r = nx (l_cells st) r /\ pv C0 r = pv (l_cells st) r /\ dt C0 r = dt (l_cells st) r).
  { intros r Hr. unfold nx, pv, dt, C0. rewrite lookup_delete_ne by congruence. auto. }
  assert (Hpt : forall j ys r, j <> id -> r ∈ Head j :: nodes ys -> r <> Head id).
  { intros j ys r Hj [->|Hr]%elem_points; [congruence|]. intros ->. apply (head_nodes _ _ Hr). }
  constructor; cbn [l_cells l_al l_size].
  - intros j ys [Hj Ej]%lookup_delete_Some. apply not_eq_sym in Hj.
    apply (path_frame d (nx (l_cells st)) (pv (l_cells st))); [apply (i_ring _ _ H _ _ Ej)| |].
    + intros r Hr. rewrite ringl_removelast in Hr. apply F0. eauto.
    + intros Hd r Hr. assert (Hr' : r ∈ Head j :: nodes ys).
      { simpl in Hr. apply elem_of_app in Hr as [Hr| ->%elem_of_list_singleton]; [right; exact Hr|left]. }
      apply F0. eauto.
  - intros j ys a x [Hj Ej]%lookup_delete_Some Hx. destruct (F0 (Node a)) as (_ & _ & ->); [discriminate|]. eapply i_dat; eassumption.
  - intros j ys [Hj Ej]%lookup_delete_Some. eapply i_nodup; eassumption.
  - intros i j us vs a [Hi Ei]%lookup_delete_Some [Hj Ej]%lookup_delete_Some Ha Hb. apply (i_disj _ _ H _ _ _ _ a Ei Ej Ha Hb).
  - intros a. destruct (F0 (Node a)) as (_ & _ & ->); [discriminate|]. intros (j & ys & Ej & Hy)%(i_nodes _ _ H).
    exists j, ys. split; [|exact Hy]. rewrite lookup_delete_ne; [exact Ej|]. intros <-. rewrite E in Ej. injection Ej as <-. inversion Hy.
  - intros j. destruct (decide (j = id)) as [->|Hj].
    + rewrite lookup_delete. unfold dt, C0. rewrite lookup_delete. split; intros [? ?]; discriminate.
    + rewrite lookup_delete_ne by congruence. destruct (F0 (Head j)) as (_ & _ & ->); [congruence|]. apply (i_heads _ _ H).
  - intros j. destruct (decide (j = id)) as [->|Hj]; [rewrite !lookup_delete; reflexivity|].
    rewrite !lookup_delete_ne by congruence. apply (i_size _ _ H).
  - intros a. destruct (F0 (Node a)) as (_ & _ & ->); [discriminate|]. apply (i_al _ _ H).
  - apply (i_sound _ _ H).
  - apply (i_served _ _ H).
Qed.
Lemma destroy_ok lay st id xs : inv lay st -> lay !! id = Some xs -> exists st',
  ll_destroy d id st = Ok (tt, st') /\ inv (delete id lay) st' /\ l_tail st' = delete id (l_tail st) /\ al_pol (l_al st') = al_pol (l_al st).
Proof.
  intros H E. destruct (clear_ok _ _ _ _ H E) as (st1 & R1 & Hi & Ht & Hf). unfold ll_destroy. rewrite (bind_ok _ _ _ _ _ R1).
  eexists. split; [reflexivity|]. split; [|simpl; rewrite Ht, Hf; split; reflexivity].
  pose proof (inv_delete _ _ id Hi (lookup_insert _ _ _)) as Hd. rewrite delete_insert_delete in Hd. exact Hd.
Qed.
End Inv.
