(** Linked lists: what copying a singly linked list, push/pop on one, and moving
    from an empty list really do, after any history. *)
From Verif Require Import Base Alloc AllocProofs VectorModel VectorSpec Adapter Hist ListModel ListSpec ListProofs ListHist ListHist2 ListHist3 ListHist4.

Section SL.
Context {A : Type} (junk : A).
Implicit Types (C : gmap ptr (cell A)) (st : lst A) (p q r : ptr) (xs ys us vs : list (nat * A)) (lay : gmap nat (list (nat * A))).

Lemma sl_reached pol ops rs (s : gmap nat (list A)) : sound pol -> grants pol -> srun (ls_step false) ops ∅ = SVal (rs, s) ->
  exists w, slR pol s w /\ forall ops2, mrun (sl_step junk) (ops ++ ops2) (lst_init pol) =
    match mrun (sl_step junk) ops2 w with
    | Ok (rs2, w2) => Ok (rs ++ rs2, w2) | Abort => Abort | UB => UB | Diverge => Diverge end.
Proof.
  intros Hs Hg E. eapply mhistory_then; [|exact E]. apply mrun_agree; [intros o s' w; apply sl_step_ok; exact Hg|].
  apply slR_init. exact Hs.
Qed.
Lemma dl_reached pol ops rs (s : gmap nat (list A)) : sound pol -> grants pol -> srun (ls_step true) ops ∅ = SVal (rs, s) ->
  exists w, dlR pol s w /\ forall ops2, mrun (dl_step junk) (ops ++ ops2) (lst_init pol) =
    match mrun (dl_step junk) ops2 w with
    | Ok (rs2, w2) => Ok (rs ++ rs2, w2) | Abort => Abort | UB => UB | Diverge => Diverge end.
Proof.
  intros Hs Hg E. eapply mhistory_then; [|exact E]. apply mrun_agree; [intros o s' w; apply dl_step_ok; exact Hg|].
  apply dlR_init. exact Hs.
Qed.

(** ** Copying *)
Lemma sl_copy_loop_ok id src ys a x : id <> src -> (a, x) ∈ ys -> forall vs us lay st xs fuel p,
  inv false lay st -> tails lay st -> lay !! id = Some xs -> lay !! src = Some ys -> ys = us ++ vs -> 
  head (nodes vs ++ [Head src]) = Some p -> length vs < fuel -> grants (al_pol (l_al st)) ->
  exists st' xs', sl_copy_loop false fuel id (Node a) p (Head src) st = Ok (tt, st') /\
    inv false (<[id := xs']> lay) st' /\ tails (<[id := xs']> lay) st' /\ xs'.*2 = xs.*2 ++ repeat x (length vs) /\ al_pol (l_al st') = al_pol (l_al st).
Proof.
  intros Hne Hin. induction vs as [|[b z] vs IH]; intros us lay st xs fuel p H Ht Ei Es Ey Hp Hf Hg; (destruct fuel as [|fuel]; [lia|]); cbn [sl_copy_loop]; simpl in Hp; injection Hp as <-.
  - rewrite bool_decide_eq_true_2 by reflexivity. exists st, xs. split; [reflexivity|]. rewrite insert_id by exact Ei. simpl. rewrite app_nil_r. auto.
  - rewrite bool_decide_eq_false_2 by discriminate.
    rewrite (bind_ok _ _ _ _ _ (ld_dat_ok _ _ _ (i_dat _ _ _ H _ _ a x Es Hin))).
    destruct (sl_push_back_ok _ _ _ _ x H Ht Ei) as [(st1 & n & R1 & Hi & Ht1 & Hf1)|[_ Hr]]; [|destruct (grants_refuses _ _ Hg Hr)]. rewrite (bind_ok _ _ _ _ _ R1).
    assert (Es1 : <[id := xs ++ [(n, x)]]> lay !! src = Some ys) by (rewrite lookup_insert_ne by congruence; exact Es).
    destruct (head (nodes vs ++ [Head src])) as [q|] eqn:Eq; [|destruct vs; discriminate].
    assert (Hx : nx (l_cells st1) (Node b) = Some q).
    { pose proof Es1 as Es2. rewrite Ey in Es2. replace (us ++ (b, z) :: vs) with ((us ++ [(b, z)]) ++ vs) in Es2 by (rewrite <- app_assoc; reflexivity).
      eapply ring_next; [exact Hi|exact Es2| |exact Eq]. rewrite nodes_app, app_comm_cons. apply last_snoc. }
    rewrite (bind_ok _ _ _ _ _ (ld_next_ok' _ _ _ Hx)). cbn [nonnull]. rewrite bind_ret.
    destruct (IH (us ++ [(b, z)]) _ _ _ fuel q Hi Ht1 (lookup_insert _ _ _) Es1) as (st' & xs' & R2 & Hi2 & Ht2 & E2 & Hf2); [rewrite <- app_assoc; exact Ey|reflexivity|simpl in Hf; lia|rewrite Hf1; exact Hg|].
    exists st', xs'. split; [exact R2|]. rewrite insert_insert in Hi2, Ht2. split; [exact Hi2|]. split; [exact Ht2|].
    split; [rewrite E2, fmap_app, <- app_assoc; reflexivity|rewrite Hf2; exact Hf1].
Qed.

(** The target gets the first element over and over, and the source's first node
    as its tail. *)
Lemma sl_assign_does lay st id src xs a x ys : inv false lay st -> tails lay st -> lay !! id = Some xs -> lay !! src = Some ((a, x) :: ys) -> id <> src -> grants (al_pol (l_al st)) ->
  exists st' xs', sl_assign false id src st = Ok (tt, st') /\ inv false (<[id := xs']> lay) st' /\ xs'.*2 = repeat x (S (length ys)) /\
    l_tail st' !! id = Some (Node a) /\ al_pol (l_al st') = al_pol (l_al st).
Proof.
  intros H Ht Ei Es Hne Hg. unfold sl_assign. rewrite (proj2 (Nat.eqb_neq id src) Hne).
  destruct (last (Head id :: nodes xs)) as [t|] eqn:El; [|apply last_None in El; discriminate].
  destruct (sl_clear_ok _ _ _ _ t H Ei) as (st1 & R1 & Hi & Ht1 & Hf1); [rewrite (Ht _ _ Ei); exact El|].
  pose proof (tails_init _ _ _ _ Ht Ht1) as Ht1'. rewrite (bind_ok _ _ _ _ _ R1).
  assert (Es1 : <[id := []]> lay !! src = Some ((a, x) :: ys)) by (rewrite lookup_insert_ne by congruence; exact Es).
  rewrite (bind_ok _ _ _ _ _ (ld_size_ok _ _ _ (size_of _ _ _ _ _ Hi Es1))). cbn [length Nat.eqb].
  rewrite (bind_ok _ _ _ _ _ (ld_next_ok' _ _ _ (ring_next _ _ _ src [] _ _ Hi Es1 eq_refl (Node a) eq_refl))). cbn [nonnull]. rewrite bind_ret.
  destruct (head (nodes ys ++ [Head src])) as [q|] eqn:Eq; [|destruct ys; discriminate].
  rewrite (bind_ok _ _ _ _ _ (ld_next_ok' _ _ _ (ring_next _ _ _ src [(a, x)] ys _ Hi Es1 eq_refl q Eq))). cbn [nonnull]. rewrite bind_ret.
  destruct (sl_copy_loop_ok id src ((a, x) :: ys) a x Hne ltac:(left) ys [(a, x)] _ _ [] (S (size (l_cells st1))) q Hi Ht1' (lookup_insert _ _ _) Es1 eq_refl Eq) as (st2 & xs2 & R2 & Hi2 & Ht2 & E2 & Hf2).
  { pose proof (ring_fits _ _ _ _ _ Hi Es1) as Hf. simpl in Hf. lia. }
  { rewrite Hf1. exact Hg. }
  rewrite insert_insert in Hi2, Ht2.
  erewrite bind_ok by exact R2.
  assert (Es2 : <[id := xs2]> lay !! src = Some ((a, x) :: ys)) by (rewrite lookup_insert_ne by congruence; exact Es).
  rewrite (bind_ok _ _ _ _ _ (ld_dat_ok _ _ _ (i_dat _ _ _ Hi2 _ _ a x Es2 ltac:(left)))).
  destruct (sl_push_back_ok _ _ _ _ x Hi2 Ht2 (lookup_insert _ _ _)) as [(st3 & n & R3 & Hi3 & Ht3 & Hf3)|[_ Hr]]; [|rewrite Hf2, Hf1 in Hr; destruct (grants_refuses _ _ Hg Hr)]. rewrite insert_insert in Hi3, Ht3.
  rewrite (bind_ok _ _ _ _ _ R3). pose proof (Ht3 _ _ (lookup_insert _ _ _)) as Hl3.
  rewrite nodes_app, app_comm_cons in Hl3. change (nodes [(n, x)]) with [Node n] in Hl3. rewrite last_snoc in Hl3.
  exists (set_tails (<[id := Node a]> (l_tail st3)) st3), (xs2 ++ [(n, x)]). split; [erewrite st_tail_ok by exact Hl3; reflexivity|].
  split; [apply inv_tails; exact Hi3|]. split; [|split; [apply lookup_insert|cbn [set_tails l_al]; rewrite Hf3, Hf2; exact Hf1]].
  rewrite fmap_app, E2. simpl. rewrite <- repeat_cons. reflexivity.
Qed.

(** push_back on such a copy puts the new node into the source. *)
Lemma sl_push_foreign lay st id src xs a x ys y : inv false lay st -> lay !! id = Some xs -> lay !! src = Some ((a, x) :: ys) -> id <> src ->
  l_tail st !! id = Some (Node a) -> grants (al_pol (l_al st)) -> exists st',
  sl_push_back false id y st = Ok (tt, st') /\
  ll_iter src st' = Ok (x :: y :: ys.*2, st') /\ ll_iter id st' = Ok (xs.*2, st') /\
  l_size st' !! id = Some (S (length xs)) /\ l_size st' !! src = Some (S (length ys)).
Proof.
  intros H Ei Es Hne Htl Hg. destruct (Hg _ (i_served _ _ _ H)) as [n Hn]. change (al_pick (l_al st) = Some n) in Hn.
  destruct (prep_ok _ _ _ _ _ y n H Ei Hn) as (C1 & R1 & F1 & D1 & Dn & Dh).
  pose proof (fresh_notin _ _ _ _ _ _ H Es Hn) as Hfr. pose proof (fresh_notin _ _ _ _ _ _ H Ei Hn) as Hfri.
  unfold sl_push_back. rewrite R1. erewrite bind_ok by (apply ld_tail_ok; exact Htl).
  destruct (head (nodes ys ++ [Head src])) as [q|] eqn:Eq; [|destruct ys; discriminate].
  pose proof (ring_next _ _ _ src [(a, x)] ys _ H Es eq_refl q Eq) as Hq.
  assert (Hin : forall r, r ∈ Head src :: nodes ((a, x) :: ys) -> r <> Node n).
  { intros r [->|Hr]%elem_points; [discriminate|]. intros ->. apply elem_nodes in Hr. contradiction. }
  assert (Hqin : q ∈ Head src :: nodes ((a, x) :: ys)).
  { assert (Hx : q ∈ nodes ys ++ [Head src]) by (apply head_Some_elem_of; exact Eq).
    apply elem_of_app in Hx as [Hx| ->%elem_of_list_singleton]; [right; right; exact Hx|left]. }
  assert (Hain : Node a ∈ Head src :: nodes ((a, x) :: ys)) by (right; left).
  set (st1 := LSt C1 (al_got n (l_al st)) (l_size st) (l_tail st)).
  destruct (link_add_ok false st1 (Node a) (Node n) q) as (C2 & R2 & N2 & _ & D2).
  { simpl. destruct (F1 (Node a) (Hin _ Hain)) as [-> _]. exact Hq. }
  { simpl. rewrite D1; [eapply i_points; [exact H|exact Es|exact Hqin]|apply Hin; exact Hqin|].
    intros ->. apply elem_points in Hqin as [[=]|Hx]; [congruence|]. apply (head_nodes _ _ Hx). }
  { simpl. rewrite Dn. eauto. }
  { intros Hx. apply (Hin _ Hain). congruence. }
  { intros Hx. apply (Hin _ Hqin). congruence. }
  simpl in N2, D2. rewrite (bind_ok _ _ _ _ _ R2).
  pose proof (size_of _ _ _ _ _ H Ei) as Hsz. erewrite bind_ok by (apply ld_size_ok; exact Hsz).
  erewrite bind_ok by (eapply st_size_ok; exact Hsz). erewrite st_tail_ok by exact Htl.
  eexists. split; [reflexivity|]. cbn [l_cells l_size l_al l_tail set_cells st1].
  pose proof (i_nodup _ _ _ H _ _ Es) as Hnd. pose proof (i_nodup _ _ _ H _ _ Ei) as Hndi.
  assert (Dother : forall b z zs j, lay !! j = Some zs -> (b, z) ∈ zs -> dt C2 (Node b) = Some z).
  { intros b z zs j Ej Hb. rewrite D2, D1; [eapply i_dat; eassumption| |discriminate].
    intros [= ->]. apply (fresh_notin _ _ _ _ _ _ H Ej Hn). apply elem_of_list_fmap. exists (n, z). auto. }
  assert (Hns : q <> Node a).
  { intros ->. assert (Hx : Node a ∈ nodes ys ++ [Head src]) by (apply head_Some_elem_of; exact Eq).
    apply elem_of_app in Hx as [Hx|Hx%elem_of_list_singleton]; [|discriminate]. apply elem_nodes in Hx.
    simpl in Hnd. apply NoDup_cons in Hnd as [Hnd _]. contradiction. }
  split; [|split; [|split]].
  - change (x :: y :: ys.*2) with (((a, x) :: (n, y) :: ys).*2). apply (iter_ring false); cbn [l_cells].
    + rewrite D2, D1; [apply (i_heads _ _ _ H); eauto|discriminate|congruence].
    + destruct (ringl_split src [(a, x)] ys) as (l1 & p' & q' & l2 & E1 & Hp' & E2 & Hq' & Hspl).
      simpl in Hp'. injection Hp' as <-. rewrite Eq in Hq'. injection Hq' as <-.
      pose proof (Hspl []) as Hs0. pose proof (Hspl [(n, y)]) as Hs1. cbn [app nodes fmap list_fmap fst] in Hs0, Hs1.
      change ((a, x) :: (n, y) :: ys) with ([(a, x)] ++ [(n, y)] ++ ys). cbn [app]. rewrite Hs1.
      apply (path_insert false (nx C1) (pv C1)).
      * rewrite <- Hs0. apply ringl_nodup1. exact Hnd.
      * rewrite <- Hs0. apply ringl_nodup2. exact Hnd.
      * rewrite <- Hs0. unfold ringl. intros [?|[Hi|?%elem_of_list_singleton]%elem_of_app]%elem_of_cons; [discriminate| |discriminate].
        apply elem_nodes in Hi. contradiction.
      * rewrite <- Hs0. apply (path_frame false (nx (l_cells st)) (pv (l_cells st))); [apply (i_ring _ _ _ H _ _ Es)| |discriminate].
        intros r Hr. rewrite ringl_removelast in Hr. apply F1. apply Hin. exact Hr.
      * exact N2.
      * discriminate.
    + intros b z [[= -> ->]|[[= -> ->]|Hb]%elem_of_cons]%elem_of_cons; [eapply Dother; [exact Es|left]|rewrite D2; exact Dn|].
      eapply Dother; [exact Es|right; exact Hb].
    + simpl in *. rewrite not_elem_of_cons in Hfr. destruct Hfr as [Hf1 Hf2]. apply NoDup_cons in Hnd as [Hnd1 Hnd2].
      apply NoDup_cons. split; [intros [?|?]%elem_of_cons; [congruence|contradiction]|]. apply NoDup_cons. auto.
  - apply (iter_ring false); cbn [l_cells].
    + rewrite D2, Dh. eauto.
    + apply (path_frame false (nx (l_cells st)) (pv (l_cells st))); [apply (i_ring _ _ _ H _ _ Ei)| |discriminate].
      intros r Hr. rewrite ringl_removelast in Hr. rewrite N2.
      assert (Hra : r <> Node a).
      { intros ->. apply elem_points in Hr as [?|Hr]; [discriminate|]. apply elem_nodes in Hr. apply Hne.
        apply (i_disj _ _ _ H _ _ _ _ a Ei Es Hr). left. }
      assert (Hrn : r <> Node n). { intros ->. apply elem_points in Hr as [?|Hr]; [discriminate|]. apply elem_nodes in Hr. contradiction. }
      rewrite !decide_False by assumption. apply F1. exact Hrn.
    + intros b z Hb. eapply Dother; [exact Ei|exact Hb].
    + exact Hndi.
  - rewrite lookup_insert. reflexivity.
  - rewrite lookup_insert_ne by congruence. apply (size_of _ _ _ _ _ H Es).
Qed.

Theorem sl_copy_refuted : forall pol ops rs s id src x l o y, sound pol -> grants pol ->
  srun (ls_step false) ops ∅ = SVal (rs, s) -> s !! src = Some (x :: l) -> id <> src ->
  ((o = LCopyNew id src /\ s !! id = None) \/ (o = LAssign id src /\ is_Some (s !! id))) ->
  exists w, mrun (sl_step junk) (ops ++ [o; LIter id; LPushBack id y; LIter src; LIter id; LSize id; LSize src]) (lst_init pol)
    = Ok (rs ++ [RUnit; RList (repeat x (S (length l))); RUnit; RList (x :: y :: l); RList (repeat x (S (length l)));
                 RNat (S (S (length l))); RNat (S (length l))], w).
Proof.
  intros pol ops rs s id src x l o y Hsd Hg Hrun Hsrc Hne Ho. destruct (sl_reached _ _ _ _ Hsd Hg Hrun) as (w & (lay & Hs & H & Ht & Hpol) & Hthen).
  rewrite Hthen. clear Hthen. destruct (dlR_look _ _ _ _ Hs Hsrc) as (ys & Es & Ey). destruct ys as [|[a x'] ys]; [discriminate|]. injection Ey as <- ->.
  assert (Hcopy : exists w1 lay' xs, sl_step junk o w = Ok (RUnit, w1) /\ inv false lay' w1 /\ lay' !! id = Some xs /\ lay' !! src = Some ((a, x) :: ys) /\
      xs.*2 = repeat x (S (length ys)) /\ l_tail w1 !! id = Some (Node a) /\ grants (al_pol (l_al w1))).
  { destruct Ho as [[-> Hid]|[-> [l0 Hid]]]; cbn [sl_step].
    - pose proof (dlR_none _ _ _ Hs Hid) as Ei. destruct (init_ok junk false _ _ _ H Ei) as (w0 & R0 & Hi0 & Ht0 & Hf0). pose proof (tails_init _ _ _ _ Ht Ht0) as Ht0'.
      assert (Es0 : <[id := []]> lay !! src = Some ((a, x) :: ys)) by (rewrite lookup_insert_ne by congruence; exact Es).
      destruct (sl_assign_does _ _ id src [] a x ys Hi0 Ht0' (lookup_insert _ _ _) Es0 Hne) as (w1 & xs' & R1 & Hi1 & Ex & Hl & Hf1); [rewrite Hf0, Hpol; exact Hg|].
      exists w1, (<[id := xs']> lay), xs'. rewrite insert_insert in Hi1. split; [apply unit_out_ok; rewrite (bind_ok _ _ _ _ _ R0); exact R1|].
      rewrite lookup_insert, lookup_insert_ne, Hf1, ?Hf0, Hpol by congruence. auto 10.
    - destruct (dlR_look _ _ _ _ Hs Hid) as (xs & Ei & _).
      destruct (sl_assign_does _ _ id src xs a x ys H Ht Ei Es Hne) as (w1 & xs' & R1 & Hi1 & Ex & Hl & Hf1); [rewrite Hpol; exact Hg|].
      exists w1, (<[id := xs']> lay), xs'. split; [apply unit_out_ok; exact R1|].
      rewrite lookup_insert, lookup_insert_ne, Hf1, ?Hf0, Hpol by congruence. auto 10. }
  destruct Hcopy as (w1 & lay' & xs & R1 & H1 & Ei1 & Es1 & Ex & Hl1 & Hg1).
  destruct (sl_push_foreign lay' w1 id src xs a x ys y H1 Ei1 Es1 Hne Hl1 Hg1) as (w2 & R2 & Its & Iti & Si & Ss).
  rewrite fmap_length, <- Ex. exists w2.
  rewrite (mrun_cons _ _ _ _ _ _ R1).
  rewrite (mrun_cons _ _ _ _ (RList (xs.*2)) w1) by (cbn [sl_step]; erewrite bind_ok by (eapply iter_ok; [exact H1|exact Ei1]); reflexivity).
  rewrite (mrun_cons _ _ _ _ RUnit w2) by (cbn [sl_step]; apply unit_out_ok; exact R2).
  rewrite (mrun_cons _ _ _ _ (RList (x :: y :: ys.*2)) w2) by (cbn [sl_step]; erewrite bind_ok by exact Its; reflexivity).
  rewrite (mrun_cons _ _ _ _ (RList (xs.*2)) w2) by (cbn [sl_step]; erewrite bind_ok by exact Iti; reflexivity).
  assert (El : length xs = S (length ys)) by (rewrite <- (fmap_length snd xs), Ex, repeat_length; reflexivity).
  rewrite (mrun_cons _ _ _ _ (RNat (S (S (length ys)))) w2) by (cbn [sl_step]; erewrite bind_ok by (apply ld_size_ok; exact Si); rewrite El; reflexivity).
  rewrite (mrun_cons _ _ _ _ (RNat (S (length ys))) w2) by (cbn [sl_step]; erewrite bind_ok by (apply ld_size_ok; exact Ss); reflexivity).
  reflexivity.
Qed.

(** ** push and pop *)
Theorem sl_push_refuted : forall pol ops rs s id x y, sound pol -> grants pol ->
  srun (ls_step false) ops ∅ = SVal (rs, s) -> s !! id = Some [] ->
  exists w, mrun (sl_step junk) (ops ++ [LPush id x; LPushBack id y; LIter id; LBack id]) (lst_init pol) = Ok (rs ++ [RUnit; RUnit; RList [y; x]; RVal y], w).
Proof.
  intros pol ops rs s id x y Hsd Hg Hrun Hid. destruct (sl_reached _ _ _ _ Hsd Hg Hrun) as (w & (lay & Hs & H & Ht & Hpol) & Hthen).
  rewrite Hthen. clear Hthen. destruct (dlR_look _ _ _ _ Hs Hid) as (xs & Ei & Ey). symmetry in Ey. apply fmap_nil_inv in Ey. subst xs.
  destruct (push_front_ok false _ _ _ _ x H Ei) as [(w1 & n & R1 & H1 & Ht1 & _ & Hf1)|[_ Hr]]; [|rewrite Hpol in Hr; destruct (grants_refuses _ _ Hg Hr)].
  destruct (Hg (al_log (l_al w1))) as [n2 Hn2]; [rewrite <- Hpol, <- Hf1; apply (i_served _ _ _ H1)|].
  destruct (sl_push_back_at _ w1 id [] [(n, x)] y (Head id) n2 H1 (lookup_insert _ _ _) eq_refl) as (w2 & R2 & H2 & Ht2 & _).
  { rewrite Ht1. apply (Ht _ _ Ei). }
  { unfold al_pick. rewrite Hf1, Hpol. exact Hn2. }
  rewrite insert_insert in H2. simpl app in H2. exists w2.
  rewrite (mrun_cons _ _ _ _ RUnit w1) by (cbn [sl_step]; apply unit_out_ok; exact R1).
  rewrite (mrun_cons _ _ _ _ RUnit w2) by (cbn [sl_step]; apply unit_out_ok; exact R2).
  rewrite (mrun_cons _ _ _ _ (RList [y; x]) w2) by (cbn [sl_step]; erewrite bind_ok by (eapply iter_ok; [exact H2|apply lookup_insert]); reflexivity).
  rewrite (mrun_cons _ _ _ _ (RVal y) w2); [reflexivity|]. cbn [sl_step].
  erewrite bind_ok; [reflexivity|]. unfold sl_back. rewrite (bind_ok _ _ _ _ _ (ld_size_ok _ _ _ (size_of _ _ _ _ _ H2 (lookup_insert _ _ _)))).
  cbn [length Nat.ltb Nat.leb dassert]. rewrite bind_ret.
  erewrite bind_ok by (apply ld_tail_ok; rewrite Ht2; apply lookup_insert).
  apply ld_dat_ok. eapply i_dat; [exact H2|apply lookup_insert|left].
Qed.

(** The tail pointer still designates the freed node: the next push_back uses
    it, or, when the new node has the address of the freed one, links the node
    to itself. *)
Lemma sl_pop_then pol ops rs s id x y : sound pol -> grants pol ->
  srun (ls_step false) ops ∅ = SVal (rs, s) -> s !! id = Some [x] ->
  exists log a n, pol (Gave a :: log) = Some n /\ a ∈ al_live log /\
  ((a <> n /\ mrun (sl_step junk) (ops ++ [LPop id; LPushBack id y]) (lst_init pol) = UB) \/
   (a = n /\ exists w, mrun (sl_step junk) (ops ++ [LPop id; LPushBack id y; LSize id; LIter id]) (lst_init pol) = Ok (rs ++ [RUnit; RUnit; RNat 1; RList []], w))).
Proof.
  intros Hsd Hg Hrun Hid. destruct (sl_reached _ _ _ _ Hsd Hg Hrun) as (w & (lay & Hs & H & Ht & Hpol) & Hthen).
  rewrite !Hthen. clear Hthen. destruct (dlR_look _ _ _ _ Hs Hid) as (xs & Ei & Ey).
  destruct xs as [|[a x'] [|]]; try discriminate. injection Ey as <-.
  destruct (pop_front_ok false _ _ _ _ _ _ H Ei) as (w1 & R1 & H1 & Ht1 & Hd & Hf).
  rewrite (mrun_cons _ _ [LPushBack id y] _ RUnit w1) by (cbn [sl_step]; apply unit_out_ok; exact R1).
  rewrite (mrun_cons _ _ [LPushBack id y; LSize id; LIter id] _ RUnit w1) by (cbn [sl_step]; apply unit_out_ok; exact R1).
  assert (Hf1 : al_pol (l_al w1) = pol) by (rewrite Hf; exact Hpol).
  destruct (Hg (al_log (l_al w1))) as [n Hn0]; [rewrite <- Hf1; apply (i_served _ _ _ H1)|].
  assert (Hn : al_pick (l_al w1) = Some n) by (unfold al_pick; rewrite Hf1; exact Hn0).
  exists (al_log (l_al w)), a, n. split; [rewrite Hf in Hn0; exact Hn0|].
  split; [apply (i_al _ _ _ H); eapply i_live; [exact H|exact Ei|left]|].
  destruct (prep_ok _ _ _ _ _ y n H1 (lookup_insert _ _ _) Hn) as (C1 & R2 & F1 & D1 & Dn & Dh).
  destruct (decide (a = n)) as [->|Hne].
  - right. split; [reflexivity|]. apply dt_some in Dn as (c & Ec & Hc).
    set (st1 := LSt C1 (al_got n (l_al w1)) (l_size w1) (l_tail w1)).
    assert (Hl1 : is_Some (dt (l_cells st1) (Node n))) by (unfold dt; simpl; rewrite Ec; eauto).
    destruct (st_next_ok st1 (Node n) (c_next c) Hl1) as (C2 & R3 & N3 & P3 & D3).
    assert (Hl2 : is_Some (dt (l_cells (set_cells C2 st1)) (Node n))) by (cbn [set_cells l_cells]; rewrite D3; exact Hl1).
    destruct (st_next_ok (set_cells C2 st1) (Node n) (Some (Node n)) Hl2) as (C3 & R4 & N4 & P4 & D4). cbn [set_cells l_cells] in N4, D4.
    assert (Htl : l_tail w1 !! id = Some (Node n)) by (rewrite Ht1; apply (Ht _ _ Ei)).
    pose proof (size_of _ _ _ _ _ H1 (lookup_insert _ _ _)) as Hsz.
    assert (Hok : sl_push_back false id y w1 = Ok (tt, LSt C3 (al_got n (l_al w1)) (<[id := 1]> (l_size w1)) (<[id := Node n]> (l_tail w1)))).
    { unfold sl_push_back. rewrite R2. erewrite bind_ok by (apply ld_tail_ok; exact Htl).
      erewrite bind_ok; [|unfold link_add, slink_add; erewrite bind_ok;
        [|unfold ld_next; rewrite (bind_ok _ _ st1 c st1) by (unfold ld; simpl; rewrite Ec; reflexivity); reflexivity];
        rewrite (bind_ok _ _ _ _ _ R3); exact R4].
      erewrite bind_ok by (apply ld_size_ok; exact Hsz). erewrite bind_ok by (eapply st_size_ok; exact Hsz). erewrite st_tail_ok by exact Htl. reflexivity. }
    eexists. rewrite (mrun_cons _ _ _ _ RUnit _) by (cbn [sl_step]; apply unit_out_ok; exact Hok).
    erewrite (mrun_cons _ _ _ _ (RNat 1)) by (cbn [sl_step]; erewrite bind_ok by (apply ld_size_ok; cbn [l_size]; apply lookup_insert); reflexivity).
    erewrite (mrun_cons _ _ _ _ (RList [])); [reflexivity|].
    cbn [sl_step]. erewrite bind_ok; [reflexivity|].
    change (@nil A) with ((@nil (nat * A)).*2).
    apply (iter_ring false); cbn [l_cells]; [rewrite D4, D3; cbn [st1 l_cells]; rewrite Dh; eauto| |intros b z Hb; inversion Hb|constructor].
    pose proof (i_ring _ _ _ H1 _ _ (lookup_insert _ _ _)) as [[Hx _] _].
    split; [|exact I]. split; [|discriminate]. rewrite N4, decide_False, N3, decide_False by discriminate. cbn [st1 l_cells].
    destruct (F1 (Head id)) as [-> _]; [discriminate|]. exact Hx.
  - left. split; [exact Hne|]. assert (Hub : sl_push_back false id y w1 = UB).
    { unfold sl_push_back. rewrite R2. erewrite bind_ok by (apply ld_tail_ok; simpl; rewrite Ht1; apply (Ht _ _ Ei)).
      apply bind_ub. unfold link_add, slink_add. apply bind_ub. unfold ld_next, ld. apply bind_ub. simpl.
      assert (Hda : dt C1 (Node a) = None) by (rewrite D1; [exact Hd|congruence|discriminate]).
      unfold dt in Hda. destruct (C1 !! Node a); [discriminate|reflexivity]. }
    cbn [mrun sl_step]. unfold unit_out. rewrite (bind_ub _ _ _ (bind_ub _ _ _ Hub)). reflexivity.
Qed.
Theorem sl_pop_refuted : forall pol ops rs s id x y, sound pol -> grants pol ->
  srun (ls_step false) ops ∅ = SVal (rs, s) -> s !! id = Some [x] ->
  mrun (sl_step junk) (ops ++ [LPop id; LPushBack id y]) (lst_init pol) = UB \/
  exists w, mrun (sl_step junk) (ops ++ [LPop id; LPushBack id y; LSize id; LIter id]) (lst_init pol) = Ok (rs ++ [RUnit; RUnit; RNat 1; RList []], w).
Proof.
  intros pol ops rs s id x y Hsd Hg Hrun Hid.
  destruct (sl_pop_then pol ops rs s id x y Hsd Hg Hrun Hid) as (log & a & n & _ & _ & [[_ H]|[_ H]]); auto.
Qed.
(** Which of the two depends on the allocator. *)
Theorem sl_pop_refuted_new : forall ops rs s id x y,
  srun (ls_step false) ops ∅ = SVal (rs, s) -> s !! id = Some [x] ->
  mrun (sl_step junk) (ops ++ [LPop id; LPushBack id y]) (lst_init bump) = UB.
Proof.
  intros ops rs s id x y Hrun Hid.
  destruct (sl_pop_then bump ops rs s id x y bump_sound bump_grants Hrun Hid) as (log & a & n & Hp & Ha & [[_ H]|[-> _]]); [exact H|].
  exfalso. injection Hp as Hp. simpl in Hp. apply live_top in Ha. lia.
Qed.
Theorem sl_pop_refuted_reuse : forall ops rs s id x y,
  srun (ls_step false) ops ∅ = SVal (rs, s) -> s !! id = Some [x] ->
  exists w, mrun (sl_step junk) (ops ++ [LPop id; LPushBack id y; LSize id; LIter id]) (lst_init last_back) = Ok (rs ++ [RUnit; RUnit; RNat 1; RList []], w).
Proof.
  intros ops rs s id x y Hrun Hid.
  destruct (sl_pop_then last_back ops rs s id x y last_back_sound last_back_grants Hrun Hid) as (log & a & n & Hp & Ha & [[Hne _]|[_ H]]); [|exact H].
  exfalso. injection Hp as ->. auto.
Qed.
End SL.

(** ** Moving from an empty list *)
Section MoveEmpty.
Context {A : Type} (junk : A).
Implicit Types (st : lst A) (lay : gmap nat (list (nat * A))).

(** The two heads end up linked to each other. *)
Definition crossed (id src : nat) st : Prop :=
  nx (l_cells st) (Head id) = Some (Head src) /\ nx (l_cells st) (Head src) = Some (Head id) /\
  l_size st !! id = Some 0 /\ l_size st !! src = Some 0.

Lemma crossed_empty id src st k j : crossed id src st -> id <> src -> (k = id /\ j = src \/ k = src /\ j = id) -> ll_empty k st = Abort.
Proof.
  intros (N1 & N2 & S1 & S2) Hne Hk. unfold ll_empty.
  assert (Hs : l_size st !! k = Some 0) by (destruct Hk as [[-> ->]|[-> ->]]; assumption).
  assert (Hn : nx (l_cells st) (Head k) = Some (Head j)) by (destruct Hk as [[-> ->]|[-> ->]]; assumption).
  rewrite (bind_ok _ _ _ _ _ (ld_size_ok _ _ _ Hs)). cbn [Nat.eqb]. rewrite (bind_ok _ _ _ _ _ (ld_next_ok' _ _ _ Hn)).
  rewrite bool_decide_eq_false_2; [reflexivity|]. destruct Hk as [[-> ->]|[-> ->]]; congruence.
Qed.
Lemma crossed_clear d id src st k : crossed id src st -> id <> src -> k = id \/ k = src -> ll_clear d k st = Abort.
Proof.
  intros H Hne Hk. assert (Hs : l_size st !! k = Some 0) by (destruct H as (_ & _ & S1 & S2); destruct Hk as [->| ->]; assumption).
  unfold ll_clear. rewrite (bind_ok _ _ _ _ _ (ld_size_ok _ _ _ Hs)). cbn [ll_clear_loop]. apply bind_abort.
  destruct Hk as [->| ->]; eapply crossed_empty; eauto.
Qed.

Lemma dl_move_crossed lay st id src xs : inv true lay st -> lay !! id = Some xs -> lay !! src = Some [] -> id <> src ->
  exists st', dl_move true id src st = Ok (tt, st') /\ crossed id src st'.
Proof.
  intros H Ei Es Hne.
  destruct (base_move _ _ _ _ _ _ _ H Ei Es Hne) as (st1 & st2 & Hi & _ & R & _ & Hf & Hs & N & P & D). specialize (P eq_refl).
  assert (Es1 : <[id := []]> lay !! src = Some []) by (rewrite lookup_insert_ne by congruence; exact Es).
  pose proof (i_ring _ _ _ Hi _ _ Es1) as [[Hn1 Hp1] _]. specialize (Hp1 eq_refl).
  assert (Hls : is_Some (dt (l_cells st1) (Head src))) by (apply (i_heads _ _ _ Hi); eauto).
  unfold dl_move. rewrite (proj2 (Nat.eqb_neq id src) Hne). rewrite (bind_ok _ _ _ _ _ R).
  assert (Hp2 : pv (l_cells st2) (Head id) = Some (Head src)) by (rewrite P, decide_False, decide_True by congruence; exact Hp1).
  rewrite (bind_ok _ _ _ _ _ (ld_prev_ok' _ _ _ Hp2)). cbn [nonnull]. rewrite bind_ret.
  destruct (st_next_ok st2 (Head src) (Some (Head id))) as (C3 & R3 & N3 & P3 & D3); [rewrite D, decide_False by congruence; exact Hls|].
  rewrite (bind_ok _ _ _ _ _ R3).
  assert (Hn3 : nx C3 (Head id) = Some (Head src)) by (rewrite N3, decide_False, N, decide_False, decide_True by congruence; exact Hn1).
  rewrite (bind_ok _ _ _ _ _ (ld_next_ok' (set_cells C3 st2) _ _ Hn3)). cbn [nonnull]. rewrite bind_ret.
  destruct (st_prev_ok (set_cells C3 st2) (Head src) (Some (Head id))) as (C4 & R4 & N4 & P4 & D4).
  { simpl. rewrite D3, D, decide_False by congruence. exact Hls. }
  simpl in N4. eexists. split; [exact R4|]. unfold crossed. cbn [l_cells set_cells l_size]. rewrite !N4, Hn3, N3, decide_True by reflexivity.
  rewrite Hs. rewrite lookup_insert, lookup_insert_ne, lookup_insert by congruence. auto.
Qed.

Lemma sl_move_crossed lay st id src xs : inv false lay st -> tails lay st -> lay !! id = Some xs -> lay !! src = Some [] -> id <> src ->
  exists st', sl_move false id src st = Ok (tt, st') /\ crossed id src st'.
Proof.
  intros H Ht Ei Es Hne.
  destruct (base_move _ _ _ _ _ _ _ H Ei Es Hne) as (st1 & st2 & Hi & Ht1 & R & Ht2 & Hf & Hs & N & P & D).
  assert (Es1 : <[id := []]> lay !! src = Some []) by (rewrite lookup_insert_ne by congruence; exact Es).
  pose proof (i_ring _ _ _ Hi _ _ Es1) as [[Hn1 _] _].
  assert (Hls : is_Some (dt (l_cells st1) (Head src))) by (apply (i_heads _ _ _ Hi); eauto).
  assert (Hts : l_tail st2 !! src = Some (Head src)) by (rewrite Ht2, (Ht _ _ Es); reflexivity).
  assert (Hti : exists t, l_tail st2 !! id = Some t).
  { rewrite Ht2, (Ht _ _ Ei). destruct (last (Head id :: nodes xs)) eqn:El; [eauto|]. apply last_None in El. discriminate. }
  destruct Hti as [ti Hti].
  unfold sl_move. rewrite (proj2 (Nat.eqb_neq id src) Hne). rewrite (bind_ok _ _ _ _ _ R).
  rewrite (bind_ok _ _ _ _ _ (ld_tail_ok _ _ _ Hts)). erewrite bind_ok by (eapply st_tail_ok; exact Hti).
  destruct (st_next_ok (LSt (l_cells st2) (l_al st2) (l_size st2) (<[id := Head src]> (l_tail st2))) (Head src) (Some (Head id))) as (C3 & R3 & N3 & P3 & D3).
  { simpl. rewrite D, decide_False by congruence. exact Hls. }
  simpl in N3. rewrite (bind_ok _ _ _ _ _ R3). cbn [set_cells l_al l_size l_tail].
  eexists. split; [eapply st_tail_ok; simpl; rewrite lookup_insert_ne by congruence; exact Hts|].
  unfold crossed. cbn [l_cells set_cells l_size]. rewrite Hs. split; [|split; [|split]].
  - rewrite N3, decide_False, N, decide_False, decide_True by congruence. exact Hn1.
  - rewrite N3, decide_True by reflexivity. reflexivity.
  - rewrite lookup_insert_ne, lookup_insert by congruence. reflexivity.
  - apply lookup_insert.
Qed.

Definition step_of (dbl : bool) : lop A -> M (lst A) (out A) := if dbl then dl_step junk else sl_step junk.
Theorem move_empty_refuted : forall (dbl : bool) pol ops rs s id src o o2, sound pol -> grants pol ->
  srun (ls_step dbl) ops ∅ = SVal (rs, s) -> s !! src = Some [] -> id <> src ->
  ((o = LMoveNew id src /\ s !! id = None) \/ (o = LMoveAssign id src /\ is_Some (s !! id))) ->
  o2 ∈ [LEmpty id; LEmpty src; LClear id; LClear src; LDestroy id; LDestroy src] ->
  (exists w, mrun (step_of dbl) (ops ++ [o]) (lst_init pol) = Ok (rs ++ [RUnit], w)) /\
  mrun (step_of dbl) (ops ++ [o; o2]) (lst_init pol) = Abort.
Proof.
  intros dbl pol ops rs s id src o o2 Hsd Hg Hrun Hsrc Hne Ho Ho2.
  assert (Hend : forall w w1, step_of dbl o w = Ok (RUnit, w1) -> crossed id src w1 ->
    mrun (step_of dbl) [o] w = Ok ([RUnit], w1) /\ mrun (step_of dbl) [o; o2] w = Abort).
  { intros w w1 R Hc. rewrite !(mrun_cons _ _ _ _ _ _ R). split; [reflexivity|].
    assert (Ha : step_of dbl o2 w1 = Abort).
    { rewrite !elem_of_cons in Ho2. destruct Ho2 as [->|[->|[->|[->|[->|[->|Hx]]]]]]; [| | | | | |inversion Hx]; unfold step_of; destruct dbl; cbn [dl_step sl_step];
        unfold unit_out, ll_destroy, sl_clear; do 4 (try first [solve [eapply crossed_empty; eauto]|solve [eapply crossed_clear; eauto]|apply bind_abort]). }
    cbn [mrun]. rewrite (bind_abort _ _ _ Ha). reflexivity. }
  destruct dbl; unfold step_of in *.
  - destruct (dl_reached junk _ _ _ _ Hsd Hg Hrun) as (w & (lay & Hs & H & _) & Hthen). rewrite !Hthen. clear Hthen.
    destruct (dlR_look _ _ _ _ Hs Hsrc) as (ys & Es & Ey). symmetry in Ey. apply fmap_nil_inv in Ey. subst ys.
    assert (Hmv : exists w1, dl_step junk o w = Ok (RUnit, w1) /\ crossed id src w1).
    { destruct Ho as [[-> Hid]|[-> [l0 Hid]]]; cbn [dl_step].
      - pose proof (dlR_none _ _ _ Hs Hid) as Ei. destruct (init_ok junk true _ _ _ H Ei) as (w0 & R0 & Hi0 & _).
        destruct (dl_move_crossed _ _ id src [] Hi0 (lookup_insert _ _ _)) as (w1 & R1 & Hc); [rewrite lookup_insert_ne by congruence; exact Es|exact Hne|].
        exists w1. split; [apply unit_out_ok; rewrite (bind_ok _ _ _ _ _ R0); exact R1|exact Hc].
      - destruct (dlR_look _ _ _ _ Hs Hid) as (xs & Ei & _). destruct (dl_move_crossed _ _ id src xs H Ei Es Hne) as (w1 & R1 & Hc).
        exists w1. split; [apply unit_out_ok; exact R1|exact Hc]. }
    destruct Hmv as (w1 & R & Hc). destruct (Hend _ _ R Hc) as [E1 E2]. rewrite E1, E2. split; [eauto|reflexivity].
  - destruct (sl_reached junk _ _ _ _ Hsd Hg Hrun) as (w & (lay & Hs & H & Ht & _) & Hthen). rewrite !Hthen. clear Hthen.
    destruct (dlR_look _ _ _ _ Hs Hsrc) as (ys & Es & Ey). symmetry in Ey. apply fmap_nil_inv in Ey. subst ys.
    assert (Hmv : exists w1, sl_step junk o w = Ok (RUnit, w1) /\ crossed id src w1).
    { destruct Ho as [[-> Hid]|[-> [l0 Hid]]]; cbn [sl_step].
      - pose proof (dlR_none _ _ _ Hs Hid) as Ei. destruct (init_ok junk false _ _ _ H Ei) as (w0 & R0 & Hi0 & Ht0 & _). pose proof (tails_init _ _ _ _ Ht Ht0) as Ht0'.
        destruct (sl_move_crossed _ _ id src [] Hi0 Ht0' (lookup_insert _ _ _)) as (w1 & R1 & Hc); [rewrite lookup_insert_ne by congruence; exact Es|exact Hne|].
        exists w1. split; [apply unit_out_ok; rewrite (bind_ok _ _ _ _ _ R0); exact R1|exact Hc].
      - destruct (dlR_look _ _ _ _ Hs Hid) as (xs & Ei & _). destruct (sl_move_crossed _ _ id src xs H Ht Ei Es Hne) as (w1 & R1 & Hc).
        exists w1. split; [apply unit_out_ok; exact R1|exact Hc]. }
    destruct Hmv as (w1 & R & Hc). destruct (Hend _ _ R Hc) as [E1 E2]. rewrite E1, E2. split; [eauto|reflexivity].
Qed.
End MoveEmpty.
