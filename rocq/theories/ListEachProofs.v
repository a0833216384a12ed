(** for_each with callbacks that use the lists. *)
From Verif Require Import Base Alloc AllocProofs VectorModel VectorSpec Adapter Hist ListModel ListSpec ListProofs ListHist ListHist2 ListHist3 ListIterModel ListIterSpec ListIterProofs AlgoIterModel ListEachModel ListEachSpec.

Section Near.
Context {A : Type} (junk : A) (dbl : bool) (pol : policy).
Notation iRf := (iRf (A := A) dbl pol).
Notation F := (fun s : ispec => refuses pol (elements_total (strip (s_lists s)))).

Local Notation get_it_ok := (@ListIterProofs.get_it_ok A _ _).
Local Notation set_it_R := (@ListIterProofs.set_it_R A _ _).
Local Notation it_below := (@ListIterProofs.it_below A _ _).
Local Notation it_next_ok := (@ListIterProofs.it_next_ok A _ _).
Local Notation it_prev_ok := (@ListIterProofs.it_prev_ok A _ _).

(** The elements there were are where they were. *)
Definition near (f : nat -> nat) (n : nat) (s' : ispec) (w' : iworld A) : Prop :=
  n <= s_next s' /\ exists g, (forall m, m < n -> g m = f m) /\ iRf g s' w'.
Lemma near_same f n s' w' : s_next s' = n -> iRf f s' w' -> near f n s' w'.
Proof. intros <- H. split; [lia|]. exists f. auto. Qed.
Lemma step_near o f s w : iRf f s w -> magree_or (near f (s_next s)) F (is_step dbl o s) (it_step junk dbl o w).
Proof.
  intros H. destruct o; cbn [is_step it_step].
  - destruct H as (H1 & H2 & H3 & H4 & H5 & H6). destruct s as [l n its]. cbn [s_lists s_next s_its] in *.
    assert (L : lagree dbl n f pol (lists_step dbl o (ISpec l n its)) ((if dbl then dl_step junk o else sl_step junk o) (fst w))).
    { destruct dbl; rewrite <- H6; [apply dl_lists; assumption|apply sl_lists; [exact H1|apply H2; reflexivity|exact H3]]. }
    pose proof (lists_step_below dbl o (ISpec l n its)) as B. cbn [s_lists s_next s_its] in B.
    assert (G : magree_or (fun _ _ => True) (fun s' => refuses pol (elements_total s')) (ls_step dbl o (strip l)) ((if dbl then dl_step junk o else sl_step junk o) (fst w))).
    { assert (Es : strip l = (fun xs => xs.*2) <$> ren f l).
      { unfold strip, ren. rewrite <- map_fmap_compose. apply map_fmap_ext. intros i xs _. symmetry. apply renl_snd. }
      assert (Gw : forall R R' : gmap nat (list A) -> lst A -> Prop, (forall s' w', R s' w' -> R' s' w') -> forall r c, @magree_or (gmap nat (list A)) (lst A) (out A) R (fun s' => refuses pol (elements_total s')) r c -> magree_or R' (fun s' => refuses pol (elements_total s')) r c).
      { intros R R' Hw r c. destruct r as [[x s']| |]; simpl; [|auto|auto]. intros [(w' & ? & ?)|?]; [left; eauto|right; assumption]. }
      destruct dbl; [eapply (Gw (dlR pol)); [auto|apply dl_step_or]|eapply (Gw (slR pol)); [auto|apply sl_step_or]]; exists (ren f l); auto. }
    pose proof (iter_lists A dbl o (ISpec l n its)) as Ei. cbn [s_lists] in Ei. rewrite Ei in G. clear Ei.
    destruct (lists_step dbl o _) as [[r s']| |]; simpl in L |- *; [|unfold on_lists; rewrite L; reflexivity|exact I].
    destruct (B r s' H3 eq_refl) as (B1 & B2 & B3).
    destruct L as [(st' & f' & R & Hi & Ht & Hf & Hp)|L].
    + left. exists (st', snd w). split; [apply on_lists_ok; exact R|]. cbn beta. split; [exact B2|]. exists f'. split; [exact Hf|].
      split; [exact Hi|]. split; [exact Ht|]. split; [exact B1|]. rewrite B3. split; [|split; [|exact Hp]].
      * intros k p Ek. specialize (H4 _ _ Ek). destruct p; simpl in *; [lia|exact I].
      * rewrite H5. simpl. apply map_fmap_ext. intros k p Ek. specialize (H4 _ _ Ek). destruct p; simpl in *; [rewrite Hf by exact H4|]; reflexivity.
    + right. split; [unfold on_lists; rewrite L; reflexivity|]. simpl in G. destruct G as [(w' & G & _)|[_ G]]; [congruence|exact G].
  - destruct (s_lists s !! id) as [l|] eqn:E; [|exact I]. simpl. left. eexists. split; [|apply near_same; [reflexivity|]; apply set_it_R; [exact H|]].
    + unfold it_begin. pose proof (next_pos dbl f _ (fst w) (EndOf id) (first_of id l) (proj1 H)) as Hn. simpl in Hn. rewrite E in Hn. specialize (Hn eq_refl).
      erewrite bind_ok; [reflexivity|]. erewrite bind_ok by (apply on_lists_same, ld_next_ok'; exact Hn). apply on_lists_same. reflexivity.
    + apply first_below. destruct H as (_ & _ & Hb & _). exact (below_look _ _ _ _ Hb E).
  - destruct (s_lists s !! id) as [l|] eqn:E; [|exact I]. simpl. left. eexists. split; [|apply near_same; [reflexivity|]; apply (set_it_R f s w k (EndOf id)); [exact H|exact I]].
    unfold it_end. assert (Hl : is_Some (dt (l_cells (fst w)) (Head id))) by (apply (i_heads _ _ _ (proj1 H)); rewrite (ren_some f _ _ _ E); eauto).
    destruct Hl as [a (c & Ec & _)%dt_some]. erewrite bind_ok; [reflexivity|].
    erewrite bind_ok by (apply on_lists_same; unfold ld; rewrite Ec; reflexivity). reflexivity.
  - unfold with_it. destruct (s_its s !! j) as [p|] eqn:E; [|exact I]. simpl.
    rewrite (bind_ok _ _ _ _ _ (get_it_ok _ _ _ _ _ H E)). left. eexists. split; [reflexivity|]. apply near_same; [reflexivity|]. apply set_it_R; [exact H|eapply it_below; eassumption].
  - unfold with_it. destruct (s_its s !! k) as [p|] eqn:E; [|exact I]. destruct (next_place (s_lists s) p) as [q|] eqn:Eq; [|exact I]. simpl.
    rewrite (bind_ok _ _ _ _ _ (get_it_ok _ _ _ _ _ H E)). destruct (it_next_ok _ _ _ _ _ H Eq) as [R Hb]. rewrite (bind_ok _ _ _ _ _ R).
    left. eexists. split; [reflexivity|]. apply near_same; [reflexivity|]. apply set_it_R; assumption.
  - destruct dbl eqn:Ed; [|exact I]. rewrite <- Ed in H. unfold with_it. destruct (s_its s !! k) as [p|] eqn:E; [|exact I].
    destruct (prev_place (s_lists s) p) as [q|] eqn:Eq; [|exact I]. simpl.
    rewrite (bind_ok _ _ _ _ _ (get_it_ok _ _ _ _ _ H E)). destruct (it_prev_ok _ _ _ _ _ Ed H Eq) as [R Hb]. rewrite (bind_ok _ _ _ _ _ R).
    left. eexists. split; [reflexivity|]. apply near_same; [reflexivity|]. apply set_it_R; assumption.
  - unfold with_it. destruct (s_its s !! j) as [p|] eqn:E; [|exact I]. destruct (next_place (s_lists s) p) as [q|] eqn:Eq; [|exact I]. simpl.
    rewrite (bind_ok _ _ _ _ _ (get_it_ok _ _ _ _ _ H E)). destruct (it_next_ok _ _ _ _ _ H Eq) as [R Hb]. rewrite (bind_ok _ _ _ _ _ R).
    left. eexists. split; [reflexivity|]. apply near_same; [reflexivity|]. apply (set_it_R _ _ _ _ _ (set_it_R _ _ _ _ _ H Hb)). exact (it_below _ _ _ _ _ H E).
  - destruct dbl eqn:Ed; [|exact I]. rewrite <- Ed in H. unfold with_it. destruct (s_its s !! j) as [p|] eqn:E; [|exact I].
    destruct (prev_place (s_lists s) p) as [q|] eqn:Eq; [|exact I]. simpl.
    rewrite (bind_ok _ _ _ _ _ (get_it_ok _ _ _ _ _ H E)). destruct (it_prev_ok _ _ _ _ _ Ed H Eq) as [R Hb]. rewrite (bind_ok _ _ _ _ _ R).
    left. eexists. split; [reflexivity|]. apply near_same; [reflexivity|]. apply (set_it_R _ _ _ _ _ (set_it_R _ _ _ _ _ H Hb)). exact (it_below _ _ _ _ _ H E).
  - unfold with_it. destruct (s_its s !! k) as [[n|id]|] eqn:E; [|exact I|exact I].
    destruct (where_is n (s_lists s)) as [[id [[us x] vs]]|] eqn:Ew; [|exact I]. simpl. apply where_is_some in Ew. apply (ren_some f) in Ew. rewrite renl_app, renl_cons in Ew.
    rewrite (bind_ok _ _ _ _ _ (get_it_ok _ _ _ _ _ H E)). left. exists w. split; [|apply near_same; [reflexivity|exact H]].
    erewrite bind_ok by (apply on_lists_same, ld_dat_ok; eapply i_dat; [exact (proj1 H)|exact Ew|apply elem_of_app; right; left]). reflexivity.
  - unfold with_it. destruct (s_its s !! k) as [[n|id]|] eqn:E; [|exact I|exact I].
    destruct (where_is n (s_lists s)) as [[id [[us x] vs]]|] eqn:Ew; [|exact I]. simpl. apply where_is_some in Ew.
    pose proof (ren_some f _ _ _ Ew) as Er. rewrite renl_app, renl_cons in Er.
    rewrite (bind_ok _ _ _ _ _ (get_it_ok _ _ _ _ _ H E)). destruct H as (H1 & H2 & H3 & H4 & H5 & H6).
    destruct (write_ok _ _ _ _ _ _ _ _ a H1 Er) as (st' & R & Hi & Ht & Hf).
    left. exists (st', snd w). split; [erewrite bind_ok by (apply on_lists_ok; exact R); reflexivity|]. apply near_same; [reflexivity|].
    assert (Ee : ren f (<[id := us ++ (n, a) :: vs]> (s_lists s)) = <[id := renl f us ++ (f n, a) :: renl f vs]> (ren f (s_lists s))) by (rewrite ren_insert, renl_app, renl_cons; reflexivity).
    split; [simpl; rewrite Ee; exact Hi|]. split; [|split; [|split; [exact H4|split; [exact H5|simpl; congruence]]]].
    + intros Hd. simpl. rewrite Ee. eapply tails_same; [exact (H2 Hd)|exact Er|exact Ht|]. rewrite (nodes_same (renl f us) (f n) a x). reflexivity.
    + cbn [s_next s_lists]. eapply below_insert; [exact H3|reflexivity|]. intros m Hm. rewrite (fst_same us n a x) in Hm. exact (H3 _ _ _ Ew Hm).
  - unfold with_it. destruct (s_its s !! k) as [p|] eqn:E; [|exact I]. destruct (s_its s !! j) as [q|] eqn:E2; [|exact I].
    destruct (valid _ p) eqn:Vp; [|exact I]. destruct (valid _ q) eqn:Vq; [|exact I]. simpl. left. exists w. split; [|apply near_same; [reflexivity|exact H]].
    rewrite (bind_ok _ _ _ _ _ (get_it_ok _ _ _ _ _ H E)). rewrite (bind_ok _ _ _ _ _ (get_it_ok _ _ _ _ _ H E2)). rewrite (bool_pos _ _ _ _ _ _ (proj1 H) Vp Vq). reflexivity.
  - unfold with_it. destruct (s_its s !! k) as [p|] eqn:E; [|exact I]. destruct (s_its s !! j) as [q|] eqn:E2; [|exact I].
    destruct (valid _ p) eqn:Vp; [|exact I]. destruct (valid _ q) eqn:Vq; [|exact I]. simpl. left. exists w. split; [|apply near_same; [reflexivity|exact H]].
    rewrite (bind_ok _ _ _ _ _ (get_it_ok _ _ _ _ _ H E)). rewrite (bind_ok _ _ _ _ _ (get_it_ok _ _ _ _ _ H E2)). rewrite (bool_pos _ _ _ _ _ _ (proj1 H) Vp Vq). reflexivity.
Qed.

Context (Hg : grants pol).
Lemma step_near' o f s w : iRf f s w -> magree (near f (s_next s)) (is_step dbl o s) (it_step junk dbl o w).
Proof. intros H. apply (magree_or_no _ F); [intros s' Hr; exact (grants_refuses _ _ Hg Hr)|apply step_near, H]. Qed.
Lemma near_trans f n s1 w1 g s2 w2 : n <= s_next s1 -> (forall m, m < n -> g m = f m) -> iRf g s1 w1 -> near g (s_next s1) s2 w2 -> near f n s2 w2.
Proof.
  intros Hn Hgf H1 (H2 & g2 & Hg2 & H3). split; [lia|]. exists g2. split; [|exact H3]. intros m Hm. rewrite Hg2 by lia. apply Hgf, Hm.
Qed.
Context {C : Type}.
Lemma client_near (p : client A C) : forall f s w, iRf f s w -> magree (near f (s_next s)) (client_spec dbl p s) (client_run junk dbl p w).
Proof.
  induction p as [c|o k IH]; intros f s w H; cbn [client_spec client_run].
  - exists w. split; [reflexivity|]. apply near_same; [reflexivity|exact H].
  - pose proof (step_near' o f s w H) as S. destruct (is_step dbl o s) as [[r s1]| |]; cbn [magree] in S; [|exact (bind_abort _ _ _ S)|exact I].
    destruct S as (w1 & E1 & Hn & g & Hgf & H1). rewrite (bind_ok _ _ _ _ _ E1). specialize (IH r g s1 w1 H1).
    destruct (client_spec dbl (k r) s1) as [[c s2]| |]; cbn [magree] in IH |- *; [|exact IH|exact I].
    destruct IH as (w2 & E2 & H2). exists w2. split; [exact E2|]. exact (near_trans _ _ _ _ _ _ _ Hn Hgf H1 H2).
Qed.
Lemma pos_near f g n p : pbelow n p -> (forall m, m < n -> g m = f m) -> pos g p = pos f p.
Proof. destruct p as [m|id]; cbn [pbelow pos]; intros Hb E; [rewrite E by exact Hb|]; reflexivity. Qed.
Lemma pbelow_le n k p : n <= k -> pbelow n p -> pbelow k p.
Proof. destruct p; cbn; [lia|auto]. Qed.

Definition each_agree (r : sres (option (C * ispec))) (c : res (C * iworld A)) : Prop :=
  match r with
  | SVal (Some (x, s')) => exists w', c = Ok (x, w') /\ iR dbl pol s' w'
  | SVal None => c = Diverge
  | SAbort => c = Abort
  | SUnspec => True
  end.
Lemma each_ok (cb : C -> A -> client A C) n : forall c p stop f s w, iRf f s w -> pbelow (s_next s) p -> pbelow (s_next s) stop ->
  each_agree (each_spec dbl n cb c p stop s) (each_loop junk dbl n cb c (pos f p) (pos f stop) w).
Proof.
  induction n as [|n IH]; intros c p stop f s w H Bp Bs; cbn [each_spec each_loop].
  - destruct (valid (s_lists s) p) eqn:Vp; [|exact I]. destruct (valid (s_lists s) stop) eqn:Vs; [|exact I]. cbn [andb negb].
    unfold ptr_ne. erewrite bind_ok by reflexivity. rewrite (bool_pos _ _ _ _ _ _ (proj1 H) Vp Vs).
    destruct (bool_decide (p = stop)); cbn [negb]; [exists w; split; [reflexivity|exists f; exact H]|reflexivity].
  - destruct (valid (s_lists s) p) eqn:Vp; [|exact I]. destruct (valid (s_lists s) stop) eqn:Vs; [|exact I]. cbn [andb negb].
    unfold ptr_ne. erewrite bind_ok by reflexivity. rewrite (bool_pos _ _ _ _ _ _ (proj1 H) Vp Vs).
    destruct (bool_decide (p = stop)); cbn [negb]; [exists w; split; [reflexivity|exists f; exact H]|].
    destruct p as [m|id]; [|exact I]. destruct (where_is m (s_lists s)) as [[id [[us x] vs]]|] eqn:Ew; [|exact I].
    apply where_is_some in Ew. apply (ren_some f) in Ew. rewrite renl_app, renl_cons in Ew.
    erewrite bind_ok by (apply on_lists_same, ld_dat_ok; eapply i_dat; [exact (proj1 H)|exact Ew|apply elem_of_app; right; left]).
    pose proof (client_near (cb c x) f s w H) as S. destruct (client_spec dbl (cb c x) s) as [[c1 s1]| |]; cbn [magree] in S; [|exact (bind_abort _ _ _ S)|exact I].
    destruct S as (w1 & E1 & Hn & g & Hgf & H1). rewrite (bind_ok _ _ _ _ _ E1).
    destruct (next_place (s_lists s1) (At m)) as [q|] eqn:Eq; [|exact I].
    rewrite <- (pos_near f g _ _ Bp Hgf), <- (pos_near f g _ _ Bs Hgf).
    destruct (it_next_ok _ _ _ _ _ H1 Eq) as [En Bq]. rewrite (bind_ok _ _ _ _ _ En).
    apply IH; [exact H1|exact Bq|exact (pbelow_le _ _ _ Hn Bs)].
Qed.
Lemma each_top (cb : C -> A -> client A C) n c id s w l : iR dbl pol s w -> s_lists s !! id = Some l ->
  each_agree (each_spec dbl n cb c (first_of id l) (EndOf id) s) (each junk dbl n id c cb w).
Proof.
  intros (f & H) E. unfold each.
  pose proof (next_pos dbl f _ (fst w) (EndOf id) (first_of id l) (proj1 H)) as Hn. simpl in Hn. rewrite E in Hn. specialize (Hn eq_refl).
  assert (it_begin id w = Ok (pos f (first_of id l), w)) as Eb.
  { unfold it_begin. erewrite bind_ok by (apply on_lists_same, ld_next_ok'; exact Hn). apply on_lists_same. reflexivity. }
  assert (it_end id w = Ok (Head id, w)) as Ee.
  { unfold it_end. assert (Hl : is_Some (dt (l_cells (fst w)) (Head id))) by (apply (i_heads _ _ _ (proj1 H)); rewrite (ren_some f _ _ _ E); eauto).
    destruct Hl as [a (k & Ec & _)%dt_some]. erewrite bind_ok by (apply on_lists_same; unfold ld; rewrite Ec; reflexivity). reflexivity. }
  rewrite (bind_ok _ _ _ _ _ Eb), (bind_ok _ _ _ _ _ Ee). apply (each_ok cb n c (first_of id l) (EndOf id) f s w H); [|exact I].
  apply first_below. destruct H as (_ & _ & Hb & _). exact (below_look _ _ _ _ Hb E).
Qed.
Lemma later_ok ops s w : iR dbl pol s w -> match srun (is_step dbl) ops s with
  | SVal (rs, s') => exists w', mrun (it_step junk dbl) ops w = Ok (rs, w') /\ iR dbl pol s' w'
  | SAbort => mrun (it_step junk dbl) ops w = Abort
  | SUnspec => True
  end.
Proof.
  intros H. apply (mrun_agree (it_step junk dbl) (is_step dbl) (iR dbl pol)); [|exact H].
  intros o s1 w1 H1. apply (magree_or_no _ F); [intros s' Hr; exact (grants_refuses _ _ Hg Hr)|apply it_step_or, H1].
Qed.
Theorem each_history (Hs : sound pol) ops1 n id c (cb : C -> A -> client A C) ops2 :
  match each_in_spec dbl ops1 n id c cb ops2 with
  | SVal (Some r) => exists w, (rs1 <- mrun (it_step junk dbl) ops1 ;; c <- each junk dbl n id c cb ;; rs2 <- mrun (it_step junk dbl) ops2 ;; ret (rs1, c, rs2)) (lst_init pol, ∅) = Ok (r, w)
  | SVal None => (rs1 <- mrun (it_step junk dbl) ops1 ;; c <- each junk dbl n id c cb ;; rs2 <- mrun (it_step junk dbl) ops2 ;; ret (rs1, c, rs2)) (lst_init pol, ∅) = Diverge
  | SAbort => (rs1 <- mrun (it_step junk dbl) ops1 ;; c <- each junk dbl n id c cb ;; rs2 <- mrun (it_step junk dbl) ops2 ;; ret (rs1, c, rs2)) (lst_init pol, ∅) = Abort
  | SUnspec => True
  end.
Proof.
  unfold each_in_spec. pose proof (later_ok ops1 _ _ (iR_init dbl pol Hs)) as P. destruct (srun (is_step dbl) ops1 ispec0) as [[rs1 s]| |]; [|exact (bind_abort _ _ _ P)|exact I].
  destruct P as (w & E & H). destruct (s_lists s !! id) as [l|] eqn:El; [|exact I].
  pose proof (each_top cb n c id s w l H El) as Q. destruct (each_spec dbl n cb c (first_of id l) (EndOf id) s) as [[[c1 s1]|]| |]; cbn [each_agree] in Q; [| | |exact I].
  - destruct Q as (w1 & E1 & H1). pose proof (later_ok ops2 _ _ H1) as P2. destruct (srun (is_step dbl) ops2 s1) as [[rs2 s2]| |]; [| |exact I].
    + destruct P2 as (w2 & E2 & _). exists w2. rewrite (bind_ok _ _ _ _ _ E), (bind_ok _ _ _ _ _ E1), (bind_ok _ _ _ _ _ E2). reflexivity.
    + rewrite (bind_ok _ _ _ _ _ E), (bind_ok _ _ _ _ _ E1). exact (bind_abort _ _ _ P2).
  - rewrite (bind_ok _ _ _ _ _ E). exact (bind_diverge _ _ _ Q).
  - rewrite (bind_ok _ _ _ _ _ E). exact (bind_abort _ _ _ Q).
Qed.
End Near.
