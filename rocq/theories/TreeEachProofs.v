(** for_each with callbacks that use the trees. *)
From Coq Require Import Sorted.
From Verif Require Import Base Alloc AllocProofs VectorModel VectorSpec Adapter Hist.
From Verif Require Import TreeModel TreeSpec TreeBase TreeSets TreeRot TreeIns TreeZip TreeSwap TreeDel TreeErase TreeIter TreeTag TreeObj TreeWorld TreeWSpec TreeHist.
From Verif Require Import ListIterSpec ListIterProofs TreeIterModel TreeIterSpec TreeIterProofs AlgoIterModel TreeEachModel TreeEachSpec.
Local Open Scope nat_scope.

Section Near.
Context {A : Type} (cmp : A -> A -> bool) (Hc : swo cmp) (pol : policy).
Notation RT := (RT cmp pol).
Notation kRf := (kRf cmp pol).
Notation F := (fun s : kspec => refuses pol (total (strip (k_sets s)))).
Local Notation get_kt_ok := (@TreeIterProofs.get_kt_ok A cmp pol).
Local Notation kR_set := (@TreeIterProofs.kR_set A cmp pol).
Local Notation kR_again := (@TreeIterProofs.kR_again A cmp pol).
Local Notation kR_at := (@TreeIterProofs.kR_at A cmp pol).
Local Notation kR_lookup := (@TreeIterProofs.kR_lookup A cmp pol).
Local Notation kt_below := (@TreeIterProofs.kt_below A cmp pol).
Local Notation kt_next_ok := (@TreeIterProofs.kt_next_ok A cmp pol).
Local Notation same_place := (@TreeIterProofs.same_place A cmp pol).
Local Notation first_below := (@TreeIterProofs.first_below A cmp pol).

(** The elements there were are where they were. *)
Definition near (f : nat -> nat) (n : nat) (s' : kspec) (w' : kworld A) : Prop :=
  n <= k_next s' /\ exists g, (forall m, m < n -> g m = f m) /\ kRf g s' w'.
Lemma near_same f n s' w' : k_next s' = n -> kRf f s' w' -> near f n s' w'.
Proof. intros <- H. split; [lia|]. exists f. auto. Qed.
Lemma step_near o f s w : kRf f s w -> magree_or (near f (k_next s)) F (ks_step cmp o s) (kt_step cmp o w).
Proof.
  intros H. destruct o; cbn [ks_step kt_step]; unfold with_set, with_kt, move_kt.
  - destruct H as (T & H1 & H2 & H3 & H4 & H5). destruct s as [sets nxt its]. cbn [k_sets k_next k_its] in *.
    pose proof (k_trees cmp Hc pol o T (fst w) sets nxt f its H1 H2 H3) as L.
    destruct (trees_step cmp o _) as [[r s']| |]; cbn [tagree magree_or] in L |- *; [|unfold on_trees; rewrite L; reflexivity|exact I].
    destruct L as [(w' & T' & g & R & Hi & Hs & Hb & Hn & Hg & Hits)|[R HF]]; [|right; split; [unfold on_trees; rewrite R; reflexivity|exact HF]].
    left. exists (w', snd w). split; [apply on_trees_ok; exact R|].
    split; [exact Hn|]. exists g. split; [exact Hg|]. exists T'. rewrite Hits. split_and!; try assumption.
    + intros k p Ek. specialize (H4 _ _ Ek). destruct p; cbn in *; [lia|exact I].
    + cbn [snd]. rewrite H5. apply map_fmap_ext. intros k p Ek. specialize (H4 _ _ Ek). destruct p; cbn in *; [rewrite Hg by exact H4|]; reflexivity.
  - pose proof (kR_lookup _ _ _ id H) as P. destruct (k_sets s !! id) as [ps|] eqn:Es; [|exact I]. destruct P as (T & t & H1 & H2 & Ht & Er & W).
    destruct ps as [|p ps0]; [exact I|]. set (ps := p :: ps0) in *.
    assert (t <> Lf) as Hn by (intros ->; discriminate). destruct (minA_some t Hn) as (b & y & Hm).
    destruct (on_query cmp pol T (fst w) id t (avl_begin InOrder) (Some b) H1 Ht) as (w' & E & H').
    { cbn zeta. unfold avl_begin, bt_begin. erewrite bind_ok by reflexivity. cbn [t_root].
      eapply first_node_ok; [exact Hn|apply (wf_nd _ _ _ _ W)|apply (wf_linked _ _ _ _ W)|exact Hm]. }
    assert (f <$> first_num ps = Some b) as Ef by (rewrite <- first_ren, Er, min_first, Hm; reflexivity).
    left. exists (w', <[k := f <$> first_num ps]> (snd w)). split.
    + unfold kt_begin. erewrite bind_ok by (apply on_trees_ok; exact E). rewrite Ef. reflexivity.
    + apply near_same; [reflexivity|]. eapply kR_again; [exact H|exact H'|exact H2|]. eapply (first_below f s w id []); [exact H|exact Es].
  - pose proof (kR_lookup _ _ _ id H) as P. destruct (k_sets s !! id) as [ps|]; [|exact I]. destruct P as (T & t & H1 & H2 & Ht & Er & W).
    destruct (on_query cmp pol T (fst w) id t (ret (@None nat)) None H1 Ht eq_refl) as (w' & E & H').
    left. exists (w', <[k := None]> (snd w)). split.
    + unfold kt_end. erewrite bind_ok by (apply on_trees_ok; exact E). reflexivity.
    + apply near_same; [reflexivity|]. apply (kR_again f s w T w' k None H H' H2 I).
  - pose proof (kR_lookup _ _ _ id H) as P. destruct (k_sets s !! id) as [ps|] eqn:Es; [|exact I]. destruct P as (T & t & H1 & H2 & Ht & Er & W).
    destruct (on_query cmp pol T (fst w) id t (bt_find cmp x) _ H1 Ht (find_ok cmp x t _ _ _ (wf_nd _ _ _ _ W) (wf_linked _ _ _ _ W))) as (w' & E & H').
    assert (atF cmp x t = f <$> (fst <$> List.find (fun p => equivb cmp x (snd p)) ps)) as Ea.
    { rewrite (at_first cmp Hc x t 0 (wf_asc _ _ _ _ W)), <- Er. apply (find_ren cmp). }
    left. exists (w', <[k := f <$> (fst <$> List.find (fun p => equivb cmp x (snd p)) ps)]> (snd w)). split.
    + unfold kt_find. erewrite bind_ok by (apply on_trees_ok; exact E). rewrite Ea. reflexivity.
    + apply near_same; [reflexivity|]. eapply kR_again; [exact H|exact H'|exact H2|]. destruct (List.find _ ps) as [[m y]|] eqn:Ef; [|exact I]. apply find_some in Ef as [Ef _].
      destruct H as (_ & _ & _ & H3 & _). apply (H3 _ _ _ Es). apply elem_of_list_fmap. exists (m, y). split; [reflexivity|]. apply elem_of_list_In, Ef.
  - destruct (k_its s !! j) as [p|] eqn:Ej; [|exact I]. destruct (k_sets s !! id) as [ps|] eqn:Es; [|exact I].
    pose proof (kR_lookup _ _ _ id H) as P. rewrite Es in P. destruct P as (T0 & t0 & H1 & H2 & Ht & Er & W0).
    rewrite (bind_ok _ _ _ _ _ (get_kt_ok _ _ _ _ _ H Ej)). destruct p as [n|].
    + destruct (where_is n (k_sets s)) as [[i [[us x] vs]]|] eqn:E; [|exact I].
      destruct (Nat.eqb_spec i id) as [->|]; [|exact I]. destruct (Nat.ltb_spec (length ps) 3) as [|H3]; [exact I|]. cbn [andb negb].
      destruct (kR_at _ _ _ _ _ _ _ _ H E) as (T & t & C & l & hh & r & HT & Hs & Ht' & W & Et & _ & Ep).
      assert (length (elems t) = length ps) as Hlen.
      { apply where_is_some in E. rewrite Es in E. injection E as ->. rewrite <- pairs_snd, fmap_length, Ep, <- renl_cons, <- renl_app. apply fmap_length. }
      pose proof (tcmp_swo cmp Hc) as Hct.
      pose proof (pairs_asc cmp _ (wf_asc _ _ _ _ W)) as Hpa. rewrite Ep in Hpa.
      assert (atF cmp x t = Some (f n)) as Hat.
      { rewrite (at_first cmp Hc x t (f n) (wf_asc _ _ _ _ W)), Ep, (lookup_eq _ Hct _ _ _ Hpa); [reflexivity|]. apply (equiv_refl _ Hct). }
      destruct (f_erase cmp Hc pol T (fst w) id t x (f n) (f n) HT Ht' Hat (big_root t (f n) (wf_avl _ _ _ _ W) ltac:(lia))) as (w' & t' & R & HT' & Ep').
      change (by_val cmp) with (tcmp cmp) in Ep'. rewrite Ep, (remove_eq _ Hct _ _ _ Hpa) in Ep' by apply (equiv_refl _ Hct).
      assert (match next_set cmp x (elems t) with Some y => atF cmp y t' | None => None end = f <$> first_num vs) as En.
      { pose proof (next_snd cmp (f n) x (pairs t)) as Hn. rewrite pairs_snd in Hn. rewrite <- Hn, Ep, (next_eq _ Hct _ _ _ Hpa) by apply (equiv_refl _ Hct).
        destruct vs as [|[m y] vs]; [reflexivity|]. cbn [head fmap option_fmap option_map snd list_fmap renl].
        pose proof (rt_wf _ _ _ _ HT' id t' (lookup_insert _ _ _)) as W'. rewrite (at_first cmp Hc y t' (f m) (wf_asc _ _ _ _ W')), Ep'.
        pose proof (pairs_asc cmp _ (wf_asc _ _ _ _ W')) as Hpa'. rewrite Ep', renl_cons in Hpa'. rewrite renl_cons.
        rewrite (lookup_eq _ Hct _ _ _ Hpa'); [reflexivity|]. apply (equiv_refl _ Hct). }
      rewrite En in R. left. exists (w', <[k := f <$> first_num vs]> (snd w)). split.
      * unfold kt_erase. erewrite bind_ok by (apply on_trees_ok; exact R). reflexivity.
      * apply where_is_some in E. assert (Hfb : nbelow (k_next s) (first_num vs)) by (apply (first_below f s w id (us ++ [(n, x)]) vs H); rewrite <- app_assoc; exact E).
        destruct H as (_ & _ & _ & Hb & Hit & Hw). apply near_same; [reflexivity|]. apply (kR_set f (KSpec (<[id := us ++ vs]> (k_sets s)) (k_next s) (k_its s)) (w', snd w)); [|exact Hfb].
        exists (<[id := t']> T). cbn [k_sets k_next k_its]. split_and!; [exact HT'| | |exact Hit|exact Hw].
        -- rewrite ren_insert, fmap_insert, Ep', Hs, renl_app. reflexivity.
        -- eapply below_insert; [exact Hb|reflexivity|]. intros m Hm. apply (Hb _ _ _ E). rewrite fmap_app in Hm |- *. cbn [fmap list_fmap].
           apply elem_of_app in Hm as [Hm|Hm]; apply elem_of_app; [left; exact Hm|right; right; exact Hm].
    + destruct (on_query cmp pol T0 (fst w) id t0 (avl_erase cmp None) None H1 Ht eq_refl) as (w' & E & H').
      left. exists (w', <[k := None]> (snd w)). split.
      * unfold kt_erase. erewrite bind_ok by (apply on_trees_ok; exact E). reflexivity.
      * apply near_same; [reflexivity|]. apply (kR_again f s w T0 w' k None H H' H2 I).
  - destruct (k_its s !! j) as [p|] eqn:E; [|exact I]. cbn [magree_or].
    rewrite (bind_ok _ _ _ _ _ (get_kt_ok _ _ _ _ _ H E)). left. eexists. split; [reflexivity|]. apply near_same; [reflexivity|]. apply kR_set; [exact H|eapply kt_below; eassumption].
  - destruct (k_its s !! k) as [p|] eqn:E; [|exact I]. destruct (next_num (k_sets s) p) as [q|] eqn:Eq; [|exact I]. cbn [magree_or].
    destruct (kt_next_ok _ _ _ _ _ H Eq) as [R Hb]. rewrite (bind_ok _ _ _ _ _ (get_kt_ok _ _ _ _ _ H E)), (bind_ok _ _ _ _ _ R).
    left. eexists. split; [reflexivity|]. apply near_same; [reflexivity|]. apply kR_set; assumption.
  - destruct (k_its s !! j) as [p|] eqn:E; [|exact I]. destruct (next_num (k_sets s) p) as [q|] eqn:Eq; [|exact I]. cbn [magree_or].
    destruct (kt_next_ok _ _ _ _ _ H Eq) as [R Hb]. rewrite (bind_ok _ _ _ _ _ (get_kt_ok _ _ _ _ _ H E)), (bind_ok _ _ _ _ _ R).
    left. eexists. split; [reflexivity|]. apply near_same; [reflexivity|]. apply (kR_set _ _ _ _ _ (kR_set _ _ _ _ _ H Hb)). exact (kt_below _ _ _ _ _ H E).
  - destruct (k_its s !! k) as [[n|]|] eqn:E; [|exact I|exact I].
    destruct (where_is n (k_sets s)) as [[id [[us x] vs]]|] eqn:Ew; [|exact I]. cbn [magree_or].
    rewrite (bind_ok _ _ _ _ _ (get_kt_ok _ _ _ _ _ H E)). left. exists w. split; [|apply near_same; [reflexivity|exact H]].
    destruct (kR_at _ _ _ _ _ _ _ _ H Ew) as (T & t & C & l & hh & r & H1 & _ & Ht & W & Et & _).
    pose proof (wf_linked _ _ _ _ W) as Hl. rewrite Et in Hl. destruct (linked_lookup _ _ _ _ _ _ _ _ Hl) as (nn & Hn & Hv & _).
    erewrite bind_ok by (apply on_nodes_same; cbn zeta; apply ld_val_ok; exact Hn). rewrite Hv. reflexivity.
  - destruct (k_its s !! k) as [p|] eqn:E; [|exact I]. destruct (k_its s !! j) as [q|] eqn:E2; [|exact I].
    destruct (valid_num _ p) eqn:Vp; [|exact I]. destruct (valid_num _ q) eqn:Vq; [|exact I]. cbn [andb magree_or]. left. exists w. split; [|apply near_same; [reflexivity|exact H]].
    rewrite (bind_ok _ _ _ _ _ (get_kt_ok _ _ _ _ _ H E)), (bind_ok _ _ _ _ _ (get_kt_ok _ _ _ _ _ H E2)), (same_place _ _ _ _ _ H Vp Vq). reflexivity.
  - destruct (k_its s !! k) as [p|] eqn:E; [|exact I]. destruct (k_its s !! j) as [q|] eqn:E2; [|exact I].
    destruct (valid_num _ p) eqn:Vp; [|exact I]. destruct (valid_num _ q) eqn:Vq; [|exact I]. cbn [andb magree_or]. left. exists w. split; [|apply near_same; [reflexivity|exact H]].
    rewrite (bind_ok _ _ _ _ _ (get_kt_ok _ _ _ _ _ H E)), (bind_ok _ _ _ _ _ (get_kt_ok _ _ _ _ _ H E2)), (same_place _ _ _ _ _ H Vp Vq). reflexivity.
Qed.

Context (Hg : grants pol).
Lemma step_near' o f s w : kRf f s w -> magree (near f (k_next s)) (ks_step cmp o s) (kt_step cmp o w).
Proof. intros H. apply (magree_or_no _ F); [intros s' Hr; exact (grants_refuses _ _ Hg Hr)|apply step_near, H]. Qed.
Lemma near_trans f n s1 w1 g s2 w2 : n <= k_next s1 -> (forall m, m < n -> g m = f m) -> kRf g s1 w1 -> near g (k_next s1) s2 w2 -> near f n s2 w2.
Proof.
  intros Hn Hgf H1 (H2 & g2 & Hg2 & H3). split; [lia|]. exists g2. split; [|exact H3]. intros m Hm. rewrite Hg2 by lia. apply Hgf, Hm.
Qed.
Context {C : Type}.
Lemma client_near (p : tclient A C) : forall f s w, kRf f s w -> magree (near f (k_next s)) (tclient_spec cmp p s) (tclient_run cmp p w).
Proof.
  induction p as [c|o k IH]; intros f s w H; cbn [tclient_spec tclient_run].
  - exists w. split; [reflexivity|]. apply near_same; [reflexivity|exact H].
  - pose proof (step_near' o f s w H) as S. destruct (ks_step cmp o s) as [[r s1]| |]; cbn [magree] in S; [|exact (bind_abort _ _ _ S)|exact I].
    destruct S as (w1 & E1 & Hn & g & Hgf & H1). rewrite (bind_ok _ _ _ _ _ E1). specialize (IH r g s1 w1 H1).
    destruct (tclient_spec cmp (k r) s1) as [[c s2]| |]; cbn [magree] in IH |- *; [|exact IH|exact I].
    destruct IH as (w2 & E2 & H2). exists w2. split; [exact E2|]. exact (near_trans _ _ _ _ _ _ _ Hn Hgf H1 H2).
Qed.
End Near.

(** Elements are pushed, or were there before. *)
Section Origin.
Context {A : Type} (cmp : A -> A -> bool).
Definition old (s s' : kspec (A := A)) : Prop := k_next s <= k_next s' /\
  forall id ps n x, k_sets s' !! id = Some ps -> In (n, x) ps -> n < k_next s -> exists qs, k_sets s !! id = Some qs /\ In (n, x) qs.
Lemma old_refl s : old s s.
Proof. split; [lia|]. intros. eauto. Qed.
Lemma old_sets s s' : k_next s' = k_next s -> k_sets s' = k_sets s -> old s s'.
Proof. intros E1 E2. split; [lia|]. rewrite E2. intros. eauto. Qed.
Lemma old_put s s' i ps : k_next s <= k_next s' -> k_sets s' = <[i := ps]> (k_sets s) ->
  (forall n x, In (n, x) ps -> n < k_next s -> exists qs, k_sets s !! i = Some qs /\ In (n, x) qs) -> old s s'.
Proof.
  intros Hn E H. split; [exact Hn|]. intros id qs n x Ei Hin Hb. rewrite E in Ei. apply lookup_insert_Some in Ei as [[<- <-]|[_ Ei]]; [exact (H _ _ Hin Hb)|eauto].
Qed.
Lemma old_trans s1 s2 s3 : old s1 s2 -> old s2 s3 -> old s1 s3.
Proof.
  intros [H1 H2] [H3 H4]. split; [lia|]. intros id ps n x E Hin Hn. destruct (H4 _ _ _ _ E Hin ltac:(lia)) as (qs & Eq & Hq). exact (H2 _ _ _ _ Eq Hq Hn).
Qed.
Lemma step_old o s r s' : ks_step cmp o s = SVal (r, s') -> old s s'.
Proof.
  intros Ho. destruct o as [o|k i|k i|k i y|k i j|k j|k|k j|k|k j|k j]; cbn [ks_step] in *; unfold with_set, with_kt, move_kt in Ho;
    repeat match type of Ho with
    | context [match k_its s !! ?k with _ => _ end] => destruct (k_its s !! k) as [?|] eqn:?; [|discriminate]
    end.
  - unfold trees_step in Ho.
    assert (rem : forall i y ps s'', k_next s <= k_next s'' -> k_sets s !! i = Some ps -> k_sets s'' = <[i := remove_set (by_val cmp) (k_next s, y) ps]> (k_sets s) -> old s s'').
    { intros i y ps s'' Hn Ei E. eapply old_put; [exact Hn|exact E|]. intros n x Hin _. apply filter_In in Hin as [Hin _]. eauto. }
    assert (none : forall i s'', k_next s <= k_next s'' -> k_sets s'' = <[i := []]> (k_sets s) -> old s s'').
    { intros i s'' Hn E. eapply old_put; [exact Hn|exact E|]. intros n x []. }
    destruct o as [i|i|i y|i y|i y|i y|i|i|i|i|i|i|i tt0|i src|i src]; cbn [top_map ts_step] in *; unfold no_set, with_set in Ho;
      (destruct (k_sets s !! i) as [ps|] eqn:Ei; try discriminate).
    + injection Ho as <- <-. eapply none; [cbn; lia|reflexivity].
    + injection Ho as <- <-. split; [cbn; lia|]. cbn [k_sets]. intros id qs n x E. apply lookup_delete_Some in E as [_ E]. eauto.
    + destruct (lookup_set _ _ ps); [discriminate|]. injection Ho as <- <-. eapply old_put; [cbn; lia|reflexivity|]. intros n x Hin Hn.
      apply (in_add (by_val cmp)) in Hin as [[= -> ->]|Hin]; [lia|eauto].
    + destruct ps as [|p ps]; [|destruct (lookup_set _ _ (p :: ps)); [|discriminate]]; injection Ho as <- <-; (eapply (rem i y); [cbn; lia|exact Ei|reflexivity]).
    + injection Ho as <- <-. apply old_sets; reflexivity.
    + destruct (lookup_set _ _ ps); [|injection Ho as <- <-; apply old_sets; reflexivity]. destruct (Nat.ltb _ 3); [discriminate|]. injection Ho as <- <-.
      eapply rem; [cbn; lia|exact Ei|reflexivity].
    + injection Ho as <- <-. apply old_sets; reflexivity.
    + injection Ho as <- <-. apply old_sets; reflexivity.
    + injection Ho as <- <-. apply old_sets; reflexivity.
    + destruct ps; [discriminate|]. injection Ho as <- <-. apply old_sets; reflexivity.
    + injection Ho as <- <-. eapply none; [cbn; lia|reflexivity].
    + destruct (k_sets s !! src) as [[|]|]; try discriminate. injection Ho as <- <-. eapply none; [cbn; lia|reflexivity].
    + destruct (k_sets s !! src) as [ps2|]; [|discriminate]. destruct (Nat.eqb i src); [injection Ho as <- <-; apply old_sets; reflexivity|].
      destruct ps, ps2; try discriminate. injection Ho as <- <-. apply old_sets; reflexivity.
  - destruct (k_sets s !! i) as [[|]|]; try discriminate. injection Ho as <- <-. apply old_sets; reflexivity.
  - destruct (k_sets s !! i) as [ps|]; try discriminate. injection Ho as <- <-. apply old_sets; reflexivity.
  - destruct (k_sets s !! i) as [ps|]; try discriminate. injection Ho as <- <-. apply old_sets; reflexivity.
  - destruct (k_sets s !! i) as [ps|] eqn:Ei; try discriminate. destruct o as [m|]; [|injection Ho as <- <-; apply old_sets; reflexivity].
    destruct (where_is m (k_sets s)) as [[i' [[us2 x2] vs2]]|] eqn:Em; [|discriminate].
    destruct (Nat.eqb_spec i' i) as [->|]; [|discriminate]. cbn [andb] in Ho. destruct (negb _); [|discriminate]. injection Ho as <- <-.
    apply where_is_some in Em. eapply old_put; [cbn; lia|reflexivity|]. intros n x Hin _. exists (us2 ++ (m, x2) :: vs2). split; [exact Em|].
    apply in_app_or in Hin as [?|?]; apply in_or_app; cbn; auto.
  - injection Ho as <- <-. apply old_sets; reflexivity.
  - destruct (next_num _ _); [|discriminate]. injection Ho as <- <-. apply old_sets; reflexivity.
  - destruct (next_num _ _); [|discriminate]. injection Ho as <- <-. apply old_sets; reflexivity.
  - destruct o as [m|]; [|discriminate]. destruct (where_is m (k_sets s)) as [[i' [[us2 x2] vs2]]|] eqn:Em; [|discriminate]. injection Ho as <- <-. apply old_refl.
  - destruct (_ && _); [|discriminate]. injection Ho as <- <-. apply old_refl.
  - destruct (_ && _); [|discriminate]. injection Ho as <- <-. apply old_refl.
Qed.
Lemma client_old {C} (p : tclient A C) : forall s c s', tclient_spec cmp p s = SVal (c, s') -> old s s'.
Proof.
  induction p as [c|o k IH]; intros s c' s' E; cbn [tclient_spec] in E.
  - injection E as _ <-. apply old_refl.
  - destruct (ks_step cmp o s) as [[r s1]| |] eqn:Eo; try discriminate. eapply old_trans; [exact (step_old _ _ _ _ Eo)|exact (IH _ _ _ _ E)].
Qed.
End Origin.

Section Each.
Context {A : Type} (cmp : A -> A -> bool) (Hc : swo cmp) (pol : policy) (Hg : grants pol).
Notation kRf := (kRf cmp pol).
Context {C : Type}.

Definition eagree {X} (R : kspec (A := A) -> kworld A -> Prop) (r : eres (X * kspec (A := A))) (c : res (X * kworld A)) : Prop :=
  match r with
  | EEnd (x, s') => exists w', c = Ok (x, w') /\ R s' w'
  | EMore => c = Diverge
  | EUndef => c = UB
  | EAbort => c = Abort
  | EUnspec => True
  end.
Lemma kt_star_ok f s w n id us x vs : kRf f s w -> where_is n (k_sets s) = Some (id, (us, x, vs)) -> kt_star (Some (f n)) w = Ok (x, w).
Proof.
  intros H Ew. destruct (kR_at cmp pol _ _ _ _ _ _ _ _ H Ew) as (T & t & Cx & l & hh & r & H1 & _ & Ht & W & Et & _).
  pose proof (wf_linked _ _ _ _ W) as Hl. rewrite Et in Hl. destruct (linked_lookup _ _ _ _ _ _ _ _ Hl) as (nn & Hn & Hv & _).
  unfold kt_star. rewrite <- Hv. apply on_nodes_same; cbn zeta; apply ld_val_ok; exact Hn.
Qed.
(** Going on from an element that is gone. *)
Lemma kt_next_gone f g s s1 w w1 m id us x vs : kRf f s w -> kRf g s1 w1 -> old s s1 -> k_next s1 = k_next s -> (forall m, m < k_next s -> g m = f m) ->
  where_is m (k_sets s) = Some (id, (us, x, vs)) -> where_is m (k_sets s1) = None -> kt_next (Some (f m)) w1 = UB.
Proof.
  intros H H1 (_ & Ho) En Hgf Wm Wn.
  assert (tw_heap (fst w1) !! f m = None) as Eg.
  { destruct (tw_heap (fst w1) !! f m) as [nd|] eqn:Eh; [exfalso|reflexivity].
    destruct H1 as (T & HT & HR & Hb & _). destruct (rt_all _ _ _ _ HT _ _ Eh) as (i & t & Ei & Hcn).
    pose proof (lookup_fmap pairs T i) as El. rewrite <- HR, Ei in El. cbn [fmap option_fmap option_map] in El. unfold ren in El. rewrite lookup_fmap in El.
    destruct (k_sets s1 !! i) as [ps|] eqn:Eps; [|discriminate]. cbn in El. injection El as El.
    assert (f m ∈ (pairs t).*1) as Hin by (rewrite pairs_addrs; apply addrs_cnt; exact Hcn).
    rewrite <- El in Hin. change ((λ p : nat * A, (g p.1, p.2)) <$> ps) with (renl g ps) in Hin. rewrite renl_fst in Hin. apply elem_of_list_fmap in Hin as (k & Ek & Hk).
    pose proof Hk as Hk'. apply elem_of_list_fmap in Hk as ([k2 y] & E2 & Hk). cbn in E2. subst k2. apply elem_of_list_In in Hk.
    assert (k < k_next s) as Hks by (rewrite <- En; exact (Hb _ _ _ Eps Hk')). destruct (Ho _ _ _ _ Eps Hk Hks) as (qs & Eq & Hq). rewrite Hgf in Ek by exact Hks.
    apply where_is_some in Wm.
    assert (m = k) as ->.
    { refine (proj2 (kR_inj cmp pol f s w _ _ _ _ _ _ H Wm Eq _ _ Ek)); [rewrite fmap_app; apply elem_of_app; right; left|].
      apply elem_of_list_fmap. exists (k, y). split; [reflexivity|]. apply elem_of_list_In, Hq. }
    eapply where_is_none; [exact Wn|exact Eps|exact Hk']. }
  unfold kt_next, on_trees, on_nodes, next_inorder, ld_right, ldn, bind. cbn. rewrite Eg. reflexivity.
Qed.
Lemma each_ok (cb : C -> A -> tclient A C) n : forall c p f s w, kRf f s w -> nbelow (k_next s) p ->
  eagree (kR cmp pol) (teach_spec cmp n cb c p s) (teach_loop cmp n cb c (f <$> p) None w).
Proof.
  induction n as [|n IH]; intros c p f s w H Bp; destruct p as [m|]; cbn [teach_spec teach_loop]; unfold ptr_ne; erewrite bind_ok by reflexivity; cbn [fmap option_fmap option_map].
  - rewrite bool_decide_eq_false_2 by discriminate. reflexivity.
  - rewrite bool_decide_eq_true_2 by reflexivity. exists w. split; [reflexivity|exists f; exact H].
  - rewrite bool_decide_eq_false_2 by discriminate. cbn [negb]. destruct (where_is m (k_sets s)) as [[id [[us x] vs]]|] eqn:Ew; [|exact I].
    rewrite (bind_ok _ _ _ _ _ (kt_star_ok _ _ _ _ _ _ _ _ H Ew)).
    pose proof (client_near cmp Hc pol Hg (cb c x) f s w H) as S. destruct (tclient_spec cmp (cb c x) s) as [[c1 s1]| |] eqn:Ec; cbn [magree] in S; [|exact (bind_abort _ _ _ S)|exact I].
    destruct S as (w1 & E1 & Hn & g & Hgf & H1). rewrite (bind_ok _ _ _ _ _ E1).
    destruct (next_num (k_sets s1) (Some m)) as [q|] eqn:Eq.
    + destruct (kt_next_ok cmp pol _ _ _ _ _ H1 Eq) as [En Bq]. rewrite <- (Hgf m Bp).
      change (Some (g m)) with (g <$> Some m). rewrite (bind_ok _ _ _ _ _ En). apply IH; [exact H1|exact Bq].
    + destruct (Nat.eqb_spec (k_next s1) (k_next s)) as [E2|]; [|exact I]. apply bind_ub.
      eapply kt_next_gone; [exact H|exact H1|exact (client_old _ _ _ _ _ Ec)|exact E2|exact Hgf|exact Ew|].
      cbn [next_num] in Eq. destruct (where_is m (k_sets s1)) as [[? [[? ?] ?]]|]; [discriminate|reflexivity].
  - rewrite bool_decide_eq_true_2 by reflexivity. exists w. split; [reflexivity|exists f; exact H].
Qed.
Lemma each_top (cb : C -> A -> tclient A C) n c id s w l : kR cmp pol s w -> k_sets s !! id = Some l -> l <> [] ->
  eagree (kR cmp pol) (teach_spec cmp n cb c (first_num l) s) (teach cmp n id c cb w).
Proof.
  intros (f & H) El Hl. unfold teach.
  pose proof (kR_lookup cmp pol _ _ _ id H) as P. rewrite El in P. destruct P as (T & t & H1 & H2 & Ht & Er & W).
  assert (t <> Lf) as Hn by (intros ->; destruct l; [congruence|discriminate]). destruct (minA_some t Hn) as (b & y & Hm).
  destruct (on_query cmp pol T (fst w) id t (avl_begin InOrder) (Some b) H1 Ht) as (w1 & E1 & H1').
  { cbn zeta. unfold avl_begin, bt_begin. erewrite bind_ok by reflexivity. cbn [t_root].
    eapply first_node_ok; [exact Hn|apply (wf_nd _ _ _ _ W)|apply (wf_linked _ _ _ _ W)|exact Hm]. }
  assert (f <$> first_num l = Some b) as Ef by (rewrite <- first_ren, Er, min_first, Hm; reflexivity).
  destruct (on_query cmp pol T w1 id t (ret (@None nat)) None H1' Ht eq_refl) as (w2 & E2 & H2').
  unfold kt_begin, kt_end. erewrite bind_ok by (apply on_trees_ok; exact E1). erewrite bind_ok by (apply on_trees_ok; exact E2). cbn [snd]. rewrite <- Ef.
  apply each_ok.
  - destruct H as (_ & _ & _ & H3 & H4 & H5). exists T. split_and!; assumption.
  - exact (first_below cmp pol f s w id [] l H El).
Qed.
Lemma each_empty (cb : C -> A -> tclient A C) n c id s w : kR cmp pol s w -> k_sets s !! id = Some [] -> teach cmp n id c cb w = UB.
Proof.
  intros (f & H) El. unfold teach. pose proof (kR_lookup cmp pol _ _ _ id H) as P. rewrite El in P. destruct P as (T & t & H1 & H2 & Ht & Er & W).
  assert (t = Lf) as -> by (destruct t as [|l' a hh v r]; [reflexivity|rewrite pairs_Br in Er; destruct (pairs l'); discriminate]).
  apply bind_ub. unfold kt_begin, on_trees, on. rewrite (RT_lookup cmp pol _ _ _ _ H1 Ht). reflexivity.
Qed.
Lemma later_ok ops s w : kR cmp pol s w -> match srun (ks_step cmp) ops s with
  | SVal (rs, s') => exists w', mrun (kt_step cmp) ops w = Ok (rs, w') /\ kR cmp pol s' w'
  | SAbort => mrun (kt_step cmp) ops w = Abort
  | SUnspec => True
  end.
Proof.
  intros H. apply (mrun_agree (kt_step cmp) (ks_step cmp) (kR cmp pol)); [|exact H].
  intros o s1 w1 H1. apply (magree_or_no _ (fun s : kspec => refuses pol (total (strip (k_sets s))))); [intros s' Hr; exact (grants_refuses _ _ Hg Hr)|apply (kt_step_or cmp Hc pol), H1].
Qed.
Theorem teach_history (Hs : sound pol) ops1 n id c (cb : C -> A -> tclient A C) ops2 :
  let run := rs1 <- mrun (kt_step cmp) ops1 ;; c <- teach cmp n id c cb ;; rs2 <- mrun (kt_step cmp) ops2 ;; ret (rs1, c, rs2) in
  match teach_in_spec cmp ops1 n id c cb ops2 with
  | EEnd r => exists w, run (tw_init pol, ∅) = Ok (r, w)
  | EMore => run (tw_init pol, ∅) = Diverge
  | EUndef => run (tw_init pol, ∅) = UB
  | EAbort => run (tw_init pol, ∅) = Abort
  | EUnspec => True
  end.
Proof.
  cbn zeta. unfold teach_in_spec. pose proof (later_ok ops1 _ _ (kR_init cmp pol Hs)) as P. destruct (srun (ks_step cmp) ops1 kspec0) as [[rs1 s]| |]; [|exact (bind_abort _ _ _ P)|exact I].
  destruct P as (w & E & H). destruct (k_sets s !! id) as [[|p l]|] eqn:El; [|set (l0 := p :: l) in *|exact I].
  { rewrite (bind_ok _ _ _ _ _ E). apply bind_ub. eapply each_empty; eassumption. }
  pose proof (each_top cb n c id s w l0 H El ltac:(discriminate)) as Q. destruct (teach_spec cmp n cb c (first_num l0) s) as [[c1 s1]| | | |]; cbn [eagree] in Q; [| | | |exact I].
  - destruct Q as (w1 & E1 & H1). pose proof (later_ok ops2 _ _ H1) as P2. destruct (srun (ks_step cmp) ops2 s1) as [[rs2 s2]| |]; [| |exact I].
    + destruct P2 as (w2 & E2 & _). exists w2. rewrite (bind_ok _ _ _ _ _ E), (bind_ok _ _ _ _ _ E1), (bind_ok _ _ _ _ _ E2). reflexivity.
    + rewrite (bind_ok _ _ _ _ _ E), (bind_ok _ _ _ _ _ E1). exact (bind_abort _ _ _ P2).
  - rewrite (bind_ok _ _ _ _ _ E). exact (bind_diverge _ _ _ Q).
  - rewrite (bind_ok _ _ _ _ _ E). exact (bind_ub _ _ _ Q).
  - rewrite (bind_ok _ _ _ _ _ E). exact (bind_abort _ _ _ Q).
Qed.
End Each.
