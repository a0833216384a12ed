(** for_each and find over AVL tree iterators. *)
From Verif Require Import Base Alloc AllocProofs VectorModel VectorSpec Adapter Hist.
From Verif Require Import TreeModel TreeSpec TreeBase TreeSets TreeRot TreeIns TreeZip TreeSwap TreeDel TreeErase TreeIter TreeTag TreeObj TreeWorld TreeWSpec TreeHist.
From Verif Require Import ListIterSpec ListIterProofs TreeIterModel TreeIterSpec TreeIterProofs AlgoIterModel AlgoIterSpec AlgoIter.
Local Open Scope nat_scope.

Section Trees.
Context {A : Type} (cmp eqb : A -> A -> bool) (Hc : swo cmp) (pol : policy).
Notation kRf := (kRf cmp pol).
Notation kR := (kR cmp pol).

Lemma in_mid (us vs : list (nat * A)) n x : n ∈ (us ++ (n, x) :: vs).*1.
Proof. rewrite fmap_app. apply elem_of_app. right. left. Qed.
(** An element is found where it is. *)
Lemma kR_where f (s : kspec) (w : kworld A) id us n x vs : kRf f s w -> k_sets s !! id = Some (us ++ (n, x) :: vs) -> where_is n (k_sets s) = Some (id, (us, x, vs)).
Proof.
  intros H E. assert (Hin : n ∈ (us ++ (n, x) :: vs).*1) by (rewrite fmap_app; apply elem_of_app; right; left).
  destruct (where_is n (k_sets s)) as [[j [[us' x'] vs']]|] eqn:Ew; [|exfalso; exact (where_is_none _ _ _ _ Ew E Hin)].
  apply where_is_some in Ew. assert (Hin' : n ∈ (us' ++ (n, x') :: vs').*1) by (rewrite fmap_app; apply elem_of_app; right; left).
  destruct (kR_inj _ _ _ _ _ _ _ _ _ _ _ H E Ew Hin Hin' eq_refl) as [<- _]. rewrite E in Ew. injection Ew as Ew.
  pose proof (kR_lookup _ _ _ _ _ id H) as P. rewrite E in P. destruct P as (T & t & H1 & _ & Ht & Ep & W).
  assert (Hn : NoDup (us ++ (n, x) :: vs).*1).
  { apply (NoDup_fmap_1 f). rewrite <- renl_fst, Ep, pairs_addrs. apply addrs_nodup, (wf_nd _ _ _ _ W). }
  assert (us = us' /\ x = x' /\ vs = vs') as (-> & -> & ->); [|reflexivity].
  clear - Ew Hn. revert us' Ew. induction us as [|[m y] us IH]; intros [|[m' y'] us'] Ew; cbn [app] in *.
  - injection Ew as -> ->. auto.
  - injection Ew as -> -> ->. apply NoDup_cons in Hn as [Hn _]. exfalso. apply Hn. apply in_mid.
  - injection Ew as -> -> <-. apply NoDup_cons in Hn as [Hn _]. exfalso. apply Hn. apply in_mid.
  - injection Ew as -> -> Ew. apply NoDup_cons in Hn as [_ Hn]. destruct (IH Hn us' Ew) as (-> & -> & ->). auto.
Qed.
Lemma k_at_next f (s : kspec) (w : kworld A) id us n x vs : kRf f s w -> k_sets s !! id = Some (us ++ (n, x) :: vs) -> kt_next (Some (f n)) w = Ok (f <$> first_num vs, w).
Proof.
  intros H E. refine (proj1 (kt_next_ok _ _ f s w (Some n) (first_num vs) H _)). cbn [next_num]. rewrite (kR_where _ _ _ _ _ _ _ _ H E). reflexivity.
Qed.
Lemma k_at_read f (s : kspec) (w : kworld A) id us n x vs : kRf f s w -> k_sets s !! id = Some (us ++ (n, x) :: vs) -> kt_star (Some (f n)) w = Ok (x, w).
Proof.
  intros H E. destruct (kR_at _ _ _ _ _ _ _ _ _ _ H (kR_where _ _ _ _ _ _ _ _ H E)) as (T & t & C & l & hh & r & H1 & _ & Ht & W & Et & Ev & _).
  pose proof (wf_linked _ _ _ _ W) as Hl. rewrite Et in Hl. destruct (linked_lookup _ _ _ _ _ _ _ _ Hl) as (nn & Hn & Hv & _).
  apply on_nodes_same. cbn zeta. rewrite <- Hv. apply ld_val_ok. exact Hn.
Qed.
Lemma k_apart f (s : kspec) (w : kworld A) id us n x xs vs : kRf f s w -> k_sets s !! id = Some (us ++ (n, x) :: xs ++ vs) -> Some (f n) <> f <$> first_num vs.
Proof.
  intros H E Eq. destruct vs as [|[m y] vs]; [discriminate|]. cbn in Eq. injection Eq as Eq.
  pose proof (kR_where _ _ _ _ _ _ _ _ H E) as E1. rewrite app_comm_cons, app_assoc in E. pose proof (kR_where _ _ _ _ _ _ _ _ H E) as E2.
  assert (Hm : m ∈ ((us ++ (n, x) :: xs) ++ (m, y) :: vs).*1) by apply in_mid.
  assert (Hn : n ∈ ((us ++ (n, x) :: xs) ++ (m, y) :: vs).*1) by (rewrite <- app_assoc; apply in_mid).
  destruct (kR_inj _ _ _ _ _ _ _ _ _ _ _ H E E Hn Hm Eq) as [_ <-]. rewrite E1 in E2. injection E2 as E2 _ _. apply (f_equal length) in E2. rewrite app_length in E2. simpl in E2. lia.
Qed.
Lemma krange_some (l : gmap nat (list (nat * A))) p q xs : krange l p q = Some xs ->
  (p = None /\ q = None /\ xs = []) \/ exists id us vs, l !! id = Some (us ++ xs ++ vs) /\ p = first_num (xs ++ vs) /\ q = first_num vs.
Proof.
  unfold krange. destruct p as [n|].
  - destruct (where_is n l) as [[id [[us x] vs]]|] eqn:E; [|discriminate]. apply where_is_some in E. intros H. right. exists id, us. destruct q as [m|].
    + destruct (split_at m ((n, x) :: vs)) as [[[ys y] vs']|] eqn:Es; [|discriminate]. injection H as <-. apply split_at_some in Es. exists ((m, y) :: vs').
      rewrite <- Es. split; [exact E|]. split; reflexivity.
    + injection H as <-. exists []. rewrite app_nil_r. auto.
  - destruct q; [discriminate|]. intros [= <-]. left. auto.
Qed.

Lemma k_find_ok f (s : kspec) (w : kworld A) id a vs : kRf f s w -> forall xs us fuel, k_sets s !! id = Some (us ++ xs ++ vs) -> length xs <= fuel ->
  find_loop ptr_ne kt_next eqb kt_star fuel a (f <$> first_num (xs ++ vs)) (f <$> first_num vs) w = Ok (f <$> find_num eqb a xs (first_num vs), w).
Proof.
  intros H. induction xs as [|[n x] xs IH]; intros us fuel E Hf.
  - cbn [app]. destruct fuel; cbn [find_loop]; rewrite (bind_ok _ _ _ _ _ (ne_same _ _)); reflexivity.
  - cbn [app]. change (f <$> first_num ((n, x) :: xs ++ vs)) with (Some (f n)). destruct fuel as [|fuel]; [simpl in Hf; lia|]. cbn [find_loop].
    rewrite (bind_ok _ _ _ _ _ (ne_apart _ _ _ (k_apart _ _ _ _ _ _ _ _ _ H E))). rewrite (bind_ok _ _ _ _ _ (k_at_read _ _ _ _ _ _ _ _ H E)).
    unfold find_num. cbn [List.find snd]. destruct (eqb x a); [reflexivity|].
    rewrite (bind_ok _ _ _ _ _ (k_at_next _ _ _ _ _ _ _ _ H E)). apply (IH (us ++ [(n, x)])); [rewrite <- app_assoc; exact E|simpl in Hf; lia].
Qed.
Lemma k_each_ok f (s : kspec) (w : kworld A) id vs : kRf f s w -> forall xs us fuel, k_sets s !! id = Some (us ++ xs ++ vs) -> length xs <= fuel ->
  for_each_loop ptr_ne kt_next fuel kt_star (f <$> first_num (xs ++ vs)) (f <$> first_num vs) w = Ok (xs.*2, w).
Proof.
  intros H. induction xs as [|[n x] xs IH]; intros us fuel E Hf.
  - cbn [app]. destruct fuel; cbn [for_each_loop]; rewrite (bind_ok _ _ _ _ _ (ne_same _ _)); reflexivity.
  - cbn [app]. change (f <$> first_num ((n, x) :: xs ++ vs)) with (Some (f n)). destruct fuel as [|fuel]; [simpl in Hf; lia|]. cbn [for_each_loop].
    rewrite (bind_ok _ _ _ _ _ (ne_apart _ _ _ (k_apart _ _ _ _ _ _ _ _ _ H E))). rewrite (bind_ok _ _ _ _ _ (k_at_read _ _ _ _ _ _ _ _ H E)).
    rewrite (bind_ok _ _ _ _ _ (k_at_next _ _ _ _ _ _ _ _ H E)). erewrite bind_ok by (apply (IH (us ++ [(n, x)])); [rewrite <- app_assoc; exact E|simpl in Hf; lia]). reflexivity.
Qed.
Lemma k_fits f (s : kspec) (w : kworld A) id ps : kRf f s w -> k_sets s !! id = Some ps -> length ps <= size (tw_heap (fst w)).
Proof.
  intros H E. pose proof (kR_lookup _ _ _ _ _ id H) as P. rewrite E in P. destruct P as (T & t & H1 & H2 & Ht & Er & W).
  assert (length ps = length (addrs t)) as -> by (rewrite <- pairs_addrs, <- Er; unfold renl; rewrite !fmap_length; reflexivity).
  rewrite <- size_dom, <- (size_list_to_set (C := gset nat) (addrs t)) by (apply addrs_nodup, (wf_nd _ _ _ _ W)).
  apply subseteq_size. intros k Hk. apply elem_of_list_to_set, addrs_cnt in Hk. apply elem_of_dom. exact (linked_in _ _ _ _ (wf_linked _ _ _ _ W) Hk).
Qed.

Notation F := (fun s : kspec => refuses pol (total (strip (k_sets s)))).
Theorem b_step_or o s w : kR s w -> magree_or kR F (bs_step cmp eqb o s) (b_step cmp eqb o w).
Proof.
  destruct o as [o|k b e a|b e]; cbn [bs_step b_step]; [apply (kt_step_or cmp Hc pol)| |]; intros (f & H); unfold with_kt.
  - destruct (k_its s !! b) as [p|] eqn:Eb; [|exact I]. destruct (k_its s !! e) as [q|] eqn:Ee; [|exact I].
    destruct (krange _ p q) as [xs|] eqn:Er; [|exact I]. left. exists (fst w, <[k := f <$> find_num eqb a xs q]> (snd w)). split.
    + rewrite (bind_ok _ _ _ _ _ (get_kt_ok _ _ _ _ _ _ _ H Eb)), (bind_ok _ _ _ _ _ (get_kt_ok _ _ _ _ _ _ _ H Ee)). erewrite bind_ok by reflexivity.
      erewrite bind_ok; [reflexivity|]. apply krange_some in Er as [(-> & -> & ->)|(id & us & vs & E & -> & ->)].
      * destruct (size _); reflexivity.
      * eapply k_find_ok; [exact H|exact E|]. pose proof (k_fits _ _ _ _ _ H E) as Hl. rewrite !app_length in Hl. lia.
    + exists f. apply kR_set; [exact H|]. pose proof (kt_below _ _ _ _ _ _ _ H Ee) as Hq. destruct H as (T & _ & _ & Hb & Hi & _). unfold find_num. destruct (List.find _ xs) as [[n x]|] eqn:Ef; [|exact Hq].
      apply krange_some in Er as [(-> & -> & ->)|(id & us & vs & E & -> & ->)]; [discriminate|].
      apply find_some in Ef as [Ef _]. apply elem_of_list_In in Ef. apply (Hb _ _ _ E). apply elem_of_list_fmap. exists (n, x). split; [reflexivity|].
      apply elem_of_app. right. apply elem_of_app. left. exact Ef.
  - destruct (k_its s !! b) as [p|] eqn:Eb; [|exact I]. destruct (k_its s !! e) as [q|] eqn:Ee; [|exact I].
    destruct (krange _ p q) as [xs|] eqn:Er; [|exact I]. left. exists w. split; [|exists f; exact H].
    rewrite (bind_ok _ _ _ _ _ (get_kt_ok _ _ _ _ _ _ _ H Eb)), (bind_ok _ _ _ _ _ (get_kt_ok _ _ _ _ _ _ _ H Ee)). erewrite bind_ok by reflexivity.
    erewrite bind_ok; [reflexivity|]. apply krange_some in Er as [(-> & -> & ->)|(id & us & vs & E & -> & ->)].
    + destruct (size _); reflexivity.
    + eapply k_each_ok; [exact H|exact E|]. pose proof (k_fits _ _ _ _ _ H E) as Hl. rewrite !app_length in Hl. lia.
Qed.
End Trees.

Theorem algo_trees_or : forall (A : Type) (cmp eqb : A -> A -> bool), swo cmp -> forall pol, sound pol -> forall ops : list (bop A),
  match srun (bs_step cmp eqb) ops kspec0 with
  | SVal (rs, _) => (exists w, mrun (b_step cmp eqb) ops (tw_init pol, ∅) = Ok (rs, w)) \/
      (mrun (b_step cmp eqb) ops (tw_init pol, ∅) = Abort /\
       exists ops1 ops2 rs1 s1, ops = ops1 ++ ops2 /\ srun (bs_step cmp eqb) ops1 kspec0 = SVal (rs1, s1) /\ refuses pol (total (strip (k_sets s1))))
  | SAbort => mrun (b_step cmp eqb) ops (tw_init pol, ∅) = Abort
  | SUnspec => True
  end.
Proof.
  intros A cmp eqb Hc pol Hs ops. pose proof (mrun_agree_or (b_step cmp eqb) (bs_step cmp eqb) _ _ (b_step_or cmp eqb Hc pol) ops kspec0 (tw_init pol, ∅) (kR_init cmp pol Hs)) as H.
  destruct (srun _ ops kspec0) as [[rs s]| |]; [|exact H|exact I]. destruct H as [(w & R & _)|H]; [left; eauto|right; exact H].
Qed.
Theorem algo_trees : forall (A : Type) (cmp eqb : A -> A -> bool), swo cmp -> forall pol, sound pol -> grants pol -> forall ops : list (bop A),
  match srun (bs_step cmp eqb) ops kspec0 with
  | SVal (rs, _) => exists w, mrun (b_step cmp eqb) ops (tw_init pol, ∅) = Ok (rs, w)
  | SAbort => mrun (b_step cmp eqb) ops (tw_init pol, ∅) = Abort
  | SUnspec => True
  end.
Proof.
  intros A cmp eqb Hc pol Hs Hg ops. pose proof (algo_trees_or A cmp eqb Hc pol Hs ops) as H. destruct (srun _ ops kspec0) as [[rs s]| |]; [|exact H|exact I].
  destruct H as [H|(_ & ops1 & ops2 & rs1 & s1 & _ & _ & Hr)]; [exact H|]. destruct (grants_refuses _ _ Hg Hr).
Qed.

Lemma find_same {X} (p q : X -> bool) (l : list X) : (forall x, p x = q x) -> List.find p l = List.find q l.
Proof. intros H. induction l as [|x l IH]; [reflexivity|]. cbn [List.find]. rewrite H, IH. reflexivity. Qed.
(** Over a whole tree, algorithm::find is the tree's own find if == and the order agree. *)
Theorem algo_find_tree : forall (A : Type) (cmp eqb : A -> A -> bool), swo cmp -> (forall x y, eqb x y = equivb cmp y x) ->
  forall ops rs (s : kspec) b e k id a l, srun (bs_step cmp eqb) ops kspec0 = SVal (rs, s) -> k_sets s !! id = Some l -> l <> [] -> b <> e ->
  srun (bs_step cmp eqb) (ops ++ [BIt (KBegin b id); BIt (KEnd e id); BFind k b e a]) kspec0 =
  srun (bs_step cmp eqb) (ops ++ [BIt (KBegin b id); BIt (KEnd e id); BIt (KFind k id a)]) kspec0.
Proof.
  intros A cmp eqb Hc He ops rs s b e k id a l Hr El Hn Hbe. rewrite !srun_app, Hr.
  destruct l as [|[n x] l]; [congruence|].
  assert (Hw : where_is n (k_sets s) = Some (id, ([], x, l))).
  { pose proof (mrun_agree_or (b_step cmp eqb) (bs_step cmp eqb) _ _ (b_step_or cmp eqb Hc bump) ops kspec0 (tw_init bump, ∅) (kR_init cmp bump bump_sound)) as H.
    rewrite Hr in H. destruct H as [(w & _ & f & H)|(_ & ops1 & ops2 & rs1 & s1 & _ & _ & Hf)]; [|destruct (grants_refuses _ _ bump_grants Hf)].
    exact (kR_where cmp bump f s w id [] n x l H El). }
  assert (Hf : find_num eqb a ((n, x) :: l) None = fst <$> List.find (fun p => equivb cmp a (snd p)) ((n, x) :: l)).
  { unfold find_num. rewrite (find_same _ (fun p => equivb cmp a (snd p))) by (intros; apply He). destruct (List.find _ _) as [[]|]; reflexivity. }
  cbn [srun bs_step ks_step]. unfold with_set, with_kt, move_kt. rewrite El. cbn [k_sets put_kt k_its]. rewrite El. cbn [k_sets put_kt k_its].
  rewrite lookup_insert_ne by congruence. rewrite !lookup_insert, El. change (first_num ((n, x) :: l)) with (Some n). cbn [krange]. rewrite Hw, Hf. reflexivity.
Qed.
