(** for_each and find over list and tree iterators. *)
From Verif Require Import Base Alloc AllocProofs VectorModel VectorSpec Adapter Hist ListModel ListSpec ListProofs ListHist ListHist2 ListHist3 ListHist4 ListIterModel ListIterSpec ListIterProofs.
From Verif Require Import AlgoIterModel.
From Verif Require TreeModel TreeSpec TreeWorld TreeWSpec TreeIterModel TreeIterSpec TreeIterProofs.
From Verif Require Import AlgoIterSpec.
Local Open Scope nat_scope.

Section Lists.
Context {A : Type} (junk : A) (eqb : A -> A -> bool) (dbl : bool) (pol : policy).
Notation iRf := (iRf dbl pol).
Notation iR := (iR dbl pol).

Lemma at_next f (s : ispec) (w : iworld A) id us n x vs : iRf f s w -> s_lists s !! id = Some (us ++ (n, x) :: vs) -> it_next (Node (f n)) w = Ok (pos f (first_of id vs), w).
Proof.
  intros (H & _) E. assert (E' : ren f (s_lists s) !! id = Some (renl f (us ++ [(n, x)]) ++ renl f vs)) by (rewrite <- renl_app, <- app_assoc; apply ren_some; exact E).
  unfold it_next. erewrite bind_ok.
  2: { apply on_lists_same, ld_next_ok'. apply (ring_next dbl _ _ _ _ _ _ H E'); [|apply head_pos]. rewrite last_pos. unfold last_of. rewrite last_snoc. reflexivity. }
  apply on_lists_same. reflexivity.
Qed.
Lemma at_read f (s : ispec) (w : iworld A) id us n x vs : iRf f s w -> s_lists s !! id = Some (us ++ (n, x) :: vs) -> it_star (Node (f n)) w = Ok (x, w).
Proof.
  intros (H & _) E. apply (ren_some f) in E. rewrite renl_app, renl_cons in E.
  apply on_lists_same, ld_dat_ok. eapply i_dat; [exact H|exact E|apply elem_of_app; right; left].
Qed.
Lemma at_write f (s : ispec) (w : iworld A) id us n x vs a : iRf f s w -> s_lists s !! id = Some (us ++ (n, x) :: vs) -> exists w',
  on_lists (st_dat (Node (f n)) a) w = Ok (tt, w') /\ iRf f (ISpec (<[id := us ++ (n, a) :: vs]> (s_lists s)) (s_next s) (s_its s)) w'.
Proof.
  intros (H1 & H2 & H3 & H4 & H5 & H6) Ew. pose proof (ren_some f _ _ _ Ew) as Er. rewrite renl_app, renl_cons in Er.
  destruct (write_ok _ _ _ _ _ _ _ _ a H1 Er) as (st' & R & Hi & Ht & Hf).
  exists (st', snd w). split; [apply on_lists_ok; exact R|].
  assert (Ee : ren f (<[id := us ++ (n, a) :: vs]> (s_lists s)) = <[id := renl f us ++ (f n, a) :: renl f vs]> (ren f (s_lists s))) by (rewrite ren_insert, renl_app, renl_cons; reflexivity).
  split; [simpl; rewrite Ee; exact Hi|]. split; [|split; [|split; [exact H4|split; [exact H5|simpl; congruence]]]].
  - intros Hd. simpl. rewrite Ee. eapply tails_same; [exact (H2 Hd)|exact Er|exact Ht|]. rewrite (nodes_same (renl f us) (f n) a x). reflexivity.
  - cbn [s_next s_lists]. eapply below_insert; [exact H3|reflexivity|]. intros m Hm. rewrite (fst_same us n a x) in Hm. exact (H3 _ _ _ Ew Hm).
Qed.
(** An element before a place is not at that place. *)
Lemma at_apart f (s : ispec) (w : iworld A) id us n x xs vs : iRf f s w -> s_lists s !! id = Some (us ++ (n, x) :: xs ++ vs) -> Node (f n) <> pos f (first_of id vs).
Proof.
  intros (H & _) E Eq. destruct vs as [|[m y] vs]; [discriminate|]. cbn [first_of head pos] in Eq. injection Eq as Eq.
  pose proof (i_nodup _ _ _ H _ _ (ren_some f _ _ _ E)) as Hn. rewrite renl_fst, fmap_app in Hn. cbn [fmap list_fmap fst] in Hn. rewrite fmap_app in Hn. apply NoDup_app in Hn as (_ & _ & Hn).
  apply NoDup_cons in Hn as [Hn _]. apply Hn. apply elem_of_list_fmap. exists m. split; [exact Eq|].
  rewrite fmap_app. apply elem_of_app. right. left.
Qed.
Lemma ne_same {S P} `{EqDecision P} (p : P) (w : S) : ptr_ne p p w = Ok (false, w).
Proof. unfold ptr_ne. rewrite bool_decide_eq_true_2 by reflexivity. reflexivity. Qed.
Lemma ne_apart {S P} `{EqDecision P} (p q : P) (w : S) : p <> q -> ptr_ne p q w = Ok (true, w).
Proof. intros Hn. unfold ptr_ne. rewrite bool_decide_eq_false_2 by exact Hn. reflexivity. Qed.

Lemma find_ok f (s : ispec) (w : iworld A) id a vs : iRf f s w -> forall xs us fuel, s_lists s !! id = Some (us ++ xs ++ vs) -> length xs <= fuel ->
  find_loop ptr_ne it_next eqb it_star fuel a (pos f (first_of id (xs ++ vs))) (pos f (first_of id vs)) w = Ok (pos f (find_in eqb a xs (first_of id vs)), w).
Proof.
  intros H. induction xs as [|[n x] xs IH]; intros us fuel E Hf.
  - cbn [app]. destruct fuel; cbn [find_loop]; rewrite (bind_ok _ _ _ _ _ (ne_same _ _)); reflexivity.
  - cbn [app]. change (first_of id ((n, x) :: xs ++ vs)) with (At n). cbn [pos]. destruct fuel as [|fuel]; [simpl in Hf; lia|]. cbn [find_loop].
    rewrite (bind_ok _ _ _ _ _ (ne_apart _ _ _ (at_apart _ _ _ _ _ _ _ _ _ H E))). rewrite (bind_ok _ _ _ _ _ (at_read _ _ _ _ _ _ _ _ H E)).
    unfold find_in. cbn [List.find snd]. destruct (eqb x a); [reflexivity|].
    rewrite (bind_ok _ _ _ _ _ (at_next _ _ _ _ _ _ _ _ H E)). apply (IH (us ++ [(n, x)])); [rewrite <- app_assoc; exact E|simpl in Hf; lia].
Qed.
Lemma each_ok f id g vs : forall xs us (s : ispec) (w : iworld A) fuel, iRf f s w -> s_lists s !! id = Some (us ++ xs ++ vs) -> length xs <= fuel -> exists w',
  for_each_loop ptr_ne it_next fuel (it_visit g) (pos f (first_of id (xs ++ vs))) (pos f (first_of id vs)) w = Ok (xs.*2, w') /\
  iRf f (ISpec (<[id := us ++ ((fun x => (fst x, g (snd x))) <$> xs) ++ vs]> (s_lists s)) (s_next s) (s_its s)) w'.
Proof.
  induction xs as [|[n x] xs IH]; intros us s w fuel H E Hf.
  - exists w. cbn [app fmap list_fmap]. rewrite insert_id by exact E. split; [|destruct s; exact H].
    destruct fuel; cbn [for_each_loop]; rewrite (bind_ok _ _ _ _ _ (ne_same _ _)); reflexivity.
  - cbn [app] in E |- *. change (first_of id ((n, x) :: xs ++ vs)) with (At n). cbn [pos]. destruct fuel as [|fuel]; [simpl in Hf; lia|]. cbn [for_each_loop].
    destruct (at_write _ _ _ _ _ _ _ _ (g x) H E) as (w1 & R1 & H1).
    assert (E1 : s_lists (ISpec (<[id := us ++ (n, g x) :: xs ++ vs]> (s_lists s)) (s_next s) (s_its s)) !! id = Some (us ++ (n, g x) :: xs ++ vs)) by apply lookup_insert.
    destruct (IH (us ++ [(n, g x)]) _ w1 fuel H1) as (w' & R & H'); [cbn [s_lists]; rewrite lookup_insert, <- app_assoc; reflexivity|simpl in Hf; lia|].
    exists w'. split.
    + rewrite (bind_ok _ _ _ _ _ (ne_apart _ _ _ (at_apart _ _ _ _ _ _ _ _ _ H E))). unfold it_visit at 1.
      erewrite bind_ok by (rewrite (bind_ok _ _ _ _ _ (at_read _ _ _ _ _ _ _ _ H E)), (bind_ok _ _ _ _ _ R1); reflexivity).
      rewrite (bind_ok _ _ _ _ _ (at_next _ _ _ _ _ _ _ _ H1 E1)). rewrite (bind_ok _ _ _ _ _ R). reflexivity.
    + cbn [s_lists s_next s_its] in H'. rewrite insert_insert, <- app_assoc in H'. exact H'.
Qed.

Lemma range_some (l : gmap nat (list (nat * A))) p q id us xs vs : range l p q = Some (id, (us, xs, vs)) -> l !! id = Some (us ++ xs ++ vs) /\ p = first_of id (xs ++ vs) /\ q = first_of id vs.
Proof.
  unfold range. intros H. destruct p as [n|i].
  - destruct (where_is n l) as [[i [[us' x] vs']]|] eqn:E; [|discriminate]. apply where_is_some in E. destruct q as [m|j].
    + destruct (split_at m ((n, x) :: vs')) as [[[xs' y] vs'']|] eqn:Es; [|discriminate]. injection H as <- <- <- <-. apply split_at_some in Es. rewrite <- Es.
      split; [exact E|]. split; reflexivity.
    + destruct (Nat.eqb_spec i j) as [<-|]; [|discriminate]. injection H as <- <- <- <-. rewrite app_nil_r. auto.
  - destruct (l !! i) as [xs'|] eqn:E; [|discriminate]. destruct q as [m|j]; [discriminate|].
    destruct (Nat.eqb_spec i j) as [<-|]; [|discriminate]. injection H as <- <- <- <-. rewrite !app_nil_r. auto.
Qed.

Notation F := (fun s : ispec => refuses pol (elements_total (strip (s_lists s)))).
Theorem a_step_or o s w : iR s w -> magree_or iR F (as_step eqb dbl o s) (a_step junk eqb dbl o w).
Proof.
  destruct o as [o|k b e a|b e g]; cbn [as_step a_step]; [apply it_step_or| |]; intros (f & H); unfold with_it.
  - destruct (s_its s !! b) as [p|] eqn:Eb; [|exact I]. destruct (s_its s !! e) as [q|] eqn:Ee; [|exact I].
    destruct (range _ p q) as [[id [[us xs] vs]]|] eqn:Er; [|exact I]. apply range_some in Er as (E & -> & ->).
    left. eexists. split.
    + rewrite (bind_ok _ _ _ _ _ (get_it_ok _ _ _ _ _ _ _ H Eb)), (bind_ok _ _ _ _ _ (get_it_ok _ _ _ _ _ _ _ H Ee)). erewrite bind_ok by reflexivity.
      erewrite bind_ok; [reflexivity|]. eapply find_ok; [exact H|exact E|].
      pose proof (ring_fits dbl _ _ _ _ (proj1 H) (ren_some f _ _ _ E)) as Hl. unfold renl in Hl. rewrite fmap_length, !app_length in Hl. lia.
    + exists f. apply set_it_R; [exact H|]. destruct H as (_ & _ & Hb & Hi & _). unfold find_in. destruct (List.find _ xs) as [[n x]|] eqn:Ef; [|exact (Hi _ _ Ee)].
      apply find_some in Ef as [Ef _]. apply elem_of_list_In in Ef. apply (Hb _ _ _ E). apply elem_of_list_fmap. exists (n, x). split; [reflexivity|].
      apply elem_of_app. right. apply elem_of_app. left. exact Ef.
  - destruct (s_its s !! b) as [p|] eqn:Eb; [|exact I]. destruct (s_its s !! e) as [q|] eqn:Ee; [|exact I].
    destruct (range _ p q) as [[id [[us xs] vs]]|] eqn:Er; [|exact I]. apply range_some in Er as (E & -> & ->).
    destruct (each_ok f id g vs xs us s w (size (l_cells (fst w))) H E) as (w' & R & H').
    { pose proof (ring_fits dbl _ _ _ _ (proj1 H) (ren_some f _ _ _ E)) as Hl. unfold renl in Hl. rewrite fmap_length, !app_length in Hl. lia. }
    left. exists w'. split; [|exists f; exact H'].
    rewrite (bind_ok _ _ _ _ _ (get_it_ok _ _ _ _ _ _ _ H Eb)), (bind_ok _ _ _ _ _ (get_it_ok _ _ _ _ _ _ _ H Ee)). erewrite bind_ok by reflexivity.
    rewrite (bind_ok _ _ _ _ _ R). reflexivity.
Qed.
End Lists.

Theorem algo_lists_or : forall (A : Type) (junk : A) (eqb : A -> A -> bool) (dbl : bool) (pol : policy) (ops : list (aop A)), sound pol ->
  match srun (as_step eqb dbl) ops ispec0 with
  | SVal (rs, _) => (exists w, mrun (a_step junk eqb dbl) ops (lst_init pol, ∅) = Ok (rs, w)) \/
      (mrun (a_step junk eqb dbl) ops (lst_init pol, ∅) = Abort /\
       exists ops1 ops2 rs1 s1, ops = ops1 ++ ops2 /\ srun (as_step eqb dbl) ops1 ispec0 = SVal (rs1, s1) /\ refuses pol (elements_total (strip (s_lists s1))))
  | SAbort => mrun (a_step junk eqb dbl) ops (lst_init pol, ∅) = Abort
  | SUnspec => True
  end.
Proof.
  intros A junk eqb dbl pol ops Hs. pose proof (mrun_agree_or (a_step junk eqb dbl) (as_step eqb dbl) _ _ (a_step_or junk eqb dbl pol) ops ispec0 (lst_init pol, ∅) (iR_init dbl pol Hs)) as H.
  destruct (srun _ ops ispec0) as [[rs s]| |]; [|exact H|exact I]. destruct H as [(w & R & _)|H]; [left; eauto|right; exact H].
Qed.
Theorem algo_lists : forall (A : Type) (junk : A) (eqb : A -> A -> bool) (dbl : bool) (pol : policy) (ops : list (aop A)), sound pol -> grants pol ->
  match srun (as_step eqb dbl) ops ispec0 with
  | SVal (rs, _) => exists w, mrun (a_step junk eqb dbl) ops (lst_init pol, ∅) = Ok (rs, w)
  | SAbort => mrun (a_step junk eqb dbl) ops (lst_init pol, ∅) = Abort
  | SUnspec => True
  end.
Proof.
  intros A junk eqb dbl pol ops Hs Hg. pose proof (algo_lists_or A junk eqb dbl pol ops Hs) as H. destruct (srun _ ops ispec0) as [[rs s]| |]; [|exact H|exact I].
  destruct H as [H|(_ & ops1 & ops2 & rs1 & s1 & _ & _ & Hr)]; [exact H|]. destruct (grants_refuses _ _ Hg Hr).
Qed.

