(** List iterators keep their place. *)
From Verif Require Import Base Alloc AllocProofs VectorModel VectorSpec Adapter Hist ListModel ListSpec ListProofs ListHist ListHist2 ListHist3 ListIterModel ListIterSpec.

Lemma number_snd {A} (l : list A) : forall n, (number n l).*2 = l.
Proof. induction l as [|a l IH]; intros n; simpl; [reflexivity|]. f_equal. apply IH. Qed.
Lemma number_fst {A} (l : list A) : forall n m, m ∈ (number n l).*1 -> n <= m < n + length l.
Proof.
  induction l as [|a l IH]; intros n m; simpl; [intros H; inversion H|]. intros [->|H]%elem_of_cons; [lia|]. apply IH in H. lia.
Qed.

(** Numbers to addresses. *)
Section Ren.
Context {A : Type}.
Implicit Types (f g : nat -> nat) (l : gmap nat (list (nat * A))) (xs ys zs : list (nat * A)).
Definition renl f xs : list (nat * A) := (fun nx => (f (fst nx), snd nx)) <$> xs.
Definition ren f l : gmap nat (list (nat * A)) := renl f <$> l.
Definition below (n : nat) l : Prop := forall id xs m, l !! id = Some xs -> m ∈ xs.*1 -> m < n.

Lemma renl_snd f xs : (renl f xs).*2 = xs.*2.
Proof. unfold renl. rewrite <- list_fmap_compose. reflexivity. Qed.
Lemma renl_fst f xs : (renl f xs).*1 = f <$> xs.*1.
Proof. unfold renl. rewrite <- !list_fmap_compose. reflexivity. Qed.
Lemma renl_app f xs ys : renl f (xs ++ ys) = renl f xs ++ renl f ys.
Proof. apply fmap_app. Qed.
Lemma renl_cons f n a xs : renl f ((n, a) :: xs) = (f n, a) :: renl f xs.
Proof. reflexivity. Qed.
Lemma renl_nil f xs : renl f xs = [] -> xs = [].
Proof. apply fmap_nil_inv. Qed.
Lemma renl_ext f g xs n : (forall m, m ∈ xs.*1 -> m < n) -> (forall m, m < n -> g m = f m) -> renl g xs = renl f xs.
Proof. intros H E. apply list_fmap_ext. intros i [m x] Hi. simpl. f_equal. apply E, H. apply elem_of_list_fmap. exists (m, x). split; [reflexivity|]. eapply elem_of_list_lookup_2. exact Hi. Qed.
Lemma ren_insert f id xs l : ren f (<[id := xs]> l) = <[id := renl f xs]> (ren f l).
Proof. apply fmap_insert. Qed.
Lemma ren_delete f id l : ren f (delete id l) = delete id (ren f l).
Proof. apply fmap_delete. Qed.
Lemma ren_some f l id xs : l !! id = Some xs -> ren f l !! id = Some (renl f xs).
Proof. intros E. unfold ren. rewrite lookup_fmap, E. reflexivity. Qed.
Lemma ren_none f l id : l !! id = None -> ren f l !! id = None.
Proof. intros E. unfold ren. rewrite lookup_fmap, E. reflexivity. Qed.
Lemma ren_ext f g l n : below n l -> (forall m, m < n -> g m = f m) -> ren g l = ren f l.
Proof. intros H E. apply map_fmap_ext. intros id xs Hx. eapply renl_ext; [|exact E]. intros m. exact (H id xs m Hx). Qed.

(** Numbers for new elements wherever they are. *)
Lemma ren_new : forall xs f n, exists g, (forall m, m < n -> g m = f m) /\ renl g (number n xs.*2) = xs.
Proof.
  induction xs as [|[a x] xs IH]; intros f n; [exists f; auto|].
  destruct (IH (fun m => if decide (m = n) then a else f m) (S n)) as (g & Hg & E). exists g. split.
  - intros m Hm. rewrite Hg, decide_False by lia. reflexivity.
  - cbn [fmap list_fmap number renl fst snd]. rewrite Hg, decide_True by lia. f_equal. exact E.
Qed.
Lemma ren_new1 a f n : exists g, (forall m, m < n -> g m = f m) /\ g n = a.
Proof. exists (fun m => if decide (m = n) then a else f m). split; [intros m Hm; apply decide_False; lia|apply decide_True; reflexivity]. Qed.

Lemma below_look n l id xs : below n l -> l !! id = Some xs -> forall m, m ∈ xs.*1 -> m < n.
Proof. intros H E m. exact (H id xs m E). Qed.
Lemma below_insert n k l id xs : below n l -> n <= k -> (forall m, m ∈ xs.*1 -> m < k) -> below k (<[id := xs]> l).
Proof. intros H Hk Hx i ys m [[-> <-]|[_ E]]%lookup_insert_Some Hm; [apply Hx; exact Hm|]. specialize (H _ _ _ E Hm). lia. Qed.
Lemma below_delete n l id : below n l -> below n (delete id l).
Proof. intros H i ys m [_ E]%lookup_delete_Some. exact (H _ _ _ E). Qed.
Lemma new_elems_lists (s : ispec) id xs l : s_lists (new_elems s id (<[id := xs]> l)) = <[id := number (s_next s) xs.*2]> l.
Proof. unfold new_elems. cbn [s_lists]. rewrite lookup_insert. simpl. apply insert_insert. Qed.
Lemma new_elems_next (s : ispec) id xs l : s_next (new_elems s id (<[id := xs]> l)) = s_next s + length xs.
Proof. unfold new_elems. cbn [s_next]. rewrite lookup_insert. reflexivity. Qed.

(** Numbers are given out in order, and iterators are left alone. *)
Lemma lists_step_below dbl o (s : ispec) r s' : below (s_next s) (s_lists s) -> lists_step (A := A) dbl o s = SVal (r, s') ->
  below (s_next s') (s_lists s') /\ s_next s <= s_next s' /\ s_its s' = s_its s.
Proof.
  destruct s as [l n its]. intros H E. cbn [s_next s_lists s_its] in *.
  assert (Hnew : forall id ys, s' = new_elems (ISpec l n its) id (<[id := ys]> l) -> below (s_next s') (s_lists s') /\ n <= s_next s' /\ s_its s' = its).
  { intros id ys ->. rewrite new_elems_next, new_elems_lists. cbn [s_next]. split; [|split; [lia|reflexivity]].
    eapply below_insert; [exact H|lia|]. intros m Hm%number_fst. rewrite fmap_length in Hm. lia. }
  assert (Hins : forall id ys, s' = ISpec (<[id := ys]> l) n its -> (forall m, m ∈ ys.*1 -> m < n) -> below (s_next s') (s_lists s') /\ n <= s_next s' /\ s_its s' = its).
  { intros id ys -> Hy. split; [|split; [simpl; lia|reflexivity]]. cbn [s_next s_lists]. eapply below_insert; [exact H|lia|exact Hy]. }
  assert (Hsame : s' = ISpec l n its -> below (s_next s') (s_lists s') /\ n <= s_next s' /\ s_its s' = its) by (intros ->; auto).
  assert (Hpush : forall id ys, s' = ISpec (<[id := ys]> l) (S n) its -> (forall m, m ∈ ys.*1 -> m < S n) -> below (s_next s') (s_lists s') /\ n <= s_next s' /\ s_its s' = its).
  { intros id ys -> Hy. split; [|split; [simpl; lia|reflexivity]]. cbn [s_next s_lists]. eapply below_insert; [exact H|lia|exact Hy]. }
  assert (Hmove : forall id src ys zs, l !! src = Some zs -> (forall m, m ∈ ys.*1 -> m < n) -> s' = ISpec (<[src := ys]> (<[id := zs]> l)) n its -> below (s_next s') (s_lists s') /\ n <= s_next s' /\ s_its s' = its).
  { intros id src ys zs Ez Hy ->. split; [|split; [simpl; lia|reflexivity]]. cbn [s_next s_lists]. eapply below_insert; [eapply below_insert; [exact H|reflexivity|]|reflexivity|exact Hy].
    exact (below_look _ _ _ _ H Ez). }
  assert (Hnil : forall m, m ∈ (@nil (nat * A)).*1 -> m < n) by (intros m Hm; inversion Hm).
  assert (Hfront : forall id xs a, l !! id = Some xs -> forall m, m ∈ ((n, a) :: xs).*1 -> m < S n).
  { intros id xs a Ex m. simpl. intros [->|Hm]%elem_of_cons; [lia|]. pose proof (H _ _ _ Ex Hm). lia. }
  unfold lists_step in E.
  destruct o; cbn [op_map ls_step s_lists s_next] in E; unfold no_list, with_list in E;
    try (destruct (l !! id) as [xs|] eqn:Ei); try (destruct (l !! src) as [ys|] eqn:Es); try discriminate E;
    try (destruct (Nat.eqb_spec id src) as [->|Hne]; [injection E as <- <-; apply Hsame; reflexivity|]).
  - injection E as <- <-. eapply Hins; [reflexivity|exact Hnil].
  - injection E as <- <-. eapply Hnew. reflexivity.
  - destruct dbl; [|destruct ys; [|discriminate]]; injection E as <- <-; eapply Hnew; reflexivity.
  - destruct ys; [discriminate|]. injection E as <- <-. eapply Hmove; [exact Es|exact Hnil|reflexivity].
  - destruct dbl; [|destruct ys; [|discriminate]]; injection E as <- <-; eapply Hnew; reflexivity.
  - destruct ys; [discriminate|]. injection E as <- <-. eapply Hmove; [exact Es|exact Hnil|reflexivity].
  - injection E as <- <-. cbn [s_next s_lists s_its]. split; [apply below_delete; exact H|auto].
  - injection E as <- <-. eapply Hins; [reflexivity|exact Hnil].
  - injection E as <- <-. eapply Hpush; [reflexivity|]. eapply Hfront. exact Ei.
  - injection E as <- <-. eapply Hpush; [reflexivity|]. intros m. rewrite fmap_app. intros [Hm|Hm]%elem_of_app; [pose proof (H _ _ _ Ei Hm); lia|].
    apply elem_of_list_singleton in Hm. simpl in Hm. lia.
  - destruct xs as [|y xs]; [discriminate|]. injection E as <- <-. eapply Hins; [reflexivity|]. intros m Hm. apply (H _ _ _ Ei). right. exact Hm.
  - destruct xs as [|y xs _] using rev_ind; [discriminate|]. rewrite removelast_last in E. destruct (xs ++ [y]) eqn:Ex; [destruct xs; discriminate|].
    injection E as <- <-. eapply Hins; [reflexivity|]. intros m Hm. apply (H _ _ _ Ei). rewrite <- Ex, fmap_app. apply elem_of_app. left. exact Hm.
  - destruct dbl; [|destruct xs; [discriminate|]]; injection E as <- <-; (eapply Hpush; [reflexivity|]; eapply Hfront; exact Ei).
  - destruct xs as [|y xs]; [discriminate|]. destruct dbl; [|destruct xs; [discriminate|]]; injection E as <- <-; (eapply Hins; [reflexivity|]; intros m Hm; apply (H _ _ _ Ei); right; exact Hm).
  - destruct xs; [discriminate|]. injection E as <- <-. apply Hsame. reflexivity.
  - destruct (last xs); [|discriminate]. injection E as <- <-. apply Hsame. reflexivity.
  - injection E as <- <-. apply Hsame. reflexivity.
  - injection E as <- <-. apply Hsame. reflexivity.
  - injection E as <- <-. apply Hsame. reflexivity.
  - destruct dbl; [|discriminate]. injection E as <- <-. apply Hsame. reflexivity.
Qed.
End Ren.

Section Lists.
Context {A : Type} (junk : A).
Implicit Types (st : lst A) (l : gmap nat (list (nat * A))) (f : nat -> nat).

(** The lists alone: layouts are the numbered elements at the addresses [f] gives. *)
Definition lagree (dbl : bool) (n : nat) f (pol : policy) (r : sres (out A * ispec)) (c : res (out A * lst A)) : Prop :=
  match r with
  | SVal (x, s') => (exists st' f', c = Ok (x, st') /\ inv dbl (ren f' (s_lists s')) st' /\ (dbl = false -> tails (ren f' (s_lists s')) st') /\
      (forall m, m < n -> f' m = f m) /\ al_pol (l_al st') = pol) \/ c = Abort
  | SAbort => c = Abort
  | SUnspec => True
  end.

Ltac pol := repeat match goal with H : l_al ?x = _ |- context [l_al ?x] => rewrite H | H : al_pol (l_al ?x) = _ |- context [al_pol (l_al ?x)] => rewrite H end;
  try reflexivity; try assumption.
(** Without new elements; with new elements in list [id]; with one new element. *)
Ltac old f st' := left; exists st', f; split; [|cbn [s_lists]; split; [|split; [|split; [reflexivity|pol]]]; rewrite ?ren_insert, ?ren_delete; [eassumption|first [intros [=]; fail|intros _; eassumption]]].
Ltac many f n xs' st' Hb := let g := fresh "g" in let Hg := fresh "Hg" in let Eg := fresh "Eg" in
  destruct (ren_new xs' f n) as (g & Hg & Eg);
  left; exists st', g; split; [|rewrite ?new_elems_lists; cbn [s_next s_lists]; split; [|split; [|split; [exact Hg|pol]]];
    rewrite ren_insert, (ren_ext f g _ n Hb Hg); [|first [intros [=]; fail|intros _]]].
Ltac one f n k st' Hb E := let g := fresh "g" in let Hg := fresh "Hg" in let Eg := fresh "Eg" in
  destruct (ren_new1 k f n) as (g & Hg & Eg);
  left; exists st', g; split; [|cbn [s_lists]; split; [|split; [|split; [exact Hg|pol]]];
    rewrite ren_insert, (ren_ext f g _ n Hb Hg), ?renl_app; [|first [intros [=]; fail|intros _]];
    rewrite renl_cons, Eg; (match type of E with _ = Some ?xs => rewrite (renl_ext f g xs n (below_look _ _ _ _ Hb E) Hg) end)].

Lemma repeat_snd {X} (n : nat) (x : X) (a : A) : ((repeat (x, a) n).*2 : list A) = repeat a n.
Proof. induction n; simpl; [reflexivity|]. f_equal. assumption. Qed.

Lemma dl_lists o f l n its st : inv true (ren f l) st -> below n l ->
  lagree true n f (al_pol (l_al st)) (lists_step true o (ISpec l n its)) (dl_step junk o st).
Proof.
  intros H Hb. unfold lists_step. destruct o; cbn [op_map ls_step dl_step s_lists s_next]; unfold no_list, with_list.
  - destruct (l !! id) as [xs|] eqn:E; [exact I|].
    destruct (init_ok junk true _ _ _ H (ren_none f _ _ E)) as (st' & R & Hi & _ & Hf). old f st'. apply unit_out_ok. exact R.
  - destruct (l !! id) as [xs|] eqn:E; [exact I|].
    destruct (init_ok junk true _ _ _ H (ren_none f _ _ E)) as (st1 & R & Hi & _ & Hf).
    destruct (dl_fill_ok id a n0 _ _ _ Hi (lookup_insert _ _ _)) as [(st' & xs' & R2 & Hi2 & E2 & Hf2)|[R2 _]];
      [|right; apply unit_out_abort; rewrite (bind_ok _ _ _ _ _ R); exact R2].
    rewrite insert_insert in Hi2. simpl in Hi2.
    many f n xs' st' Hb; [apply unit_out_ok; rewrite (bind_ok _ _ _ _ _ R); exact R2|].
    rewrite repeat_snd, <- E2, Eg. exact Hi2.
  - destruct (l !! id) as [xs|] eqn:E; [exact I|]. destruct (l !! src) as [ys|] eqn:E2; [|exact I].
    assert (Hne : id <> src) by congruence.
    destruct (init_ok junk true _ _ _ H (ren_none f _ _ E)) as (st1 & R & Hi & _ & Hf).
    destruct (dl_assign_ok _ _ id src [] (renl f ys) Hi (lookup_insert _ _ _)) as [(st' & xs' & R2 & Hi2 & E3 & Hf2)|[R2 _]];
      [rewrite lookup_insert_ne by congruence; apply ren_some; exact E2|exact Hne| |right; apply unit_out_abort; rewrite (bind_ok _ _ _ _ _ R); exact R2].
    rewrite insert_insert in Hi2. rewrite renl_snd in E3.
    many f n xs' st' Hb; [apply unit_out_ok; rewrite (bind_ok _ _ _ _ _ R); exact R2|]. rewrite <- E3, Eg. exact Hi2.
  - destruct (l !! id) as [xs|] eqn:E; [exact I|]. destruct (l !! src) as [ys|] eqn:E2; [|exact I].
    assert (Hne : id <> src) by congruence. destruct ys as [|b ys'] eqn:Ey; [exact I|]. rewrite <- Ey in *.
    destruct (init_ok junk true _ _ _ H (ren_none f _ _ E)) as (st1 & R & Hi & _ & Hf).
    destruct (dl_move_ok _ _ id src [] (renl f ys) Hi (lookup_insert _ _ _)) as (st' & R2 & Hi2 & Hf2); [rewrite lookup_insert_ne by congruence; apply ren_some; exact E2|exact Hne|subst; discriminate|].
    rewrite insert_insert in Hi2. old f st'. apply unit_out_ok. rewrite (bind_ok _ _ _ _ _ R). exact R2.
  - destruct (l !! id) as [xs|] eqn:E; [|exact I]. destruct (l !! src) as [ys|] eqn:E2; [|exact I].
    destruct (Nat.eqb_spec id src) as [->|Hne].
    { old f st. apply unit_out_ok. unfold dl_assign. rewrite Nat.eqb_refl. reflexivity. }
    destruct (dl_assign_ok _ _ id src (renl f xs) (renl f ys) H (ren_some f _ _ _ E) (ren_some f _ _ _ E2) Hne) as [(st' & xs' & R2 & Hi2 & E3 & Hf2)|[R2 _]]; [|right; apply unit_out_abort; exact R2].
    rewrite renl_snd in E3. many f n xs' st' Hb; [apply unit_out_ok; exact R2|]. rewrite <- E3, Eg. exact Hi2.
  - destruct (l !! id) as [xs|] eqn:E; [|exact I]. destruct (l !! src) as [ys|] eqn:E2; [|exact I].
    destruct (Nat.eqb_spec id src) as [->|Hne].
    { old f st. apply unit_out_ok. unfold dl_move. rewrite Nat.eqb_refl. reflexivity. }
    destruct ys as [|b ys'] eqn:Ey; [exact I|]. rewrite <- Ey in *.
    destruct (dl_move_ok _ _ id src _ _ H (ren_some f _ _ _ E) (ren_some f _ _ _ E2) Hne) as (st' & R2 & Hi2 & Hf); [subst; discriminate|].
    old f st'. apply unit_out_ok. exact R2.
  - destruct (l !! id) as [xs|] eqn:E; [|exact I].
    destruct (destroy_ok _ _ _ _ _ H (ren_some f _ _ _ E)) as (st' & R & Hi & _ & Hf). old f st'. apply unit_out_ok. exact R.
  - destruct (l !! id) as [xs|] eqn:E; [|exact I].
    destruct (clear_ok _ _ _ _ _ H (ren_some f _ _ _ E)) as (st' & R & Hi & _ & Hf). old f st'. apply unit_out_ok. exact R.
  - destruct (l !! id) as [xs|] eqn:E; [|exact I].
    destruct (push_front_ok _ _ _ _ _ a H (ren_some f _ _ _ E)) as [(st' & k & R & Hi & _ & _ & Hf)|[R _]]; [|right; apply unit_out_abort; exact R].
    one f n k st' Hb E. { apply unit_out_ok. exact R. } exact Hi.
  - destruct (l !! id) as [xs|] eqn:E; [|exact I].
    destruct (dl_push_back_ok _ _ _ _ a H (ren_some f _ _ _ E)) as [(st' & k & R & Hi & Hf)|[R _]]; [|right; apply unit_out_abort; exact R].
    one f n k st' Hb E. { apply unit_out_ok. exact R. } exact Hi.
  - destruct (l !! id) as [[|[a x] xs]|] eqn:E; [| |exact I]; apply (ren_some f) in E.
    + apply unit_out_abort. eapply pop_front_abort; eassumption.
    + destruct (pop_front_ok _ _ _ _ _ _ _ H E) as (st' & R & Hi & _ & _ & Hf). old f st'. apply unit_out_ok. exact R.
  - destruct (l !! id) as [xs|] eqn:E; [|exact I]. apply (ren_some f) in E.
    destruct xs as [|[a x] us _] using rev_ind; [apply unit_out_abort; eapply dl_pop_back_abort; eassumption|]. rewrite renl_app in E.
    destruct (dl_pop_back_ok _ _ _ _ _ _ H E) as (st' & R & Hi & Hf).
    rewrite removelast_last. destruct (us ++ [(a, x)]) eqn:Eu; [destruct us; discriminate|].
    old f st'. apply unit_out_ok. exact R.
  - destruct (l !! id) as [xs|] eqn:E; [|exact I].
    destruct (push_front_ok _ _ _ _ _ a H (ren_some f _ _ _ E)) as [(st' & k & R & Hi & _ & _ & Hf)|[R _]]; [|right; apply unit_out_abort; exact R].
    one f n k st' Hb E. { apply unit_out_ok. exact R. } exact Hi.
  - destruct (l !! id) as [[|[a x] xs]|] eqn:E; [| |exact I]; apply (ren_some f) in E.
    + apply unit_out_abort. eapply pop_front_abort; eassumption.
    + destruct (pop_front_ok _ _ _ _ _ _ _ H E) as (st' & R & Hi & _ & _ & Hf). old f st'. apply unit_out_ok. exact R.
  - destruct (l !! id) as [[|[a x] xs]|] eqn:E; [exact I| |exact I]. apply (ren_some f) in E. rewrite renl_cons in E.
    old f st. erewrite bind_ok by (eapply front_ok; eassumption). reflexivity.
  - destruct (l !! id) as [xs|] eqn:E; [|exact I]. apply (ren_some f) in E.
    destruct xs as [|[a x] us _] using rev_ind; [simpl; apply bind_abort; eapply dl_back_abort; eassumption|]. rewrite renl_app, renl_cons in E.
    rewrite last_snoc. old f st. erewrite bind_ok by (eapply dl_back_ok; eassumption). reflexivity.
  - destruct (l !! id) as [xs|] eqn:E; [|exact I]. apply (ren_some f) in E.
    old f st. rewrite (bind_ok _ _ _ _ _ (ld_size_ok _ _ _ (size_of _ _ _ _ _ H E))). unfold renl. rewrite fmap_length. reflexivity.
  - destruct (l !! id) as [xs|] eqn:E; [|exact I]. apply (ren_some f) in E.
    old f st. erewrite bind_ok by (eapply empty_ok; eassumption). destruct xs; reflexivity.
  - destruct (l !! id) as [xs|] eqn:E; [|exact I]. apply (ren_some f) in E.
    old f st. erewrite bind_ok by (eapply iter_ok; eassumption). rewrite renl_snd. reflexivity.
  - destruct (l !! id) as [xs|] eqn:E; [|exact I]. apply (ren_some f) in E.
    old f st. erewrite bind_ok by (eapply dl_riter_ok; eassumption). rewrite renl_snd. simpl. rewrite <- map_rev. reflexivity.
Qed.

Lemma sl_lists o f l n its st : inv false (ren f l) st -> tails (ren f l) st -> below n l ->
  lagree false n f (al_pol (l_al st)) (lists_step false o (ISpec l n its)) (sl_step junk o st).
Proof.
  intros H Ht Hb. unfold lists_step. destruct o; cbn [op_map ls_step sl_step s_lists s_next]; unfold no_list, with_list.
  - destruct (l !! id) as [xs|] eqn:E; [exact I|].
    destruct (init_ok junk false _ _ _ H (ren_none f _ _ E)) as (st' & R & Hi & Ht1 & Hf). pose proof (tails_init _ _ _ _ Ht Ht1). old f st'. apply unit_out_ok. exact R.
  - destruct (l !! id) as [xs|] eqn:E; [exact I|].
    destruct (init_ok junk false _ _ _ H (ren_none f _ _ E)) as (st1 & R & Hi & Ht1 & Hf). pose proof (tails_init _ _ _ _ Ht Ht1) as Ht1'.
    destruct (sl_fill_ok id a n0 _ _ _ Hi Ht1' (lookup_insert _ _ _)) as [(st' & xs' & R2 & Hi2 & Ht2 & E2 & Hf2)|[R2 _]];
      [|right; apply unit_out_abort; rewrite (bind_ok _ _ _ _ _ R); exact R2].
    rewrite insert_insert in Hi2, Ht2. simpl in Hi2, Ht2.
    many f n xs' st' Hb; [apply unit_out_ok; rewrite (bind_ok _ _ _ _ _ R); exact R2| |]; rewrite repeat_snd, <- E2, Eg; assumption.
  - destruct (l !! id) as [xs|] eqn:E; [exact I|]. destruct (l !! src) as [[|y ys]|] eqn:E2; [|exact I|exact I]. apply (ren_some f) in E2.
    assert (Hne : id <> src) by (intros ->; rewrite (ren_none f _ _ E) in E2; discriminate).
    destruct (init_ok junk false _ _ _ H (ren_none f _ _ E)) as (st1 & R & Hi & Ht1 & Hf). pose proof (tails_init _ _ _ _ Ht Ht1) as Ht1'.
    destruct (sl_clear_ok _ _ _ _ (Head id) Hi (lookup_insert _ _ _)) as (st2 & R2 & Hi2 & Ht2 & Hf2); [rewrite Ht1; apply lookup_insert|].
    pose proof (tails_init _ _ _ _ Ht1' Ht2) as Ht2'. rewrite insert_insert in Hi2, Ht2'.
    rewrite <- (app_nil_r (@nil (nat * A))) in Hi2, Ht2'.
    many f n (@nil (nat * A)) st2 Hb; [|exact Hi2|exact Ht2'].
    apply unit_out_ok. rewrite (bind_ok _ _ _ _ _ R). unfold sl_assign. rewrite (proj2 (Nat.eqb_neq id src) Hne).
    rewrite (bind_ok _ _ _ _ _ R2). erewrite bind_ok by (apply ld_size_ok; apply (size_of _ _ _ src [] Hi2); rewrite lookup_insert_ne by congruence; exact E2). reflexivity.
  - destruct (l !! id) as [xs|] eqn:E; [exact I|]. destruct (l !! src) as [ys|] eqn:E2; [|exact I].
    assert (Hne : id <> src) by congruence. destruct ys as [|b ys'] eqn:Ey; [exact I|]. rewrite <- Ey in *.
    destruct (init_ok junk false _ _ _ H (ren_none f _ _ E)) as (st1 & R & Hi & Ht1 & Hf). pose proof (tails_init _ _ _ _ Ht Ht1) as Ht1'.
    destruct (sl_move_ok _ _ id src [] (renl f ys) Hi Ht1' (lookup_insert _ _ _)) as (st' & R2 & Hi2 & Ht2 & Hf2); [rewrite lookup_insert_ne by congruence; apply ren_some; exact E2|exact Hne|subst; discriminate|].
    rewrite insert_insert in Hi2, Ht2. old f st'. apply unit_out_ok. rewrite (bind_ok _ _ _ _ _ R). exact R2.
  - destruct (l !! id) as [xs|] eqn:E; [|exact I]. destruct (l !! src) as [ys|] eqn:E2; [|exact I].
    destruct (Nat.eqb_spec id src) as [->|Hne].
    { old f st. apply unit_out_ok. unfold sl_assign. rewrite Nat.eqb_refl. reflexivity. }
    destruct ys as [|y ys]; [|exact I]. apply (ren_some f) in E, E2.
    destruct (last (Head id :: nodes (renl f xs))) as [t|] eqn:El; [|apply last_None in El; discriminate].
    destruct (sl_clear_ok _ _ _ _ t H E) as (st2 & R2 & Hi2 & Ht2 & Hf2); [rewrite (Ht _ _ E); exact El|].
    pose proof (tails_init _ _ _ _ Ht Ht2) as Ht2'.
    many f n (@nil (nat * A)) st2 Hb; [|exact Hi2|exact Ht2'].
    apply unit_out_ok. unfold sl_assign. rewrite (proj2 (Nat.eqb_neq id src) Hne).
    rewrite (bind_ok _ _ _ _ _ R2). erewrite bind_ok by (apply ld_size_ok; apply (size_of _ _ _ src [] Hi2); rewrite lookup_insert_ne by congruence; exact E2). reflexivity.
  - destruct (l !! id) as [xs|] eqn:E; [|exact I]. destruct (l !! src) as [ys|] eqn:E2; [|exact I].
    destruct (Nat.eqb_spec id src) as [->|Hne].
    { old f st. apply unit_out_ok. unfold sl_move. rewrite Nat.eqb_refl. reflexivity. }
    destruct ys as [|b ys'] eqn:Ey; [exact I|]. rewrite <- Ey in *.
    destruct (sl_move_ok _ _ id src _ _ H Ht (ren_some f _ _ _ E) (ren_some f _ _ _ E2) Hne) as (st' & R2 & Hi2 & Ht2 & Hf); [subst; discriminate|].
    old f st'. apply unit_out_ok. exact R2.
  - destruct (l !! id) as [xs|] eqn:E; [|exact I].
    destruct (destroy_ok _ _ _ _ _ H (ren_some f _ _ _ E)) as (st' & R & Hi & Ht1 & Hf).
    assert (Ht' : tails (delete id (ren f l)) st').
    { intros j ys [Hj Ej]%lookup_delete_Some. rewrite Ht1, lookup_delete_ne by exact Hj. apply Ht. exact Ej. }
    old f st'. apply unit_out_ok. exact R.
  - destruct (l !! id) as [xs|] eqn:E; [|exact I]. apply (ren_some f) in E.
    destruct (last (Head id :: nodes (renl f xs))) as [t|] eqn:El; [|apply last_None in El; discriminate].
    destruct (sl_clear_ok _ _ _ _ t H E) as (st2 & R2 & Hi2 & Ht2 & Hf2); [rewrite (Ht _ _ E); exact El|].
    pose proof (tails_init _ _ _ _ Ht Ht2). old f st2. apply unit_out_ok. exact R2.
  - destruct (l !! id) as [xs|] eqn:E; [|exact I].
    destruct (sl_push_front_ok _ _ _ _ a H Ht (ren_some f _ _ _ E)) as [(st' & k & R & Hi & Ht1 & Hf)|[R _]]; [|right; apply unit_out_abort; exact R].
    one f n k st' Hb E. { apply unit_out_ok. exact R. } { exact Hi. } exact Ht1.
  - destruct (l !! id) as [xs|] eqn:E; [|exact I].
    destruct (sl_push_back_ok _ _ _ _ a H Ht (ren_some f _ _ _ E)) as [(st' & k & R & Hi & Ht1 & Hf)|[R _]]; [|right; apply unit_out_abort; exact R].
    one f n k st' Hb E. { apply unit_out_ok. exact R. } { exact Hi. } exact Ht1.
  - destruct (l !! id) as [[|[a x] xs]|] eqn:E; [| |exact I]; apply (ren_some f) in E.
    + apply unit_out_abort. unfold sl_pop_front. apply bind_abort. eapply pop_front_abort; eassumption.
    + destruct (sl_pop_front_ok _ _ _ _ _ _ H Ht E) as (st' & R & Hi & Ht1 & Hf). old f st'. apply unit_out_ok. exact R.
  - destruct (l !! id) as [xs|] eqn:E; [|exact I]. apply (ren_some f) in E.
    destruct xs as [|[a x] us _] using rev_ind; [apply unit_out_abort; eapply sl_pop_back_abort; eassumption|]. rewrite renl_app in E.
    destruct (sl_pop_back_ok _ _ _ _ _ _ H Ht E) as (st' & R & Hi & Ht1 & Hf).
    rewrite removelast_last. destruct (us ++ [(a, x)]) eqn:Eu; [destruct us; discriminate|].
    old f st'. apply unit_out_ok. exact R.
  - destruct (l !! id) as [[|y xs]|] eqn:E; [exact I| |exact I].
    destruct (push_front_ok _ _ _ _ _ a H (ren_some f _ _ _ E)) as [(st' & k & R & Hi & Ht1 & _ & Hf)|[R _]]; [|right; apply unit_out_abort; exact R].
    assert (Ht' : tails (<[id := (k, a) :: renl f (y :: xs)]> (ren f l)) st') by (eapply tails_same; [exact Ht|apply ren_some; exact E|exact Ht1|apply last_cons_nodes; discriminate]).
    one f n k st' Hb E. { apply unit_out_ok. exact R. } { exact Hi. } exact Ht'.
  - destruct (l !! id) as [[|[a x] xs]|] eqn:E; [| |exact I]; apply (ren_some f) in E.
    + apply unit_out_abort. eapply pop_front_abort; eassumption.
    + destruct xs as [|y xs]; simpl; [exact I|].
      destruct (pop_front_ok _ _ _ _ _ _ _ H E) as (st' & R & Hi & Ht1 & _ & Hf).
      assert (Ht' : tails (<[id := renl f (y :: xs)]> (ren f l)) st') by (eapply tails_same; [exact Ht|exact E|exact Ht1|symmetry; apply last_cons_nodes; discriminate]).
      old f st'. apply unit_out_ok. exact R.
  - destruct (l !! id) as [[|[a x] xs]|] eqn:E; [exact I| |exact I]. apply (ren_some f) in E. rewrite renl_cons in E.
    old f st. erewrite bind_ok by (eapply front_ok; eassumption). reflexivity.
  - destruct (l !! id) as [xs|] eqn:E; [|exact I]. apply (ren_some f) in E.
    destruct xs as [|[a x] us _] using rev_ind; [simpl; apply bind_abort; eapply sl_back_abort; eassumption|]. rewrite renl_app, renl_cons in E.
    rewrite last_snoc. old f st. erewrite bind_ok by (eapply sl_back_ok; eassumption). reflexivity.
  - destruct (l !! id) as [xs|] eqn:E; [|exact I]. apply (ren_some f) in E.
    old f st. rewrite (bind_ok _ _ _ _ _ (ld_size_ok _ _ _ (size_of _ _ _ _ _ H E))). unfold renl. rewrite fmap_length. reflexivity.
  - destruct (l !! id) as [xs|] eqn:E; [|exact I]. apply (ren_some f) in E.
    old f st. erewrite bind_ok by (eapply empty_ok; eassumption). destruct xs; reflexivity.
  - destruct (l !! id) as [xs|] eqn:E; [|exact I]. apply (ren_some f) in E.
    old f st. erewrite bind_ok by (eapply iter_ok; eassumption). rewrite renl_snd. reflexivity.
  - destruct (l !! id) as [xs|]; exact I.
Qed.
End Lists.

Section Places.
Context {A : Type}.
Implicit Types (st : lst A) (lay : gmap nat (list (nat * A))) (us vs xs : list (nat * A)).

Lemma split_at_some n (l : list (nat * A)) us x vs : split_at n l = Some (us, x, vs) -> l = us ++ (n, x) :: vs.
Proof.
  revert us. induction l as [|[m y] l IH]; intros us; simpl; [discriminate|].
  destruct (Nat.eqb_spec m n) as [->|Hne]; [intros [= <- <- <-]; reflexivity|].
  destruct (split_at n l) as [[[us' y'] vs']|] eqn:E; [|discriminate]. intros [= <- <- <-]. simpl. f_equal. apply IH. reflexivity.
Qed.
Lemma split_at_none n (l : list (nat * A)) : split_at n l = None -> n ∉ l.*1.
Proof.
  induction l as [|[m y] l IH]; simpl; [intros _ H; inversion H|].
  destruct (Nat.eqb_spec m n) as [->|Hne]; [discriminate|].
  destruct (split_at n l) as [[[us' y'] vs']|] eqn:E; [discriminate|]. intros _ [?|?]%elem_of_cons; [congruence|]. apply IH; auto.
Qed.

Lemma where_is_some n lay id us x vs : where_is n lay = Some (id, (us, x, vs)) -> lay !! id = Some (us ++ (n, x) :: vs).
Proof.
  unfold where_is. intros H. apply head_Some_elem_of in H. apply elem_of_list_omap in H as ([k l] & Hk & E). simpl in E.
  destruct (split_at n l) as [[[us' x'] vs']|] eqn:Es; [|discriminate]. injection E as -> -> -> ->.
  apply elem_of_map_to_list in Hk. rewrite Hk. f_equal. apply split_at_some. exact Es.
Qed.
Lemma where_is_none n lay id xs : where_is n lay = None -> lay !! id = Some xs -> n ∉ xs.*1.
Proof.
  unfold where_is. intros H E. apply split_at_none. destruct (split_at n xs) as [r|] eqn:Es; [|reflexivity]. exfalso.
  apply head_None in H. assert (Hin : (id, r) ∈ @nil (nat * (list (nat * A) * A * list (nat * A)))).
  { rewrite <- H. apply elem_of_list_omap. exists (id, xs). split; [apply elem_of_map_to_list; exact E|]. simpl. rewrite Es. reflexivity. }
  inversion Hin.
Qed.

(** Where a place is in memory. *)
Definition pos (f : nat -> nat) (p : place) : ptr := match p with At n => Node (f n) | EndOf id => Head id end.

Lemma head_pos f id vs : head (nodes (renl f vs) ++ [Head id]) = Some (pos f (first_of id vs)).
Proof. destruct vs as [|[n x] vs]; reflexivity. Qed.
Lemma last_pos f id us : last (Head id :: nodes (renl f us)) = Some (pos f (last_of id us)).
Proof.
  destruct us as [|[n x] us _] using rev_ind; [reflexivity|]. unfold last_of. rewrite last_snoc, renl_app, nodes_app, app_comm_cons. apply last_snoc.
Qed.

Lemma next_pos d f l st p q : inv d (ren f l) st -> next_place l p = Some q -> nx (l_cells st) (pos f p) = Some (pos f q).
Proof.
  intros H. destruct p as [n|id]; simpl.
  - destruct (where_is n l) as [[id [[us x] vs]]|] eqn:E; [|discriminate]. intros [= <-]. apply where_is_some in E.
    assert (E' : ren f l !! id = Some (renl f (us ++ [(n, x)]) ++ renl f vs)) by (rewrite <- renl_app, <- app_assoc; apply ren_some; exact E).
    apply (ring_next d _ _ _ _ _ _ H E'); [|apply head_pos]. rewrite last_pos. unfold last_of. rewrite last_snoc. reflexivity.
  - destruct (l !! id) as [xs|] eqn:E; [|discriminate]. intros [= <-]. apply (ring_next d _ _ _ [] _ _ H (ren_some f _ _ _ E)); [reflexivity|apply head_pos].
Qed.
Lemma prev_pos f l st p q : inv true (ren f l) st -> prev_place l p = Some q -> pv (l_cells st) (pos f p) = Some (pos f q).
Proof.
  intros H. destruct p as [n|id]; simpl.
  - destruct (where_is n l) as [[id [[us x] vs]]|] eqn:E; [|discriminate]. intros [= <-]. apply where_is_some in E. apply (ren_some f) in E. rewrite renl_app, renl_cons in E.
    apply (ring_prev _ _ _ _ _ _ H E (last_pos _ _ _)). reflexivity.
  - destruct (l !! id) as [xs|] eqn:E; [|discriminate]. intros [= <-]. apply (ren_some f) in E. rewrite <- (app_nil_r (renl f xs)) in E.
    apply (ring_prev _ _ _ _ _ _ H E (last_pos _ _ _)). reflexivity.
Qed.

(** Numbers used so far. *)
Definition pbelow (n : nat) (p : place) : Prop := match p with At m => m < n | EndOf _ => True end.
Lemma first_below n id xs : (forall m, m ∈ xs.*1 -> m < n) -> pbelow n (first_of id xs).
Proof. destruct xs as [|[m x] xs]; intros H; [exact I|]. apply H. left. Qed.
Lemma last_below n id xs : (forall m, m ∈ xs.*1 -> m < n) -> pbelow n (last_of id xs).
Proof.
  destruct xs as [|[m x] xs _] using rev_ind; intros H; [exact I|]. unfold last_of. rewrite last_snoc. apply H.
  rewrite fmap_app. apply elem_of_app. right. left.
Qed.
Lemma next_below n (l : gmap nat (list (nat * A))) p q : below n l -> next_place l p = Some q -> pbelow n q.
Proof.
  intros H. destruct p as [m|id]; simpl.
  - destruct (where_is m l) as [[id [[us x] vs]]|] eqn:E; [|discriminate]. intros [= <-]. apply where_is_some in E. apply first_below.
    intros k Hk. apply (H _ _ _ E). rewrite fmap_app. apply elem_of_app. right. right. exact Hk.
  - destruct (l !! id) as [xs|] eqn:E; [|discriminate]. intros [= <-]. apply first_below. exact (below_look _ _ _ _ H E).
Qed.
Lemma prev_below n (l : gmap nat (list (nat * A))) p q : below n l -> prev_place l p = Some q -> pbelow n q.
Proof.
  intros H. destruct p as [m|id]; simpl.
  - destruct (where_is m l) as [[id [[us x] vs]]|] eqn:E; [|discriminate]. intros [= <-]. apply where_is_some in E. apply last_below.
    intros k Hk. apply (H _ _ _ E). rewrite fmap_app. apply elem_of_app. left. exact Hk.
  - destruct (l !! id) as [xs|] eqn:E; [|discriminate]. intros [= <-]. apply last_below. exact (below_look _ _ _ _ H E).
Qed.

(** Elements that exist have addresses of their own. *)
Lemma ren_inj d f l st i j xs ys m n : inv d (ren f l) st -> l !! i = Some xs -> l !! j = Some ys -> m ∈ xs.*1 -> n ∈ ys.*1 -> f m = f n -> m = n.
Proof.
  intros H Ei Ej Hm Hn Ef.
  assert (i = j). { apply (i_disj _ _ _ H _ _ _ _ (f m) (ren_some f _ _ _ Ei) (ren_some f _ _ _ Ej)); rewrite renl_fst; [|rewrite Ef]; apply elem_of_list_fmap_1; assumption. }
  subst j. rewrite Ei in Ej. injection Ej as <-.
  pose proof (i_nodup _ _ _ H _ _ (ren_some f _ _ _ Ei)) as Hnd. rewrite renl_fst in Hnd.
  apply elem_of_list_lookup in Hm as [a Ha]. apply elem_of_list_lookup in Hn as [b Hb].
  assert (a = b). { eapply NoDup_lookup; [exact Hnd| |]; rewrite list_lookup_fmap; [rewrite Ha; reflexivity|rewrite Hb; simpl; rewrite Ef; reflexivity]. }
  congruence.
Qed.
Lemma bool_pos d f l st p q : inv d (ren f l) st -> valid l p = true -> valid l q = true -> bool_decide (pos f p = pos f q) = bool_decide (p = q).
Proof.
  intros H Hp Hq. apply bool_decide_ext. split; [|congruence]. destruct p as [m|i], q as [n|j]; simpl in *; [|discriminate|discriminate|congruence].
  intros [= E]. destruct (where_is m l) as [[i [[us x] vs]]|] eqn:Em; [|discriminate]. destruct (where_is n l) as [[j [[us' x'] vs']]|] eqn:En; [|discriminate].
  apply where_is_some in Em, En. f_equal. eapply ren_inj; [exact H|exact Em|exact En| | |exact E]; rewrite fmap_app; apply elem_of_app; right; left.
Qed.

Lemma nodes_same us n x y vs : nodes (us ++ (n, x) :: vs) = nodes (us ++ (n, y) :: vs).
Proof. unfold nodes. rewrite !fmap_app. reflexivity. Qed.
Lemma fst_same us n (x y : A) vs : (us ++ (n, x) :: vs).*1 = (us ++ (n, y) :: vs).*1.
Proof. rewrite !fmap_app. reflexivity. Qed.

Lemma write_ok d lay st id us n x vs a : inv d lay st -> lay !! id = Some (us ++ (n, x) :: vs) -> exists st',
  st_dat (Node n) a st = Ok (tt, st') /\ inv d (<[id := us ++ (n, a) :: vs]> lay) st' /\ l_tail st' = l_tail st /\ l_al st' = l_al st.
Proof.
  intros H E.
  assert (Hl : dt (l_cells st) (Node n) = Some x) by (eapply i_dat; [exact H|exact E|apply elem_of_app; right; left]).
  destruct (st_dat_ok st (Node n) a) as (C' & R & Hn & Hp & Hd); [rewrite Hl; eauto|].
  exists (set_cells C' st). split; [exact R|]. split; [|split; reflexivity].
  pose proof (i_nodup _ _ _ H _ _ E) as Hnd.
  apply (inv_upd d _ st id _ _ _ H E).
  - unfold ringl. rewrite <- (nodes_same us n x). cbn [set_cells l_cells]. eapply path_frame; [apply (i_ring _ _ _ H _ _ E)| |]; intros; simpl; auto.
  - intros b y Hy. simpl. rewrite Hd. destruct (decide (Node b = Node n)) as [[= ->]|Hb].
    + apply elem_of_app in Hy. rewrite elem_of_cons in Hy. rewrite fmap_app in Hnd. apply NoDup_app in Hnd as (_ & Hx & Hnd). simpl in Hnd. apply NoDup_cons in Hnd as [Hnv _].
      destruct Hy as [Hy|[Hy|Hy]]; [|congruence|].
      * exfalso. apply (Hx n); [apply (elem_of_list_fmap_1 fst) in Hy; exact Hy|left].
      * exfalso. apply Hnv. apply (elem_of_list_fmap_1 fst) in Hy. exact Hy.
    + eapply i_dat; [exact H|exact E|]. rewrite elem_of_app, elem_of_cons in Hy |- *. destruct Hy as [?|[[= -> ->]|?]]; auto. congruence.
  - rewrite (fst_same us n a x). exact Hnd.
  - intros b Hb. left. rewrite (fst_same us n x a). exact Hb.
  - intros r Hr H1 _. simpl. rewrite Hn, Hp, Hd, decide_False; [auto|]. intros ->. apply H1. apply elem_nodes. rewrite fmap_app. apply elem_of_app. right. left.
  - intros b Hb Hb2. exfalso. apply Hb2. rewrite (fst_same us n a x). exact Hb.
  - simpl. rewrite Hd, decide_False by discriminate. apply (i_heads _ _ _ H). eauto.
  - intros b. rewrite (fst_same us n a x). cbn [set_cells l_al]. split; [|intros [Hb|[Hb _]]; [|exact Hb]].
    + intros Hb. destruct (decide (b ∈ (us ++ (n, x) :: vs).*1)); auto.
    + apply (i_al _ _ _ H). eapply i_live; eassumption.
  - reflexivity.
  - apply (i_served _ _ _ H).
  - simpl. rewrite (insert_id (l_size st)); [reflexivity|]. rewrite (size_of _ _ _ _ _ H E). f_equal. rewrite !app_length. reflexivity.
Qed.
End Places.

(** Without the numbers the lists are those of [ls_step]. *)
Lemma strip_insert {A} id xs (l : gmap nat (list (nat * A))) : strip (<[id := xs]> l) = <[id := xs.*2]> (strip l).
Proof. apply fmap_insert. Qed.
Lemma new_elems_strip {A} (s : ispec) id xs (l : gmap nat (list (nat * A))) : strip (s_lists (new_elems s id (<[id := xs]> l))) = <[id := xs.*2]> (strip l).
Proof. unfold new_elems. simpl. rewrite lookup_insert. simpl. rewrite strip_insert, number_snd, strip_insert, insert_insert. reflexivity. Qed.
Lemma snd_nil {A} (l : list (nat * A)) : l.*2 = [] -> l = [].
Proof. apply fmap_nil_inv. Qed.

Theorem iter_lists : forall (A : Type) (dbl : bool) (o : lop A) (s : ispec),
  ls_step dbl o (strip (s_lists s)) =
  match lists_step dbl o s with SVal (r, s') => SVal (r, strip (s_lists s')) | SAbort => SAbort | SUnspec => SUnspec end.
Proof.
  intros A dbl o [l nxt its]. unfold lists_step.
  assert (Hk : forall k, strip l !! k = (fun xs => xs.*2) <$> l !! k) by (intros k; apply lookup_fmap).
  destruct o; cbn [op_map ls_step s_lists s_next]; unfold no_list, with_list; rewrite ?Hk;
    try (destruct (l !! id) as [xs|] eqn:E); try (destruct (l !! src) as [ys|] eqn:E2); cbn [fmap option_fmap option_map]; try reflexivity;
    try (destruct (Nat.eqb_spec id src) as [->|Hne]; [rewrite ?Nat.eqb_refl; reflexivity|]).
  - simpl. rewrite strip_insert. reflexivity.
  - rewrite new_elems_strip, repeat_snd. reflexivity.
  - destruct dbl; [rewrite new_elems_strip; reflexivity|]. destruct ys; [rewrite new_elems_strip|]; reflexivity.
  - destruct ys as [|y ys]; [reflexivity|]. simpl. rewrite !strip_insert. reflexivity.
  - destruct dbl; [rewrite new_elems_strip; reflexivity|]. destruct ys; [rewrite new_elems_strip|]; reflexivity.
  - destruct ys as [|y ys]; [reflexivity|]. simpl. rewrite !strip_insert. reflexivity.
  - simpl. unfold strip. rewrite fmap_delete. reflexivity.
  - simpl. rewrite strip_insert. reflexivity.
  - simpl. rewrite strip_insert. reflexivity.
  - simpl. rewrite strip_insert, fmap_app. reflexivity.
  - destruct xs as [|y xs]; [reflexivity|]. simpl. rewrite strip_insert. reflexivity.
  - destruct xs as [|y xs _] using rev_ind; [reflexivity|]. rewrite fmap_app. cbn [fmap list_fmap]. rewrite !removelast_last.
    destruct (xs ++ [y]) eqn:Ex; [destruct xs; discriminate|]. destruct (xs.*2 ++ [y.2]) eqn:Ex2; [destruct (xs.*2); discriminate|].
    simpl. rewrite strip_insert. reflexivity.
  - destruct dbl; [simpl; rewrite strip_insert; reflexivity|]. destruct xs; [reflexivity|]. simpl. rewrite strip_insert. reflexivity.
  - destruct xs as [|y xs]; [reflexivity|]. destruct dbl; [simpl; rewrite strip_insert; reflexivity|]. destruct xs; [reflexivity|].
    simpl. rewrite strip_insert. reflexivity.
  - destruct xs as [|y xs]; reflexivity.
  - destruct xs as [|y xs _] using rev_ind; [reflexivity|]. rewrite fmap_app. cbn [fmap list_fmap]. rewrite !last_snoc. reflexivity.
  - rewrite fmap_length. reflexivity.
  - destruct xs; reflexivity.
  - destruct dbl; [|reflexivity]. simpl. rewrite <- map_rev. reflexivity.
Qed.

Section Iters.
Context {A : Type} (junk : A) (dbl : bool) (pol : policy).

(** [f] says where the elements are. *)
Definition iRf (f : nat -> nat) (s : ispec) (w : iworld A) : Prop :=
  inv dbl (ren f (s_lists s)) (fst w) /\ (dbl = false -> tails (ren f (s_lists s)) (fst w)) /\
  below (s_next s) (s_lists s) /\ (forall k p, s_its s !! k = Some p -> pbelow (s_next s) p) /\ snd w = pos f <$> s_its s /\ al_pol (l_al (fst w)) = pol.
Definition iR s w : Prop := exists f, iRf f s w.

Lemma on_lists_ok {X} (m : M (lst A) X) w x st : m (fst w) = Ok (x, st) -> on_lists m w = Ok (x, (st, snd w)).
Proof. unfold on_lists. intros ->. reflexivity. Qed.
Lemma on_lists_same {X} (m : M (lst A) X) w x : m (fst w) = Ok (x, fst w) -> on_lists m w = Ok (x, w).
Proof. intros H. rewrite (on_lists_ok _ _ _ _ H). destruct w; reflexivity. Qed.

Lemma get_it_ok f s w k p : iRf f s w -> s_its s !! k = Some p -> get_it k w = Ok (pos f p, w).
Proof. intros (_ & _ & _ & _ & E & _) H. unfold get_it. rewrite E, lookup_fmap, H. reflexivity. Qed.
Lemma set_it_R f s w k p : iRf f s w -> pbelow (s_next s) p -> iRf f (set_at s k p) (fst w, <[k := pos f p]> (snd w)).
Proof.
  intros (H1 & H2 & H3 & H4 & E & Hp) Hb. split; [exact H1|]. split; [exact H2|]. split; [exact H3|]. split; [|split; [|exact Hp]].
  - cbn [s_its set_at s_next]. intros j q [[-> <-]|[_ Ej]]%lookup_insert_Some; [exact Hb|exact (H4 _ _ Ej)].
  - simpl. rewrite E, fmap_insert. reflexivity.
Qed.
Lemma it_below f s w k p : iRf f s w -> s_its s !! k = Some p -> pbelow (s_next s) p.
Proof. intros (_ & _ & _ & H & _) E. exact (H _ _ E). Qed.

Lemma it_next_ok f s w p q : iRf f s w -> next_place (s_lists s) p = Some q -> it_next (pos f p) w = Ok (pos f q, w) /\ pbelow (s_next s) q.
Proof.
  intros (H & _ & Hb & _) E. split; [|eapply next_below; eassumption]. unfold it_next. erewrite bind_ok by (apply on_lists_same, ld_next_ok'; eapply next_pos; eassumption).
  apply on_lists_same. reflexivity.
Qed.
Lemma it_prev_ok f s w p q : dbl = true -> iRf f s w -> prev_place (s_lists s) p = Some q -> it_prev (pos f p) w = Ok (pos f q, w) /\ pbelow (s_next s) q.
Proof.
  intros Hd (H & _ & Hb & _) E. split; [|eapply prev_below; eassumption]. rewrite Hd in H. unfold it_prev. erewrite bind_ok by (apply on_lists_same, ld_prev_ok'; eapply prev_pos; eassumption).
  apply on_lists_same. reflexivity.
Qed.

Notation F := (fun s : ispec => refuses pol (elements_total (strip (s_lists s)))).
Theorem it_step_or o s w : iR s w -> magree_or iR F (is_step dbl o s) (it_step junk dbl o w).
Proof.
  intros (f & H). destruct o; cbn [is_step it_step].
  - destruct H as (H1 & H2 & H3 & H4 & H5 & H6). destruct s as [l n its]. cbn [s_lists s_next s_its] in *.
    assert (L : lagree dbl n f pol (lists_step dbl o (ISpec l n its)) ((if dbl then dl_step junk o else sl_step junk o) (fst w))).
    { destruct dbl; rewrite <- H6; [apply dl_lists; assumption|apply sl_lists; [exact H1|apply H2; reflexivity|exact H3]]. }
    pose proof (lists_step_below dbl o (ISpec l n its)) as B. cbn [s_lists s_next s_its] in B.
    assert (G : magree_or (fun _ _ => True) (fun s' => refuses pol (elements_total s')) (ls_step dbl o (strip l)) ((if dbl then dl_step junk o else sl_step junk o) (fst w))).
    { assert (Es : strip l = (fun xs => xs.*2) <$> ren f l).
      { unfold strip, ren. rewrite <- map_fmap_compose. apply map_fmap_ext. intros i xs _. symmetry. apply renl_snd. }
      assert (Gw : forall R R' : gmap nat (list A) -> lst A -> Prop, (forall s' w', R s' w' -> R' s' w') -> forall r c, @magree_or (gmap nat (list A)) (lst A) (out A) R (fun s' => refuses pol (elements_total s')) r c -> magree_or R' (fun s' => refuses pol (elements_total s')) r c).
      { intros R R' Hw r c. destruct r as [[x s']| |]; simpl; [|auto|auto]. intros [(w' & ? & ?)|?]; [left; eauto|right; assumption]. }
      destruct dbl; [eapply (Gw (dlR pol)); [auto|apply dl_step_or]|eapply (Gw (slR pol)); [auto|apply sl_step_or]]; exists (ren f l); auto. }
    pose proof (iter_lists A dbl o (ISpec l n its)) as Ei. cbn [s_lists] in Ei. rewrite Ei in G. clear Ei.
    destruct (lists_step dbl o _) as [[r s']| |]; simpl in L |- *; [|unfold on_lists; rewrite L; reflexivity|exact I].
    destruct (B r s' H3 eq_refl) as (B1 & B2 & B3).
    destruct L as [(st' & f' & R & Hi & Ht & Hf & Hp)|L].
    + left. exists (st', snd w). split; [apply on_lists_ok; exact R|]. exists f'.
      split; [exact Hi|]. split; [exact Ht|]. split; [exact B1|]. rewrite B3. split; [|split; [|exact Hp]].
      * intros k p Ek. specialize (H4 _ _ Ek). destruct p; simpl in *; [lia|exact I].
      * rewrite H5. simpl. apply map_fmap_ext. intros k p Ek. specialize (H4 _ _ Ek). destruct p; simpl in *; [rewrite Hf by exact H4|]; reflexivity.
    + right. split; [unfold on_lists; rewrite L; reflexivity|]. simpl in G. destruct G as [(w' & G & _)|[_ G]]; [congruence|exact G].
  - destruct (s_lists s !! id) as [l|] eqn:E; [|exact I]. simpl. left. eexists. split; [|exists f; apply set_it_R; [exact H|]].
    + unfold it_begin. pose proof (next_pos dbl f _ (fst w) (EndOf id) (first_of id l) (proj1 H)) as Hn. simpl in Hn. rewrite E in Hn. specialize (Hn eq_refl).
      erewrite bind_ok; [reflexivity|]. erewrite bind_ok by (apply on_lists_same, ld_next_ok'; exact Hn). apply on_lists_same. reflexivity.
    + apply first_below. destruct H as (_ & _ & Hb & _). exact (below_look _ _ _ _ Hb E).
  - destruct (s_lists s !! id) as [l|] eqn:E; [|exact I]. simpl. left. eexists. split; [|exists f; apply (set_it_R f s w k (EndOf id)); [exact H|exact I]].
    unfold it_end. assert (Hl : is_Some (dt (l_cells (fst w)) (Head id))) by (apply (i_heads _ _ _ (proj1 H)); rewrite (ren_some f _ _ _ E); eauto).
    destruct Hl as [a (c & Ec & _)%dt_some]. erewrite bind_ok; [reflexivity|].
    erewrite bind_ok by (apply on_lists_same; unfold ld; rewrite Ec; reflexivity). reflexivity.
  - unfold with_it. destruct (s_its s !! j) as [p|] eqn:E; [|exact I]. simpl.
    rewrite (bind_ok _ _ _ _ _ (get_it_ok _ _ _ _ _ H E)). left. eexists. split; [reflexivity|]. exists f. apply set_it_R; [exact H|eapply it_below; eassumption].
  - unfold with_it. destruct (s_its s !! k) as [p|] eqn:E; [|exact I]. destruct (next_place (s_lists s) p) as [q|] eqn:Eq; [|exact I]. simpl.
    rewrite (bind_ok _ _ _ _ _ (get_it_ok _ _ _ _ _ H E)). destruct (it_next_ok _ _ _ _ _ H Eq) as [R Hb]. rewrite (bind_ok _ _ _ _ _ R).
    left. eexists. split; [reflexivity|]. exists f. apply set_it_R; assumption.
  - destruct dbl eqn:Ed; [|exact I]. unfold with_it. destruct (s_its s !! k) as [p|] eqn:E; [|exact I].
    destruct (prev_place (s_lists s) p) as [q|] eqn:Eq; [|exact I]. simpl.
    rewrite (bind_ok _ _ _ _ _ (get_it_ok _ _ _ _ _ H E)). destruct (it_prev_ok _ _ _ _ _ Ed H Eq) as [R Hb]. rewrite (bind_ok _ _ _ _ _ R).
    left. eexists. split; [reflexivity|]. exists f. apply set_it_R; assumption.
  - unfold with_it. destruct (s_its s !! j) as [p|] eqn:E; [|exact I]. destruct (next_place (s_lists s) p) as [q|] eqn:Eq; [|exact I]. simpl.
    rewrite (bind_ok _ _ _ _ _ (get_it_ok _ _ _ _ _ H E)). destruct (it_next_ok _ _ _ _ _ H Eq) as [R Hb]. rewrite (bind_ok _ _ _ _ _ R).
    left. eexists. split; [reflexivity|]. exists f. apply (set_it_R _ _ _ _ _ (set_it_R _ _ _ _ _ H Hb)). exact (it_below _ _ _ _ _ H E).
  - destruct dbl eqn:Ed; [|exact I]. unfold with_it. destruct (s_its s !! j) as [p|] eqn:E; [|exact I].
    destruct (prev_place (s_lists s) p) as [q|] eqn:Eq; [|exact I]. simpl.
    rewrite (bind_ok _ _ _ _ _ (get_it_ok _ _ _ _ _ H E)). destruct (it_prev_ok _ _ _ _ _ Ed H Eq) as [R Hb]. rewrite (bind_ok _ _ _ _ _ R).
    left. eexists. split; [reflexivity|]. exists f. apply (set_it_R _ _ _ _ _ (set_it_R _ _ _ _ _ H Hb)). exact (it_below _ _ _ _ _ H E).
  - unfold with_it. destruct (s_its s !! k) as [[n|id]|] eqn:E; [|exact I|exact I].
    destruct (where_is n (s_lists s)) as [[id [[us x] vs]]|] eqn:Ew; [|exact I]. simpl. apply where_is_some in Ew. apply (ren_some f) in Ew. rewrite renl_app, renl_cons in Ew.
    rewrite (bind_ok _ _ _ _ _ (get_it_ok _ _ _ _ _ H E)). left. exists w. split; [|exists f; exact H].
    erewrite bind_ok by (apply on_lists_same, ld_dat_ok; eapply i_dat; [exact (proj1 H)|exact Ew|apply elem_of_app; right; left]). reflexivity.
  - unfold with_it. destruct (s_its s !! k) as [[n|id]|] eqn:E; [|exact I|exact I].
    destruct (where_is n (s_lists s)) as [[id [[us x] vs]]|] eqn:Ew; [|exact I]. simpl. apply where_is_some in Ew.
    pose proof (ren_some f _ _ _ Ew) as Er. rewrite renl_app, renl_cons in Er.
    rewrite (bind_ok _ _ _ _ _ (get_it_ok _ _ _ _ _ H E)). destruct H as (H1 & H2 & H3 & H4 & H5 & H6).
    destruct (write_ok _ _ _ _ _ _ _ _ a H1 Er) as (st' & R & Hi & Ht & Hf).
    left. exists (st', snd w). split; [erewrite bind_ok by (apply on_lists_ok; exact R); reflexivity|]. exists f.
    assert (Ee : ren f (<[id := us ++ (n, a) :: vs]> (s_lists s)) = <[id := renl f us ++ (f n, a) :: renl f vs]> (ren f (s_lists s))) by (rewrite ren_insert, renl_app, renl_cons; reflexivity).
    split; [simpl; rewrite Ee; exact Hi|]. split; [|split; [|split; [exact H4|split; [exact H5|simpl; congruence]]]].
    + intros Hd. simpl. rewrite Ee. eapply tails_same; [exact (H2 Hd)|exact Er|exact Ht|]. rewrite (nodes_same (renl f us) (f n) a x). reflexivity.
    + cbn [s_next s_lists]. eapply below_insert; [exact H3|reflexivity|]. intros m Hm. rewrite (fst_same us n a x) in Hm. exact (H3 _ _ _ Ew Hm).
  - unfold with_it. destruct (s_its s !! k) as [p|] eqn:E; [|exact I]. destruct (s_its s !! j) as [q|] eqn:E2; [|exact I].
    destruct (valid _ p) eqn:Vp; [|exact I]. destruct (valid _ q) eqn:Vq; [|exact I]. simpl. left. exists w. split; [|exists f; exact H].
    rewrite (bind_ok _ _ _ _ _ (get_it_ok _ _ _ _ _ H E)). rewrite (bind_ok _ _ _ _ _ (get_it_ok _ _ _ _ _ H E2)). rewrite (bool_pos _ _ _ _ _ _ (proj1 H) Vp Vq). reflexivity.
  - unfold with_it. destruct (s_its s !! k) as [p|] eqn:E; [|exact I]. destruct (s_its s !! j) as [q|] eqn:E2; [|exact I].
    destruct (valid _ p) eqn:Vp; [|exact I]. destruct (valid _ q) eqn:Vq; [|exact I]. simpl. left. exists w. split; [|exists f; exact H].
    rewrite (bind_ok _ _ _ _ _ (get_it_ok _ _ _ _ _ H E)). rewrite (bind_ok _ _ _ _ _ (get_it_ok _ _ _ _ _ H E2)). rewrite (bool_pos _ _ _ _ _ _ (proj1 H) Vp Vq). reflexivity.
Qed.

Lemma iR_init : sound pol -> iR ispec0 (lst_init pol, ∅).
Proof.
  intros Hs. exists (fun n => n). unfold iRf. cbn [s_lists s_next s_its ispec0 fst snd]. unfold ren. rewrite fmap_empty.
  split; [apply inv_init; exact Hs|]. split; [intros _ id xs E; rewrite lookup_empty in E; discriminate|].
  split; [intros id xs m E; rewrite lookup_empty in E; discriminate|]. split; [intros k p E; rewrite lookup_empty in E; discriminate|].
  split; [rewrite fmap_empty; reflexivity|reflexivity].
Qed.

Lemma iter_run ops : sound pol ->
  match srun (is_step dbl) ops ispec0 with
  | SVal (rs, s) => (exists w, mrun (it_step junk dbl) ops (lst_init pol, ∅) = Ok (rs, w) /\ iR s w) \/
      (mrun (it_step junk dbl) ops (lst_init pol, ∅) = Abort /\
       exists ops1 ops2 rs1 s1, ops = ops1 ++ ops2 /\ srun (is_step dbl) ops1 ispec0 = SVal (rs1, s1) /\ F s1)
  | SAbort => mrun (it_step junk dbl) ops (lst_init pol, ∅) = Abort
  | SUnspec => True
  end.
Proof. intros Hs. exact (mrun_agree_or (it_step junk dbl) (is_step dbl) iR F it_step_or ops ispec0 (lst_init pol, ∅) (iR_init Hs)). Qed.
End Iters.

Theorem iter_history_or : forall (A : Type) (junk : A) (dbl : bool) (pol : policy) (ops : list (iop A)), sound pol ->
  match srun (is_step dbl) ops ispec0 with
  | SVal (rs, _) => (exists w, mrun (it_step junk dbl) ops (lst_init pol, ∅) = Ok (rs, w)) \/
      (mrun (it_step junk dbl) ops (lst_init pol, ∅) = Abort /\
       exists ops1 ops2 rs1 s1, ops = ops1 ++ ops2 /\ srun (is_step dbl) ops1 ispec0 = SVal (rs1, s1) /\ refuses pol (elements_total (strip (s_lists s1))))
  | SAbort => mrun (it_step junk dbl) ops (lst_init pol, ∅) = Abort
  | SUnspec => True
  end.
Proof.
  intros A junk dbl pol ops Hs. pose proof (iter_run junk dbl pol ops Hs) as H. destruct (srun _ ops ispec0) as [[rs s]| |]; [|exact H|exact I].
  destruct H as [(w & R & _)|H]; [left; eauto|right; exact H].
Qed.
Theorem iter_history : forall (A : Type) (junk : A) (dbl : bool) (pol : policy) (ops : list (iop A)), sound pol -> grants pol ->
  match srun (is_step dbl) ops ispec0 with
  | SVal (rs, _) => exists w, mrun (it_step junk dbl) ops (lst_init pol, ∅) = Ok (rs, w)
  | SAbort => mrun (it_step junk dbl) ops (lst_init pol, ∅) = Abort
  | SUnspec => True
  end.
Proof.
  intros A junk dbl pol ops Hs Hg. pose proof (iter_history_or A junk dbl pol ops Hs) as H. destruct (srun _ ops ispec0) as [[rs s]| |]; [|exact H|exact I].
  destruct H as [H|(_ & ops1 & ops2 & rs1 & s1 & _ & _ & Hr)]; [exact H|]. destruct (grants_refuses _ _ Hg Hr).
Qed.

(** The numbers: no two elements share one. *)
Theorem iter_unique : forall (A : Type) (dbl : bool) (ops : list (iop A)) rs s id us n x vs,
  srun (is_step dbl) ops ispec0 = SVal (rs, s) -> s_lists s !! id = Some (us ++ (n, x) :: vs) ->
  where_is n (s_lists s) = Some (id, (us, x, vs)).
Proof.
  intros A dbl ops rs s id us n x vs E Hl. pose proof (iter_run x dbl bump ops bump_sound) as H. rewrite E in H.
  destruct H as [(w & _ & f & Hi & _)|(_ & ops1 & ops2 & rs1 & s1 & _ & _ & Hr)]; [|destruct (grants_refuses _ _ bump_grants Hr)].
  assert (Hn : n ∈ (us ++ (n, x) :: vs).*1) by (rewrite fmap_app; apply elem_of_app; right; left).
  destruct (where_is n (s_lists s)) as [[id' [[us' x'] vs']]|] eqn:Ew; [|exfalso; eapply where_is_none; eassumption].
  apply where_is_some in Ew.
  assert (id' = id).
  { apply (i_disj _ _ _ Hi _ _ _ _ (f n) (ren_some f _ _ _ Ew) (ren_some f _ _ _ Hl)); rewrite renl_fst; apply elem_of_list_fmap_1; [rewrite fmap_app; apply elem_of_app; right; left|exact Hn]. }
  subst id'. rewrite Hl in Ew. injection Ew as Ew. pose proof (i_nodup _ _ _ Hi _ _ (ren_some f _ _ _ Hl)) as Hnd. rewrite renl_fst in Hnd. apply NoDup_fmap_1 in Hnd. clear - Ew Hnd.
  assert (G : forall us us', us ++ (n, x) :: vs = us' ++ (n, x') :: vs' -> NoDup (us ++ (n, x) :: vs).*1 -> us = us' /\ x = x' /\ vs = vs').
  { clear. induction us as [|[m y] us IH]; intros [|[m' y'] us']; simpl; intros E Hnd.
    - injection E as -> ->. auto.
    - injection E as <- <- ->. exfalso. apply NoDup_cons in Hnd as [Hnd _]. apply Hnd. rewrite fmap_app. apply elem_of_app. right. left.
    - injection E as -> -> <-. exfalso. apply NoDup_cons in Hnd as [Hnd _]. apply Hnd. rewrite fmap_app. apply elem_of_app. right. left.
    - injection E as -> -> E. apply NoDup_cons in Hnd as [_ Hnd]. destruct (IH _ E Hnd) as (-> & -> & ->). auto. }
  destruct (G _ _ Ew Hnd) as (-> & -> & ->). reflexivity.
Qed.

(** An element lives until a call removes it. *)
Theorem iter_kept : forall (A : Type) (dbl : bool) (ops : list (iop A)) rs s id us n x vs o r s',
  srun (is_step dbl) ops ispec0 = SVal (rs, s) -> where_is n (s_lists s) = Some (id, (us, x, vs)) ->
  lists_step dbl o s = SVal (r, s') -> removes o id us vs = false ->
  exists us' vs', where_is n (s_lists s') = Some (goes_to o id, (us', x, vs')).
Proof.
  intros A dbl ops rs s id us n x vs o r s' E Hw Ho Hr.
  assert (E' : srun (is_step dbl) (ops ++ [IList o]) ispec0 = SVal (rs ++ [r], s')).
  { rewrite srun_app, E. cbn [srun is_step]. rewrite Ho. reflexivity. }
  apply where_is_some in Hw.
  assert (G : exists us' vs', s_lists s' !! goes_to o id = Some (us' ++ (n, x) :: vs')).
  2: { destruct G as (us' & vs' & G). exists us', vs'. eapply iter_unique; eassumption. }
  destruct s as [l nxt its]. simpl in Hw. clear E E'. unfold lists_step in Ho.
  assert (same : exists us' vs', l !! id = Some (us' ++ (n, x) :: vs')) by eauto.
  assert (other : forall k (v : list (nat * A)), k <> id -> exists us' vs', <[k := v]> l !! id = Some (us' ++ (n, x) :: vs')).
  { intros k v Hk. exists us, vs. rewrite lookup_insert_ne by exact Hk. exact Hw. }
  assert (here : forall us' vs', exists us'' vs'', <[id := us' ++ (n, x) :: vs']> l !! id = Some (us'' ++ (n, x) :: vs'')).
  { intros us' vs'. exists us', vs'. apply lookup_insert. }
  destruct o as [i|i m a|i j|i j|i j|i j|i|i|i a|i a|i|i|i a|i|i|i|i|i|i|i];
    cbn [op_map ls_step s_lists s_next removes goes_to] in *; unfold no_list, with_list in Ho.
  - destruct (l !! i) eqn:Ei; [discriminate|]. injection Ho as <- <-. apply other. congruence.
  - destruct (l !! i) eqn:Ei; [discriminate|]. injection Ho as <- <-. unfold new_elems. cbn [s_lists]. rewrite insert_insert. apply other. congruence.
  - destruct (l !! i) eqn:Ei; [discriminate|]. destruct (l !! j) as [ys|]; [|discriminate].
    assert (Hs : s_lists s' = s_lists (new_elems (ISpec l nxt its) i (<[i := ys]> l))).
    { destruct dbl; [|destruct ys; [|discriminate]]; injection Ho as _ <-; reflexivity. }
    rewrite Hs. unfold new_elems. cbn [s_lists]. rewrite insert_insert. apply other. congruence.
  - destruct (l !! i) eqn:Ei; [discriminate|]. destruct (l !! j) as [[|y ys]|] eqn:Ej; [discriminate| |discriminate]. injection Ho as <- <-. cbn [s_lists].
    destruct (Nat.eqb_spec j id) as [->|Hj].
    + rewrite Hw in Ej. injection Ej as <-. exists us, vs. rewrite lookup_insert_ne by congruence. apply lookup_insert.
    + exists us, vs. rewrite !lookup_insert_ne by congruence. exact Hw.
  - destruct (l !! i) eqn:Ei; [|discriminate]. destruct (l !! j) as [ys|] eqn:Ej; [|discriminate].
    destruct (Nat.eqb_spec i j) as [->|Hij]; [injection Ho as <- <-; exact same|].
    destruct (Nat.eqb_spec i id) as [->|Hi]; [discriminate|].
    assert (Hs : s_lists s' = s_lists (new_elems (ISpec l nxt its) i (<[i := ys]> l))).
    { destruct dbl; [|destruct ys; [|discriminate]]; injection Ho as _ <-; reflexivity. }
    rewrite Hs. unfold new_elems. cbn [s_lists]. rewrite insert_insert. apply other. congruence.
  - destruct (l !! i) eqn:Ei; [|discriminate]. destruct (l !! j) as [ys|] eqn:Ej; [|discriminate].
    destruct (Nat.eqb_spec i j) as [->|Hij]; [injection Ho as <- <-; destruct (Nat.eqb_spec j id) as [->|]; exact same|].
    destruct (Nat.eqb_spec i id) as [->|Hi]; [discriminate|]. destruct ys as [|y ys]; [discriminate|]. injection Ho as <- <-. cbn [s_lists].
    destruct (Nat.eqb_spec j id) as [->|Hj].
    + rewrite Hw in Ej. injection Ej as <-. exists us, vs. rewrite lookup_insert_ne by congruence. apply lookup_insert.
    + exists us, vs. rewrite !lookup_insert_ne by congruence. exact Hw.
  - destruct (l !! i) eqn:Ei; [|discriminate]. injection Ho as <- <-. apply Nat.eqb_neq in Hr. exists us, vs. cbn [s_lists]. rewrite lookup_delete_ne by exact Hr. exact Hw.
  - destruct (l !! i) eqn:Ei; [|discriminate]. injection Ho as <- <-. apply Nat.eqb_neq in Hr. apply other. exact Hr.
  - destruct (l !! i) as [xs|] eqn:Ei; [|discriminate]. injection Ho as <- <-. cbn [s_lists].
    destruct (decide (i = id)) as [->|Hi]; [|apply other; exact Hi]. rewrite Hw in Ei. injection Ei as <-. apply (here ((nxt, a) :: us) vs).
  - destruct (l !! i) as [xs|] eqn:Ei; [|discriminate]. injection Ho as <- <-. cbn [s_lists].
    destruct (decide (i = id)) as [->|Hi]; [|apply other; exact Hi]. rewrite Hw in Ei. injection Ei as <-. rewrite <- app_assoc. apply here.
  - destruct (l !! i) as [[|y xs]|] eqn:Ei; [discriminate| |discriminate]. injection Ho as <- <-. cbn [s_lists].
    destruct (Nat.eqb_spec i id) as [->|Hi]; [|apply other; exact Hi]. rewrite Hw in Ei. destruct us as [|u us]; [discriminate|]. injection Ei as <- <-. apply here.
  - destruct (l !! i) as [xs|] eqn:Ei; [|discriminate]. destruct xs as [|y xs]; [discriminate|]. injection Ho as <- <-. cbn [s_lists].
    destruct (Nat.eqb_spec i id) as [->|Hi]; [|apply other; exact Hi]. rewrite Hw in Ei. destruct vs as [|v vs _] using rev_ind; [discriminate|].
    change (match xs with [] => [] | _ :: _ => y :: removelast xs end) with (removelast (y :: xs)). injection Ei as <-.
    rewrite app_comm_cons, app_assoc, removelast_last. apply here.
  - destruct (l !! i) as [xs|] eqn:Ei; [|discriminate].
    assert (Hs : s_lists s' = <[i := (nxt, a) :: xs]> l) by (destruct dbl; [|destruct xs; [discriminate|]]; injection Ho as _ <-; reflexivity). rewrite Hs.
    destruct (decide (i = id)) as [->|Hi]; [|apply other; exact Hi]. rewrite Hw in Ei. injection Ei as <-. apply (here ((nxt, a) :: us) vs).
  - destruct (l !! i) as [[|y xs]|] eqn:Ei; [discriminate| |discriminate].
    assert (Hs : s_lists s' = <[i := xs]> l) by (destruct dbl; [|destruct xs; [discriminate|]]; injection Ho as _ <-; reflexivity). rewrite Hs.
    destruct (Nat.eqb_spec i id) as [->|Hi]; [|apply other; exact Hi]. rewrite Hw in Ei. destruct us as [|u us]; [discriminate|]. injection Ei as <- <-. apply here.
  - destruct (l !! i) as [[|y xs]|] eqn:Ei; [discriminate| |discriminate]. injection Ho as <- <-. exact same.
  - destruct (l !! i) as [xs|] eqn:Ei; [|discriminate]. destruct (last xs); [|discriminate]. injection Ho as <- <-. exact same.
  - destruct (l !! i) as [xs|] eqn:Ei; [|discriminate]. injection Ho as <- <-. exact same.
  - destruct (l !! i) as [xs|] eqn:Ei; [|discriminate]. injection Ho as <- <-. exact same.
  - destruct (l !! i) as [xs|] eqn:Ei; [|discriminate]. injection Ho as <- <-. exact same.
  - destruct (l !! i) as [xs|] eqn:Ei; [|discriminate]. destruct dbl; [|discriminate]. injection Ho as <- <-. exact same.
Qed.
