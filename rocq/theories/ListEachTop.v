(** Particular callbacks: pushing at either end, and removing the element. *)
From Verif Require Import Base Alloc AllocProofs VectorModel VectorSpec Adapter Hist ListModel ListSpec ListProofs ListHist ListHist2 ListHist3 ListIterModel ListIterSpec ListIterProofs AlgoIterModel ListEachModel ListEachSpec ListEachProofs.

Section Spec.
Context {A : Type} (dbl : bool).
Definition reach (s : ispec (A := A)) : Prop := exists (ops : list (iop A)) rs, srun (is_step dbl) ops ispec0 = SVal (rs, s).
Lemma reach_step o s r s' : reach s -> is_step dbl o s = SVal (r, s') -> reach s'.
Proof. intros (ops & rs & E) Eo. exists (ops ++ [o]), (rs ++ [r]). rewrite srun_app, E. cbn [srun]. rewrite Eo. reflexivity. Qed.
Lemma reach_at s id us n x vs : reach s -> s_lists s !! id = Some (us ++ (n, x) :: vs) -> where_is n (s_lists s) = Some (id, (us, x, vs)).
Proof. intros (ops & rs & E). apply (iter_unique A dbl ops rs s id us n x vs E). Qed.

Lemma push_back_spec id x (s : ispec (A := A)) l : s_lists s !! id = Some l ->
  is_step dbl (IList (LPushBack id x)) s = SVal (RUnit, ISpec (<[id := l ++ [(s_next s, x)]]> (s_lists s)) (S (s_next s)) (s_its s)).
Proof. intros E. cbn [is_step]. unfold lists_step. cbn [op_map ls_step]. unfold with_list. rewrite E. reflexivity. Qed.
Lemma push_front_spec id x (s : ispec (A := A)) l : s_lists s !! id = Some l ->
  is_step dbl (IList (LPushFront id x)) s = SVal (RUnit, ISpec (<[id := (s_next s, x) :: l]> (s_lists s)) (S (s_next s)) (s_its s)).
Proof. intros E. cbn [is_step]. unfold lists_step. cbn [op_map ls_step]. unfold with_list. rewrite E. reflexivity. Qed.
Lemma backs_spec {C} id (c : C) xs : forall (s : ispec (A := A)) l, reach s -> s_lists s !! id = Some l -> exists s',
  client_spec dbl (pushes (LPushBack id) xs c) s = SVal (c, s') /\ reach s' /\ s_lists s' !! id = Some (l ++ number (s_next s) xs).
Proof.
  induction xs as [|x xs IH]; intros s l Hr E; cbn [pushes client_spec number].
  - exists s. rewrite app_nil_r. auto.
  - pose proof (push_back_spec id x s l E) as P. rewrite P. pose proof (reach_step _ _ _ _ Hr P) as Hr1.
    destruct (IH _ (l ++ [(s_next s, x)]) Hr1 (lookup_insert _ _ _)) as (s' & E1 & Hr' & E2). exists s'. split; [exact E1|]. split; [exact Hr'|].
    rewrite E2. cbn [s_next]. rewrite <- app_assoc. reflexivity.
Qed.
Lemma fronts_spec {C} id (c : C) xs : forall (s : ispec (A := A)) l, reach s -> s_lists s !! id = Some l -> exists s',
  client_spec dbl (pushes (LPushFront id) xs c) s = SVal (c, s') /\ reach s' /\ s_lists s' !! id = Some (rev (number (s_next s) xs) ++ l).
Proof.
  induction xs as [|x xs IH]; intros s l Hr E; cbn [pushes client_spec number].
  - exists s. auto.
  - pose proof (push_front_spec id x s l E) as P. rewrite P. pose proof (reach_step _ _ _ _ Hr P) as Hr1.
    destruct (IH _ ((s_next s, x) :: l) Hr1 (lookup_insert _ _ _)) as (s' & E1 & Hr' & E2). exists s'. split; [exact E1|]. split; [exact Hr'|].
    rewrite E2. cbn [s_next rev]. rewrite <- app_assoc. reflexivity.
Qed.

Lemma work_spec id (kids : A -> list A) n : forall us vs (s : ispec (A := A)), reach s -> s_lists s !! id = Some (us ++ vs) ->
  match work kids n vs.*2 with
  | Some ws => exists s' zs, each_spec dbl n (noting (LPushBack id) kids) us.*2 (first_of id vs) (EndOf id) s = SVal (Some (us.*2 ++ ws, s')) /\
      reach s' /\ s_lists s' !! id = Some zs /\ zs.*2 = us.*2 ++ ws
  | None => each_spec dbl n (noting (LPushBack id) kids) us.*2 (first_of id vs) (EndOf id) s = SVal None
  end.
Proof.
  induction n as [|n IH]; intros us vs s Hr E.
  - destruct vs as [|[m x] vs]; try change ((((m, x) :: vs).*2)) with (x :: vs.*2); try change (([] : list (nat * A)).*2) with ([] : list A); cbn [work each_spec first_of head valid].
    + rewrite E. cbn [andb negb]. rewrite bool_decide_eq_true_2 by reflexivity. rewrite app_nil_r in E. exists s, us. rewrite app_nil_r. split_and!; auto.
    + rewrite (reach_at _ _ _ _ _ _ Hr E), E. cbn [andb negb]. rewrite bool_decide_eq_false_2 by discriminate. reflexivity.
  - destruct vs as [|[m x] vs]; try change ((((m, x) :: vs).*2)) with (x :: vs.*2); try change (([] : list (nat * A)).*2) with ([] : list A); cbn [work each_spec first_of head valid].
    + rewrite E. cbn [andb negb]. rewrite bool_decide_eq_true_2 by reflexivity. rewrite app_nil_r in E. exists s, us. rewrite app_nil_r. split_and!; auto.
    + rewrite (reach_at _ _ _ _ _ _ Hr E), E. cbn [andb negb]. rewrite bool_decide_eq_false_2 by discriminate. change (noting (LPushBack id) kids us.*2 x) with (pushes (LPushBack id) (kids x) (us.*2 ++ [x])).
      destruct (backs_spec id (us.*2 ++ [x]) (kids x) s _ Hr E) as (s1 & E1 & Hr1 & E2). cbn [snd]. rewrite !E1.
      rewrite <- app_assoc in E2. cbn [app] in E2. cbn [next_place]. rewrite (reach_at _ _ _ _ _ _ Hr1 E2).
      pose proof (IH (us ++ [(m, x)]) (vs ++ number (s_next s) (kids x)) s1 Hr1 ltac:(rewrite E2, <- app_assoc; reflexivity)) as P.
      rewrite !fmap_app, number_snd in P. change ([(m, x)].*2) with [x] in P.
      destruct (work kids n (vs.*2 ++ kids x)) as [ws|]; [|exact P].
      rewrite <- app_assoc in P. exact P.
Qed.
Lemma front_spec id (kids : A -> list A) n : forall us vs (s : ispec (A := A)) seen, reach s -> s_lists s !! id = Some (us ++ vs) -> length vs <= n ->
  exists s' zs, each_spec dbl n (noting (LPushFront id) kids) seen (first_of id vs) (EndOf id) s = SVal (Some (seen ++ vs.*2, s')) /\
      reach s' /\ s_lists s' !! id = Some zs /\ zs.*2 = rev (vs.*2 ≫= kids) ++ us.*2 ++ vs.*2.
Proof.
  induction n as [|n IH]; intros us vs s seen Hr E Hn.
  - destruct vs as [|[m x] vs]; [|cbn in Hn; lia]. try change ((((m, x) :: vs).*2)) with (x :: vs.*2); try change (([] : list (nat * A)).*2) with ([] : list A); cbn [each_spec first_of head valid].
    rewrite E. cbn [andb negb]. rewrite bool_decide_eq_true_2 by reflexivity. rewrite app_nil_r in E. exists s, us. rewrite !app_nil_r. split_and!; auto.
  - destruct vs as [|[m x] vs]; try change ((((m, x) :: vs).*2)) with (x :: vs.*2); try change (([] : list (nat * A)).*2) with ([] : list A); cbn [each_spec first_of head valid].
    + rewrite E. cbn [andb negb]. rewrite bool_decide_eq_true_2 by reflexivity. rewrite app_nil_r in E. exists s, us. rewrite !app_nil_r. split_and!; auto.
    + rewrite (reach_at _ _ _ _ _ _ Hr E), E. cbn [andb negb]. rewrite bool_decide_eq_false_2 by discriminate. change (noting (LPushFront id) kids seen x) with (pushes (LPushFront id) (kids x) (seen ++ [x])).
      destruct (fronts_spec id (seen ++ [x]) (kids x) s _ Hr E) as (s1 & E1 & Hr1 & E2). rewrite E1.
      rewrite app_assoc in E2. cbn [next_place]. rewrite (reach_at _ _ _ _ _ _ Hr1 E2).
      destruct (IH ((rev (number (s_next s) (kids x)) ++ us) ++ [(m, x)]) vs s1 (seen ++ [x]) Hr1 ltac:(rewrite E2, <- !app_assoc; reflexivity) ltac:(cbn in Hn; lia)) as (s' & zs & E3 & Hr' & E4 & E5).
      exists s', zs. split; [rewrite E3, <- app_assoc; reflexivity|]. split; [exact Hr'|]. split; [exact E4|]. rewrite E5.
      rewrite !fmap_app. change (rev (number (s_next s) (kids x))).*2 with (map snd (rev (number (s_next s) (kids x)))). rewrite map_rev.
      change (map snd (number (s_next s) (kids x))) with ((number (s_next s) (kids x)).*2). rewrite number_snd.
      cbn [fmap list_fmap mbind list_bind snd]. rewrite rev_app_distr, <- !app_assoc. reflexivity.
Qed.
End Spec.

Section Top.
Context {A : Type} (junk : A) (dbl : bool) (pol : policy) (Hs : sound pol) (Hg : grants pol).

Theorem each_work ops rs (s : ispec (A := A)) id l (kids : A -> list A) n : srun (is_step dbl) ops ispec0 = SVal (rs, s) -> s_lists s !! id = Some l ->
  exists w, mrun (it_step junk dbl) ops (lst_init pol, ∅) = Ok (rs, w) /\
  match work kids n l.*2 with
  | Some vs => exists w', each junk dbl n id [] (noting (LPushBack id) kids) w = Ok (vs, w') /\
      exists w'', it_step junk dbl (IList (LIter id)) w' = Ok (RList vs, w'')
  | None => each junk dbl n id [] (noting (LPushBack id) kids) w = Diverge
  end.
Proof.
  intros E El. pose proof (later_ok junk dbl pol Hg ops _ _ (iR_init dbl pol Hs)) as P. rewrite E in P. destruct P as (w & Ew & H). exists w. split; [exact Ew|].
  pose proof (each_top junk dbl pol Hg (noting (LPushBack id) kids) n [] id s w l H El) as Q.
  pose proof (work_spec dbl id kids n [] l s ltac:(do 2 eexists; exact E) El) as R. cbn [fmap list_fmap app] in R.
  destruct (work kids n l.*2) as [vs|].
  - destruct R as (s' & zs & R & _ & Ez & Ev). rewrite R in Q. destruct Q as (w' & Q & H'). exists w'. split; [exact Q|].
    pose proof (later_ok junk dbl pol Hg [IList (LIter id)] _ _ H') as P2. cbn [srun is_step] in P2. unfold lists_step in P2. cbn [op_map ls_step] in P2. unfold with_list in P2.
    rewrite Ez in P2. cbn [out_map] in P2. rewrite Ev in P2. destruct P2 as (w2 & P2 & _). exists w2. cbn [mrun] in P2.
    apply bind_inv in P2 as (r & w3 & P3 & P4). unfold bind, ret in P4. injection P4 as -> ->. exact P3.
  - rewrite R in Q. exact Q.
Qed.
Theorem each_front ops rs (s : ispec (A := A)) id l (kids : A -> list A) n : srun (is_step dbl) ops ispec0 = SVal (rs, s) -> s_lists s !! id = Some l -> length l <= n ->
  exists w w' w'', mrun (it_step junk dbl) ops (lst_init pol, ∅) = Ok (rs, w) /\
  each junk dbl n id [] (noting (LPushFront id) kids) w = Ok (l.*2, w') /\
  it_step junk dbl (IList (LIter id)) w' = Ok (RList (rev (l.*2 ≫= kids) ++ l.*2), w'').
Proof.
  intros E El Hn. pose proof (later_ok junk dbl pol Hg ops _ _ (iR_init dbl pol Hs)) as P. rewrite E in P. destruct P as (w & Ew & H). exists w.
  pose proof (each_top junk dbl pol Hg (noting (LPushFront id) kids) n [] id s w l H El) as Q.
  destruct (front_spec dbl id kids n [] l s [] ltac:(do 2 eexists; exact E) El Hn) as (s' & zs & R & _ & Ez & Ev). cbn [fmap list_fmap app] in R, Ev.
  rewrite R in Q. destruct Q as (w' & Q & H'). exists w'.
  pose proof (later_ok junk dbl pol Hg [IList (LIter id)] _ _ H') as P2. cbn [srun is_step] in P2. unfold lists_step in P2. cbn [op_map ls_step] in P2. unfold with_list in P2.
  rewrite Ez in P2. cbn [out_map] in P2. rewrite Ev in P2. destruct P2 as (w2 & P2 & _). exists w2. split; [exact Ew|]. split; [exact Q|]. cbn [mrun] in P2.
  apply bind_inv in P2 as (r & w3 & P3 & P4). unfold bind, ret in P4. injection P4 as -> ->. exact P3.
Qed.

(** Removing the element the loop is at. *)
Theorem each_gone {C} ops rs (s : ispec (A := A)) id m x l o n (c c' : C) : srun (is_step dbl) ops ispec0 = SVal (rs, s) -> s_lists s !! id = Some ((m, x) :: l) ->
  o = LPopFront id \/ o = LClear id \/ o = LDestroy id ->
  exists w, mrun (it_step junk dbl) ops (lst_init pol, ∅) = Ok (rs, w) /\
  each junk dbl (S n) id c (fun _ _ => Do (IList o) (fun _ => Done c')) w = UB.
Proof.
  intros E El Ho. pose proof (later_ok junk dbl pol Hg ops _ _ (iR_init dbl pol Hs)) as P. rewrite E in P. destruct P as (w & Ew & f & H). exists w. split; [exact Ew|].
  assert (reach dbl s) as Hr by (do 2 eexists; exact E).
  pose proof (reach_at dbl s id [] m x l Hr El) as Wm.
  assert (exists l', is_step dbl (IList o) s = SVal (RUnit, ISpec l' (s_next s) (s_its s)) /\ forall i ys k, l' !! i = Some ys -> k ∈ ys.*1 ->
      k <> m /\ exists xs, s_lists s !! i = Some xs /\ k ∈ xs.*1) as (l' & Es & Hl').
  { assert (forall i xs k, i <> id -> s_lists s !! i = Some xs -> k ∈ xs.*1 -> k <> m) as Hne.
    { intros i xs k Hi Ei Hk ->. apply elem_of_list_fmap in Hk as ([m2 y] & Em & Hk). cbn in Em. subst m2. apply elem_of_list_split in Hk as (us & vs & ->).
      rewrite (reach_at dbl s i us m y vs Hr Ei) in Wm. congruence. }
    assert (forall k, k ∈ l.*1 -> k <> m) as Hnl.
    { intros k Hk ->. apply elem_of_list_fmap in Hk as ([m2 y] & Em & Hk). cbn in Em. subst m2. apply elem_of_list_split in Hk as (us & vs & ->).
      pose proof (reach_at dbl s id ((m, x) :: us) m y vs Hr El) as W2. rewrite W2 in Wm. congruence. }
    destruct Ho as [->|[->| ->]]; eexists; (split; [cbn [is_step]; unfold lists_step; cbn [op_map ls_step]; unfold with_list; rewrite El; reflexivity|]); intros i ys k Hi Hk.
    - apply lookup_insert_Some in Hi as [[<- <-]|[Hi Ei]].
      + split; [apply Hnl, Hk|]. eexists. split; [exact El|]. right. exact Hk.
      + split; [eapply Hne; [|exact Ei|exact Hk]; congruence|eauto].
    - apply lookup_insert_Some in Hi as [[<- <-]|[Hi Ei]]; [apply elem_of_nil in Hk as []|]. split; [eapply Hne; [|exact Ei|exact Hk]; congruence|eauto].
    - apply lookup_delete_Some in Hi as [Hi Ei]. split; [eapply Hne; [|exact Ei|exact Hk]; congruence|eauto]. }
  pose proof (step_near' junk dbl pol Hg (IList o) f s w H) as S. rewrite Es in S. destruct S as (w1 & E1 & Hn & g & Hgf & H1).
  assert (m < s_next s) as Hm.
  { destruct H as (_ & _ & Hb & _). apply (Hb id _ m El). left. }
  assert (it_next (Node (f m)) w1 = UB) as Eu.
  { assert (l_cells (fst w1) !! Node (f m) = None) as Eg.
    { destruct (l_cells (fst w1) !! Node (f m)) as [cl|] eqn:Ec; [|reflexivity]. exfalso.
      destruct (i_nodes _ _ _ (proj1 H1) (f m)) as (i & ys & Ei & Hk); [unfold dt; rewrite Ec; cbn; eauto|].
      unfold ren in Ei. rewrite lookup_fmap in Ei. cbn [s_lists] in Ei. destruct (l' !! i) as [ys0|] eqn:E0; [|discriminate]. cbn in Ei. injection Ei as <-.
      rewrite renl_fst in Hk. apply elem_of_list_fmap in Hk as (k & Ek & Hk). destruct (Hl' _ _ _ E0 Hk) as (Hne & xs & Ex & Hkx). apply Hne.
      assert (k < s_next s) as Hks by (destruct H as (_ & _ & Hb & _); exact (Hb _ _ _ Ex Hkx)). rewrite Hgf in Ek by exact Hks.
      symmetry. exact (ren_inj _ _ _ _ _ _ _ _ _ _ (proj1 H) El Ex ltac:(left) Hkx Ek). }
    unfold it_next, on_lists, ld_next, ld, bind. rewrite Eg. reflexivity. }
  unfold each.
  pose proof (next_pos dbl f _ (fst w) (EndOf id) (At m) (proj1 H)) as Hnx. simpl in Hnx. rewrite El in Hnx. specialize (Hnx eq_refl).
  assert (it_begin id w = Ok (Node (f m), w)) as Eb.
  { unfold it_begin. erewrite bind_ok by (apply on_lists_same, ld_next_ok'; exact Hnx). apply on_lists_same. reflexivity. }
  assert (it_end id w = Ok (Head id, w)) as Ee.
  { unfold it_end. assert (Hl : is_Some (dt (l_cells (fst w)) (Head id))) by (apply (i_heads _ _ _ (proj1 H)); rewrite (ren_some f _ _ _ El); eauto).
    destruct Hl as [a (k & Ec & _)%dt_some]. erewrite bind_ok by (apply on_lists_same; unfold ld; rewrite Ec; reflexivity). reflexivity. }
  rewrite (bind_ok _ _ _ _ _ Eb), (bind_ok _ _ _ _ _ Ee). cbn [each_loop]. unfold ptr_ne. erewrite bind_ok by reflexivity.
  rewrite bool_decide_eq_false_2 by discriminate. cbn [negb]. pose proof (ren_some f _ _ _ El) as Er. rewrite renl_cons in Er.
  erewrite bind_ok by (apply on_lists_same, ld_dat_ok; eapply i_dat; [exact (proj1 H)|exact Er|left]). cbn [client_run].
  rewrite bind_assoc, (bind_ok _ _ _ _ _ E1). erewrite bind_ok by reflexivity. exact (bind_ub _ _ _ Eu).
Qed.
End Top.

(** A loop that gives itself more to do at every element. *)
Lemma work_endless {A} (kids : A -> list A) n : (forall a, kids a <> []) -> forall todo, todo <> [] -> work kids n todo = None.
Proof.
  intros Hk. induction n as [|n IH]; intros [|x todo] Ht; try congruence; [reflexivity|]. cbn [work]. rewrite IH; [reflexivity|].
  intros [_ E]%app_eq_nil. exact (Hk x E).
Qed.
Theorem each_endless {A} (junk : A) (dbl : bool) (pol : policy) : sound pol -> grants pol -> forall ops rs s id l (kids : A -> list A),
  srun (is_step dbl) ops ispec0 = SVal (rs, s) -> s_lists s !! id = Some l -> l <> [] -> (forall a, kids a <> []) ->
  exists w, mrun (it_step junk dbl) ops (lst_init pol, ∅) = Ok (rs, w) /\ forall n, each junk dbl n id [] (noting (LPushBack id) kids) w = Diverge.
Proof.
  intros Hs Hg ops rs s id l kids E El Hl Hk. destruct (each_work junk dbl pol Hs Hg ops rs s id l kids 0 E El) as (w & Ew & _). exists w. split; [exact Ew|].
  intros n. destruct (each_work junk dbl pol Hs Hg ops rs s id l kids n E El) as (w2 & Ew2 & P). rewrite Ew in Ew2. injection Ew2 as <-.
  rewrite (work_endless kids n Hk) in P; [exact P|]. destruct l; [congruence|discriminate].
Qed.
