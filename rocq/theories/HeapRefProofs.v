(** Heaps with indexing and references: every history is a right one. *)
From Verif Require Import Base VectorModel VectorSpec VecProg VectorProofs VectorWorld VectorExtra LRun Adapter
  HeapModel HeapSpec HeapProofs HeapRefModel HeapRefSpec.

(** ** Programs over vectors keep sizes within capacities *)
Section Fit.
Context {A : Type} (triv : bool).
Implicit Types (s : lworld A).

Definition lfit s : Prop := forall id v, s !! id = Some v -> length (l_seq v) <= l_cap v.

Lemma lfit_ins s id v : lfit s -> length (l_seq v) <= l_cap v -> lfit (<[id := v]> s).
Proof.
  intros H Hv j u Hj. destruct (decide (id = j)) as [<-|Hne]; [rewrite lookup_insert in Hj; injection Hj as <-; exact Hv|].
  rewrite lookup_insert_ne in Hj by exact Hne. exact (H j u Hj).
Qed.
Lemma lfit_del s id : lfit s -> lfit (delete id s).
Proof. intros H j u Hj. apply lookup_delete_Some in Hj as [_ Hj]. exact (H j u Hj). Qed.

Lemma fit_push n cap : n <= cap -> n + 1 <= cap_push n cap.
Proof. intros H. unfold cap_push. destruct (Nat.eqb_spec n cap); lia. Qed.
Lemma fit_pop n cap : n <= cap -> n <= cap_pop n cap.
Proof.
  intros H. unfold cap_pop. destruct (Nat.ltb_spec n (cap / 3)) as [Hlt|]; [|exact H].
  pose proof (Nat.div_le_compat_l cap 2 3 ltac:(lia)). lia.
Qed.

Lemma lw_step_fit o s x s' : lfit s -> lw_step triv o s = Ok (x, s') -> lfit s'.
Proof.
  intros H E. destruct o as [o|id|id src i].
  - destruct o; cbn [lw_step lv_step] in E; unfold lwith, lnew, at_index in E;
      repeat match type of E with context [match ?e with _ => _ end] => destruct e eqn:?; try discriminate end;
      injection E as _ <-; try exact H;
      repeat (apply lfit_ins; [|try (cbn [l_seq l_cap length]; lia)]); try (apply lfit_del); try exact H; cbn [l_seq l_cap];
      try (eapply H; eassumption).
    + rewrite repeat_length. lia.
    + rewrite app_length. cbn [length]. apply fit_push. eapply H. eassumption.
    + assert (Hl : S (length l0) <= l_cap l) by (erewrite <- (H id l) by eassumption; rewrite Heql0; cbn; lia).
      replace (length (match l0 with [] => [] | _ :: _ => a :: removelast l0 end)) with (length l0).
      * rewrite Nat.sub_0_r. apply fit_pop. lia.
      * change (length l0 = length (removelast (a :: l0))).
        pose proof (f_equal length (app_removelast_last a (l := a :: l0) ltac:(discriminate))) as E.
        rewrite app_length in E. cbn [length] in E. lia.
    + rewrite insert_length. eapply H. eassumption.
    + rewrite firstn_length. lia.
    + rewrite app_length, firstn_length, repeat_length. lia.
  - cbn [lw_step] in E. unfold lwith in E. destruct (s !! id); [|discriminate]. injection E as _ <-. exact H.
  - cbn [lw_step] in E. unfold lwith, at_index in E.
    repeat match type of E with context [match ?e with _ => _ end] => destruct e eqn:?; try discriminate end.
    injection E as _ <-. apply lfit_ins; [exact H|]. cbn [l_seq l_cap]. rewrite app_length. apply fit_push.
    eapply H. eassumption.
Qed.

Lemma lrun_fit {X} (p : wprog A X) : forall s x s', lfit s -> lrun triv p s = Ok (x, s') -> lfit s'.
Proof.
  induction p as [y| | | |o k IH]; intros s x s' H E; cbn [lrun] in E; try discriminate.
  - injection E as _ <-. exact H.
  - destruct (lw_step triv o s) as [[r s1]| | |] eqn:E1; try discriminate.
    apply (IH r s1 x s'); [eapply lw_step_fit; eassumption|exact E].
Qed.
End Fit.

Section HeapRefP.
Context {A : Type} (triv : bool) (cmp : A -> A -> bool) (le : A -> A -> Prop).
Hypothesis le_trans : forall a b c, le a b -> le b c -> le a c.
Hypothesis cmp_le : forall a b, cmp a b = true -> le a b.
Hypothesis cmp_ge : forall a b, cmp a b = false -> le b a.
Notation rworld := (gmap nat (robj A)).

(** ** Sifting up after an element was appended *)
Lemma hp_up_ok (s : lworld A) id g l a cap :
  s !! id = Some (LVec (g :: l ++ [a]) cap) -> heap_ord le l ->
  exists l', lrun triv (hp_up cmp id) s = Ok (tt, <[id := LVec (g :: l') cap]> s) /\
    Permutation l' (a :: l) /\ heap_ord le l'.
Proof.
  intros Hs Ho. unfold hp_up.
  lgo wsize_ok. cbn [length]. rewrite app_length. simpl length. rewrite Nat.add_1_r.
  apply hord_tail with (g := g) in Ho.
  assert (Hlk : forall i y, (g :: l ++ [a]) !! i = Some y -> i <> S (length l) -> (g :: l) !! i = Some y).
  { intros i y Hy Hi. change (g :: l ++ [a]) with ((g :: l) ++ [a]) in Hy.
    pose proof (lookup_lt_Some _ _ _ Hy) as Hlt. rewrite app_length in Hlt. simpl in Hlt.
    rewrite lookup_app_l in Hy by (simpl; lia). exact Hy. }
  destruct (up_loop_ok triv cmp le le_trans cmp_le cmp_ge (S (S (length l))) id cap s (g :: l ++ [a]) (S (length l)))
    as (c' & Hrun & Hre & Hord); auto.
  - left. simpl. rewrite app_length. simpl. lia.
  - intros i x y Hi Hne Hx Hy. assert (i / 2 < i) by (apply Nat.div_lt; destruct i; simpl in Hi; lia).
    pose proof (lookup_lt_Some _ _ _ Hy) as Hlt. simpl in Hlt. rewrite app_length in Hlt. simpl in Hlt.
    apply (Ho i); auto; apply Hlk; auto; lia.
  - intros i x y Hi Hk Hx Hy. apply lookup_lt_Some in Hy. simpl in Hy. rewrite app_length in Hy. simpl in Hy.
    destruct (child_cases _ _ Hi); lia.
  - replace (S (S (length l)) - 1) with (S (length l)) by lia. rewrite Hrun.
    destruct (rearr_cons _ _ _ Hre) as (l' & -> & Hp). exists l'. split_and!; [reflexivity| |].
    + rewrite Hp, Permutation_app_comm. reflexivity.
    + apply hord_tail with (g := g). exact Hord.
Qed.

Lemma hp_push_cap (s : lworld A) id g l cap a :
  s !! id = Some (LVec (g :: l) cap) -> heap_ord le l ->
  exists l', lrun triv (hp_push cmp id a) s = Ok (tt, <[id := LVec (g :: l') (cap_push (S (length l)) cap)]> s) /\
    Permutation l' (a :: l) /\ heap_ord le l'.
Proof.
  intros Hs Ho. unfold hp_push. lgo wpush_ok.
  edestruct (hp_up_ok (<[id := LVec ((g :: l) ++ [a]) (cap_push (length (g :: l)) cap)]> s) id g l a)
    as (l' & Hrun & Hp & Ho'); [apply lookup_insert|exact Ho|].
  exists l'. rewrite Hrun, insert_insert. auto.
Qed.

(** ** States *)
Definition t_rel1 (o : robj A) (v : lvec A) : Prop :=
  match o with
  | RHeap g l cap => v = LVec (g :: l) (S cap) /\ heap_ord le l
  | RVec l => l_seq v = l
  end.
Definition t_rel (s : rworld) (ls : lworld A) : Prop :=
  lfit ls /\
  forall id, match s !! id, ls !! id with
             | Some o, Some v => t_rel1 o v
             | None, None => True
             | _, _ => False
             end.

Lemma t_heap s ls id g l cap : t_rel s ls -> s !! id = Some (RHeap g l cap) ->
  ls !! id = Some (LVec (g :: l) (S cap)) /\ heap_ord le l /\ length l <= cap.
Proof.
  intros [Hf H] Hs. specialize (H id). rewrite Hs in H. destruct (ls !! id) as [v|] eqn:E; [|contradiction].
  destruct H as [-> Ho]. split_and!; auto. pose proof (Hf _ _ E) as Hl. cbn in Hl. lia.
Qed.
Lemma t_vec s ls id l : t_rel s ls -> s !! id = Some (RVec l) -> exists cap, ls !! id = Some (LVec l cap).
Proof.
  intros [_ H] Hs. specialize (H id). rewrite Hs in H. destruct (ls !! id) as [[c cap]|]; [|contradiction].
  simpl in H. subst c. eauto.
Qed.
Lemma t_none s ls id : t_rel s ls -> s !! id = None -> ls !! id = None.
Proof. intros [_ H] Hs. specialize (H id). rewrite Hs in H. destruct (ls !! id); [contradiction|reflexivity]. Qed.
Lemma t_shown s ls id o : t_rel s ls -> s !! id = Some o -> exists cap, ls !! id = Some (LVec (shown o) cap).
Proof.
  intros H Hs. destruct o as [g l cap|l]; [destruct (t_heap _ _ _ _ _ _ H Hs) as [E _]; eauto|exact (t_vec _ _ _ _ H Hs)].
Qed.

Definition t_mid (s : rworld) (ls : lworld A) : Prop :=
  forall id, match s !! id, ls !! id with
             | Some o, Some v => t_rel1 o v
             | None, None => True
             | _, _ => False
             end.
Lemma m_ins s ls id o v : t_mid s ls -> t_rel1 o v -> t_mid (<[id := o]> s) (<[id := v]> ls).
Proof.
  intros H H1 j. destruct (decide (id = j)) as [->|Hne]; [rewrite !lookup_insert; exact H1|].
  rewrite !lookup_insert_ne by assumption. apply H.
Qed.
Lemma m_del s ls id : t_mid s ls -> t_mid (delete id s) (delete id ls).
Proof.
  intros H j. destruct (decide (id = j)) as [->|Hne]; [rewrite !lookup_delete; exact I|].
  rewrite !lookup_delete_ne by assumption. apply H.
Qed.

Definition wf (s : rworld) : Prop := forall id g l cap, s !! id = Some (RHeap g l cap) -> length l <= cap.
Lemma t_wf s ls : t_rel s ls -> wf s.
Proof. intros H id g l cap Hs. exact (proj2 (proj2 (t_heap _ _ _ _ _ _ H Hs))). Qed.
Lemma sent_eq (s : rworld) id g l cap : s !! id = Some (RHeap g l cap) -> sentinel s id = Some g.
Proof. intros H. unfold sentinel. rewrite H. reflexivity. Qed.

(** One call: it runs to [ls'], and [s'] describes that. *)
Lemma do_ok o s ls x t ls' s' :
  t_rel s ls -> h_step triv le o (bare <$> s) (SVal (x, t)) -> lrun triv (hp_step cmp o) ls = Ok (x, ls') ->
  t_mid s' ls' -> bare <$> s' = t -> (wf s' -> kept o s s') ->
  exists r, hr_step triv le (HDo o) s r /\ agree t_rel r (lrun triv (hr_prog cmp (HDo o)) ls).
Proof.
  intros [Hf H] Hst Hrun Hm Hb Hk.
  assert (Ht : t_rel s' ls') by (split; [eapply lrun_fit; eassumption|exact Hm]).
  exists (SVal (x, s')). split.
  - exists (SVal (x, t)). split; [exact Hst|]. exists s'. split_and!; auto. apply Hk. eapply t_wf, Ht.
  - cbn [agree hr_prog]. exists ls'. auto.
Qed.
Lemma do_unspec o s ls : h_step triv le o (bare <$> s) SUnspec ->
  exists r, hr_step triv le (HDo o) s r /\ agree t_rel r (lrun triv (hr_prog cmp (HDo o)) ls).
Proof. intros H. exists SUnspec. split; [exists SUnspec; auto|exact I]. Qed.
Lemma do_abort o s ls : h_step triv le o (bare <$> s) SAbort -> lrun triv (hp_step cmp o) ls = Abort ->
  exists r, hr_step triv le (HDo o) s r /\ agree t_rel r (lrun triv (hr_prog cmp (HDo o)) ls).
Proof. intros H E. exists SAbort. split; [exists SAbort; auto|exact E]. Qed.

Ltac klook Hj :=
  repeat match type of Hj with
  | <[?i := _]> _ !! ?j = Some _ =>
      destruct (decide (i = j)) as [?|?];
      [subst; rewrite lookup_insert in Hj; try discriminate Hj; injection Hj as ? ? ?; subst|
       rewrite lookup_insert_ne in Hj by assumption]
  | delete ?i _ !! ?j = Some _ =>
      destruct (decide (i = j)) as [?|?];
      [subst; rewrite lookup_delete in Hj; discriminate Hj|rewrite lookup_delete_ne in Hj by assumption]
  end.
Ltac keqb := repeat match goal with |- context [Nat.eqb ?a ?b] => destruct (Nat.eqb_spec a b); subst; try congruence end.
Ltac kp :=
  let W := fresh "W" in intros W; split_and!;
  [ let j := fresh "j" in let Hj := fresh "Hj" in intros j Hj; cbn [touched In] in Hj;
    rewrite ?lookup_insert_ne, ?lookup_delete_ne by tauto; reflexivity
  | let j := fresh "j" in let Hj := fresh "Hj" in intros j ?gj ?lj ?cj Hj; split; [|exact (W _ _ _ _ Hj)];
    klook Hj; cbn [sentinel_after]; keqb; eauto using sent_eq; try (symmetry; eauto using sent_eq)
  | try discriminate ].

Lemma do_agree o s ls : t_rel s ls ->
  exists r, hr_step triv le (HDo o) s r /\ agree t_rel r (lrun triv (hr_prog cmp (HDo o)) ls).
Proof.
  intros H. pose proof (proj2 H) as Hm.
  destruct o as [id l|id|id obj|id obj src b n|id src|id src|id src|id src|id|id a|id|id|id|id|id|id obj src b n|id obj src b n];
    destruct (s !! id) as [[g l0 cap|l0]|] eqn:Hs;
    try (apply do_unspec; cbn [h_step]; rewrite ?lookup_fmap, ?Hs; reflexivity);
    try (destruct (s !! src) as [[gu u ucap|u]|] eqn:Hu;
         try (apply do_unspec; cbn [h_step]; rewrite ?lookup_fmap, ?Hs, ?Hu; reflexivity));
    try (destruct (t_heap _ _ _ _ _ _ H Hs) as (Hl & Ho & Hc));
    try (destruct (t_vec _ _ _ _ H Hs) as (cap & Hl));
    try (pose proof (t_none _ _ _ H Hs) as Hl);
    try (destruct (t_heap _ _ _ _ _ _ H Hu) as (Hlu & Hou & Hcu));
    try (destruct (t_vec _ _ _ _ H Hu) as (vcap & Hlu));
    try (assert (Hne : id <> src) by congruence).
  - (* HVec *)
    destruct (push_all_ok triv id l (<[id := LVec [] 0]> ls) [] 0 (lookup_insert _ _ _)) as [cap E].
    eapply (do_ok _ _ _ _ _ _ (<[id := RVec l]> s) H).
    + cbn [h_step]. rewrite lookup_fmap, Hs. reflexivity.
    + cbn [hp_step]. lgo wnew_ok. rewrite (lrun_bind_ok _ _ _ _ _ _ E), insert_insert. reflexivity.
    + apply m_ins; [exact Hm|reflexivity].
    + rewrite fmap_insert. reflexivity.
    + kp.
  - (* HVIter *)
    eapply (do_ok _ _ _ _ _ _ s H).
    + cbn [h_step]. rewrite lookup_fmap, Hs. reflexivity.
    + cbn [hp_step]. lgo witer_ok. reflexivity.
    + exact Hm.
    + reflexivity.
    + kp.
  - (* HNew *)
    eapply (do_ok _ _ _ _ _ _ (<[id := RHeap obj [] 0]> s) H).
    + cbn [h_step]. rewrite lookup_fmap, Hs. reflexivity.
    + cbn [hp_step]. unfold hp_new. erewrite lrun_bind_ok by (apply wfill_ok; [exact Hl|lia]). reflexivity.
    + apply m_ins; [exact Hm|]. split; [reflexivity|apply heap_nil].
    + rewrite fmap_insert. reflexivity.
    + kp.
  - (* HRange *)
    destruct (Nat.leb_spec (b + n) (length u)) as [Hb|Hb].
    2:{ apply do_unspec. cbn [h_step]. rewrite !lookup_fmap, Hs, Hu. cbn.
        destruct (Nat.leb_spec (b + n) (length u)); [lia|reflexivity]. }
    destruct (hp_range_ok triv cmp le le_trans cmp_le cmp_ge ls id obj src b n u vcap Hl Hlu Hb) as (l & cap & Hrun & Hp & Ho).
    assert (Hfit : 1 + length l <= cap).
    { apply (lrun_fit triv _ _ _ _ (proj1 H) Hrun id (LVec (obj :: l) cap) (lookup_insert _ _ _)). }
    destruct cap as [|cap]; [lia|].
    eapply (do_ok _ _ _ RUnit _ _ (<[id := RHeap obj l cap]> s) H).
    + cbn [h_step]. rewrite !lookup_fmap, Hs, Hu. cbn. destruct (Nat.leb_spec (b + n) (length u)); [|lia].
      exists l. split_and!; [exact Hp|apply heap_ord_first; [exact le_trans|exact Ho]|reflexivity].
    + cbn [hp_step]. rewrite (lrun_bind_ok _ _ _ _ _ _ Hrun). reflexivity.
    + apply m_ins; [exact Hm|]. split; [reflexivity|exact Ho].
    + rewrite fmap_insert. reflexivity.
    + kp.
  - (* HCopyNew *)
    assert (triv = true \/ triv = false) as [Ht|Ht] by (destruct triv; auto).
    2:{ apply do_unspec; cbn [h_step]; rewrite !lookup_fmap, Hs, Hu. cbn. rewrite Ht. reflexivity. }
    eapply (do_ok _ _ _ RUnit _ _ (<[id := RHeap gu u ucap]> s) H).
    + cbn [h_step]. rewrite !lookup_fmap, Hs, Hu. cbn. rewrite Ht. reflexivity.
    + cbn [hp_step]. unfold hp_copy_new, hp_copy_assign. rewrite lrun_bind. lgo wnew_ok.
      erewrite wassign_ok; [|apply lookup_insert|rewrite lookup_insert_ne by assumption; exact Hlu|assumption|rewrite Ht; reflexivity].
      rewrite insert_insert. reflexivity.
    + apply m_ins; [exact Hm|]. split; [reflexivity|exact Hou].
    + rewrite fmap_insert. reflexivity.
    + kp.
  - (* HMoveNew *)
    eapply (do_ok _ _ _ RUnit _ _ (<[src := RHeap gu [] 0]> (<[id := RHeap gu u ucap]> s)) H).
    + cbn [h_step]. rewrite !lookup_fmap, Hs, Hu. reflexivity.
    + cbn [hp_step]. unfold hp_move_new. rewrite lrun_bind. lgo wnew_ok.
      erewrite hp_move_ok; [|apply lookup_insert|rewrite lookup_insert_ne by assumption; exact Hlu|assumption].
      rewrite insert_insert. reflexivity.
    + apply m_ins; [apply m_ins; [exact Hm|split; [reflexivity|exact Hou]]|]. split; [reflexivity|apply heap_nil].
    + rewrite !fmap_insert. reflexivity.
    + kp.
  - (* HAssign *)
    destruct (Nat.eqb_spec id src) as [->|Hne].
    { eapply (do_ok _ _ _ RUnit _ _ s H).
      - cbn [h_step]. rewrite !lookup_fmap, Hs. cbn. rewrite Nat.eqb_refl. reflexivity.
      - cbn [hp_step]. unfold hp_copy_assign. lgo wassign_self. reflexivity.
      - exact Hm.
      - reflexivity.
      - kp. }
    assert (triv = true \/ triv = false) as [Ht|Ht] by (destruct triv; auto).
    2:{ apply do_unspec; cbn [h_step]; rewrite !lookup_fmap, Hs, Hu. cbn. rewrite Ht.
        destruct (Nat.eqb_spec id src); [congruence|reflexivity]. }
    eapply (do_ok _ _ _ RUnit _ _ (<[id := RHeap gu u ucap]> s) H).
    + cbn [h_step]. rewrite !lookup_fmap, Hs, Hu. cbn. rewrite Ht. destruct (Nat.eqb_spec id src); [congruence|reflexivity].
    + cbn [hp_step]. unfold hp_copy_assign.
      erewrite lrun_bind_ok by (eapply wassign_ok; [exact Hl|exact Hlu|assumption|rewrite Ht; reflexivity]). reflexivity.
    + apply m_ins; [exact Hm|]. split; [reflexivity|exact Hou].
    + rewrite fmap_insert. reflexivity.
    + kp.
  - (* HMoveAssign *)
    destruct (Nat.eqb_spec id src) as [->|Hne].
    { apply do_unspec; cbn [h_step]; rewrite !lookup_fmap, Hs. cbn. rewrite Nat.eqb_refl. reflexivity. }
    eapply (do_ok _ _ _ RUnit _ _ (<[src := RHeap gu [] 0]> (<[id := RHeap gu u ucap]> s)) H).
    + cbn [h_step]. rewrite !lookup_fmap, Hs, Hu. cbn. destruct (Nat.eqb_spec id src); [congruence|reflexivity].
    + cbn [hp_step]. rewrite (lrun_bind_ok _ _ _ _ _ _ (hp_move_ok triv _ _ _ _ _ _ _ Hl Hlu Hne)). reflexivity.
    + apply m_ins; [apply m_ins; [exact Hm|split; [reflexivity|exact Hou]]|]. split; [reflexivity|apply heap_nil].
    + rewrite !fmap_insert. reflexivity.
    + kp.
  - (* HDestroy *)
    eapply (do_ok _ _ _ RUnit _ _ (delete id s) H).
    + cbn [h_step]. rewrite !lookup_fmap, Hs. reflexivity.
    + cbn [hp_step]. lgo wdestroy_ok. reflexivity.
    + apply m_del; exact Hm.
    + rewrite fmap_delete. reflexivity.
    + kp.
  - eapply (do_ok _ _ _ RUnit _ _ (delete id s) H).
    + cbn [h_step]. rewrite !lookup_fmap, Hs. reflexivity.
    + cbn [hp_step]. lgo wdestroy_ok. reflexivity.
    + apply m_del; exact Hm.
    + rewrite fmap_delete. reflexivity.
    + kp.
  - (* HPush *)
    destruct (hp_push_cap ls id g l0 (S cap) a Hl Ho) as (l' & Hrun & Hp & Ho').
    assert (Hcap : exists cap', cap_push (S (length l0)) (S cap) = S cap' /\ (length l0 < cap -> cap' = cap)).
    { unfold cap_push. destruct (Nat.eqb_spec (S (length l0)) (S cap)).
      - exists (Nat.max 2 (2 * S (length l0)) - 1). split; lia.
      - exists cap. auto. }
    destruct Hcap as (cap' & Ec & Hcap'). rewrite Ec in Hrun.
    eapply (do_ok _ _ _ RUnit _ _ (<[id := RHeap g l' cap']> s) H).
    + cbn [h_step]. rewrite !lookup_fmap, Hs. exists l'.
      split_and!; [exact Hp|apply heap_ord_first; [exact le_trans|exact Ho']|reflexivity].
    + cbn [hp_step]. rewrite (lrun_bind_ok _ _ _ _ _ _ Hrun). reflexivity.
    + apply m_ins; [exact Hm|]. split; [reflexivity|exact Ho'].
    + rewrite fmap_insert. reflexivity.
    + kp. intros i a' g1 l1 c1 E H1 Hlt. injection E as <- <-. rewrite Hs in H1. injection H1 as <- <- <-.
      exists l'. rewrite lookup_insert, (Hcap' Hlt). reflexivity.
  - (* HPop *)
    destruct l0 as [|x l0].
    { apply do_abort; cbn [h_step hp_step]; [rewrite lookup_fmap, Hs; reflexivity|].
      rewrite lrun_bind, (hp_pop_abort _ _ _ _ _ _ Hl). reflexivity. }
    destruct (hp_pop_ok triv cmp le le_trans cmp_le cmp_ge ls id g x l0 (S cap) Hl Ho) as (l' & cap' & Hrun & Hp & Ho').
    assert (Hfit : 1 + length l' <= cap').
    { apply (lrun_fit triv _ _ _ _ (proj1 H) Hrun id (LVec (g :: l') cap') (lookup_insert _ _ _)). }
    destruct cap' as [|cap']; [lia|].
    eapply (do_ok _ _ _ RUnit _ _ (<[id := RHeap g l' cap']> s) H).
    + cbn [h_step]. rewrite !lookup_fmap, Hs. exists l'.
      split_and!; [exact Hp|apply heap_ord_first; [exact le_trans|exact Ho']|reflexivity].
    + cbn [hp_step]. rewrite (lrun_bind_ok _ _ _ _ _ _ Hrun). reflexivity.
    + apply m_ins; [exact Hm|]. split; [reflexivity|exact Ho'].
    + rewrite fmap_insert. reflexivity.
    + kp.
  - (* HTop *)
    destruct l0 as [|x l0].
    { apply do_abort; cbn [h_step hp_step]; [rewrite lookup_fmap, Hs; reflexivity|].
      rewrite lrun_bind, (hp_top_abort _ _ _ _ _ Hl). reflexivity. }
    eapply (do_ok _ _ _ (RVal x) _ _ s H).
    + cbn [h_step]. rewrite !lookup_fmap, Hs. reflexivity.
    + cbn [hp_step]. lgo hp_top_ok. reflexivity.
    + exact Hm.
    + reflexivity.
    + kp.
  - (* HSize *)
    eapply (do_ok _ _ _ _ _ _ s H).
    + cbn [h_step]. rewrite !lookup_fmap, Hs. reflexivity.
    + cbn [hp_step]. unfold hp_size. rewrite lrun_bind. lgo wsize_ok. reflexivity.
    + exact Hm.
    + reflexivity.
    + kp.
  - (* HEmpty *)
    eapply (do_ok _ _ _ _ _ _ s H).
    + cbn [h_step]. rewrite !lookup_fmap, Hs. reflexivity.
    + cbn [hp_step]. unfold hp_empty. rewrite lrun_bind. lgo wsize_ok. destruct l0; reflexivity.
    + exact Hm.
    + reflexivity.
    + kp.
  - (* HIter *)
    eapply (do_ok _ _ _ (RList l0) _ _ s H).
    + cbn [h_step]. rewrite !lookup_fmap, Hs. exists l0. split; reflexivity.
    + cbn [hp_step]. unfold hp_iter. rewrite lrun_bind. lgo witer_ok. reflexivity.
    + exact Hm.
    + reflexivity.
    + kp.
  - (* HBuild *)
    destruct (Nat.leb_spec (b + n) (length u)) as [Hb|Hb].
    2:{ apply do_unspec. cbn [h_step]. rewrite !lookup_fmap, Hs, Hu. cbn.
        destruct (Nat.leb_spec (b + n) (length u)); [lia|reflexivity]. }
    destruct (hp_build_ok triv cmp le le_trans cmp_le cmp_ge ls id obj src b n u vcap Hl Hlu Hb) as (l & cap & Hrun & Hp & Ho & Hln).
    assert (Hfit : 1 + length l <= cap).
    { apply (lrun_fit triv _ _ _ _ (proj1 H) Hrun id (LVec (obj :: l) cap)).
      rewrite lookup_insert_ne by congruence. apply lookup_insert. }
    destruct cap as [|cap]; [lia|].
    eapply (do_ok _ _ _ RUnit _ _ (<[src := RVec (firstn b u ++ l ++ skipn (b + n) u)]> (<[id := RHeap obj l cap]> s)) H).
    + cbn [h_step]. rewrite !lookup_fmap, Hs, Hu. cbn. destruct (Nat.leb_spec (b + n) (length u)); [|lia].
      exists l. split_and!; [exact Hp|apply heap_ord_first; [exact le_trans|exact Ho]|exact Ho|reflexivity].
    + cbn [hp_step]. rewrite (lrun_bind_ok _ _ _ _ _ _ Hrun). reflexivity.
    + apply m_ins; [apply m_ins; [exact Hm|split; [reflexivity|exact Ho]]|]. unfold t_rel1, blit. simpl. rewrite Hln. reflexivity.
    + rewrite !fmap_insert. reflexivity.
    + kp.
  - (* HSort *)
    destruct (Nat.leb_spec (b + n) (length u)) as [Hb|Hb].
    2:{ apply do_unspec. cbn [h_step]. rewrite !lookup_fmap, Hs, Hu. cbn.
        destruct (Nat.leb_spec (b + n) (length u)); [lia|reflexivity]. }
    destruct (hp_sort_ok triv cmp le le_trans cmp_le cmp_ge ls id obj src b n u vcap Hl Hlu Hb) as (l & Hrun & Hp & Hso & Hln).
    eapply (do_ok _ _ _ RUnit _ _ (<[src := RVec (firstn b u ++ l ++ skipn (b + n) u)]> s) H).
    + cbn [h_step]. rewrite !lookup_fmap, Hs, Hu. cbn. destruct (Nat.leb_spec (b + n) (length u)); [|lia].
      exists l. split_and!; [exact Hp|exact Hso|reflexivity].
    + cbn [hp_step]. rewrite (lrun_bind_ok _ _ _ _ _ _ Hrun). reflexivity.
    + apply m_ins; [exact Hm|]. unfold t_rel1, blit. simpl. rewrite Hln. reflexivity.
    + rewrite !fmap_insert. reflexivity.
    + kp.
Qed.
End HeapRefP.
