(** AVLTree::_rebalance_after_delete and _delete_by_target. *)
From Coq Require Import Sorted.
From Verif Require Import Base Alloc TreeModel TreeSpec TreeBase TreeSets TreeRot TreeIns TreeZip TreeSwap TreeDel.
Open Scope Z_scope.

Section Erase.
Context {A : Type}.
Notation tree := (atree A).
Implicit Types (h : gmap nat (node A)) (t l r : tree) (x : A) (C : list (frame A)) (F : frame A).

(** Rebalancing upwards. *)
Fixpoint rebuild C t : tree :=
  match C with [] => balF t | F :: C => rebuild C (updF (fill1 F (balF t))) end.
Lemma cnt_rebuild k C : forall t, cnt k (rebuild C t) = cnt k (plug C t).
Proof.
  induction C as [|F C IH]; intros t; cbn [rebuild plug]; [apply cnt_bal|].
  rewrite IH, !cnt_plug, cnt_upd, !cnt_fill1, cnt_bal. lia.
Qed.
Lemma elems_rebuild C : forall t, elems (rebuild C t) = elems (plug C t).
Proof.
  induction C as [|F C IH]; intros t; cbn [rebuild plug]; [apply elems_bal|].
  rewrite IH, !elems_plug, elems_upd. destruct F; cbn [fill1 elems]; rewrite elems_bal; reflexivity.
Qed.

(** A node whose children are fit but whose own balance may be off by two. *)
Definition near t : Prop :=
  match t with Lf => False | Br l a hh x r => avl l /\ avl r /\ -2 <= depth l - depth r <= 2 /\ t = updF t end.
Lemma near_upd l a hh x r : avl l -> avl r -> -2 <= depth l - depth r <= 2 -> near (updF (Br l a hh x r)).
Proof. intros Hl Hr Hd. cbn [updF near]. split; [exact Hl|]. split; [exact Hr|]. split; [exact Hd|reflexivity]. Qed.
Lemma near_bal t : near t -> avl (balF t).
Proof.
  destruct t as [|l a hh x r]; [intros []|]. intros (Hl & Hr & Hd & ->). apply bal_avl; assumption.
Qed.
Lemma near_kids t : near t -> kids_ok t /\ t <> Lf.
Proof. destruct t as [|l a hh x r]; [intros []|]. intros ([Hl _] & [Hr _] & _). split; [split; assumption|discriminate]. Qed.
Lemma avl_fill1 F t : avl (fill1 F t) -> avl t.
Proof. destruct F; cbn [fill1]; rewrite avl_Br; tauto. Qed.
Lemma avl_unplug C : forall t, avl (plug C t) -> avl t.
Proof. induction C as [|F C IH]; intros t; cbn [plug]; [auto|]. intros H. apply IH, avl_fill1 in H. exact H. Qed.
Lemma near_fill F t0 t' : avl (fill1 F t0) -> avl t' -> depth t0 - 1 <= depth t' <= depth t0 ->
  near (updF (fill1 F t')) /\ depth (fill1 F t0) - 1 <= depth (balF (updF (fill1 F t'))) <= depth (fill1 F t0).
Proof.
  intros H Ht' Hd. destruct F as [a hh x r|l a hh x]; cbn [fill1] in *; apply avl_Br in H as (_ & Hb & Hl & Hr).
  - split; [apply near_upd; (assumption || lia)|].
    destruct (bal_avl t' a hh x r Ht' Hr ltac:(lia)) as [_ Hd']. cbn [depth]. lia.
  - split; [apply near_upd; (assumption || lia)|].
    destruct (bal_avl l a hh x t' Hl Ht' ltac:(lia)) as [_ Hd']. cbn [depth]. lia.
Qed.
Lemma rebuild_avl C : forall t t0, avl (plug C t0) -> near t -> depth t0 - 1 <= depth (balF t) <= depth t0 -> avl (rebuild C t).
Proof.
  induction C as [|F C IH]; intros t t0 H0 Hn Hd; cbn [rebuild plug] in *; [apply near_bal, Hn|].
  pose proof (avl_unplug _ _ H0) as Hf. destruct (near_fill F t0 (balF t) Hf (near_bal _ Hn) Hd) as [Hn' Hd'].
  exact (IH _ _ H0 Hn' Hd').
Qed.

(** Putting another tree in the hole: the code at the parent. *)
Lemma set_child_ok h f rt z par F p t' : (forall k, cntF k F + cnt k t' <= 1)%nat -> flinked h par F p -> p <> None ->
  (forall k, p = Some k -> cntF k F = 0%nat) -> linked h (Some (fa F)) t' ->
  exists h', (l <- ld_left (Some (fa F)) ;;
     (if ptr_eqb l p then st_left (Some (fa F)) (rootp t') else st_right (Some (fa F)) (rootp t')) ;;;
     avl_update_height (Some (fa F))) (TSt h f rt z) = Ok (tt, TSt h' f rt z) /\
    linked h' par (updF (fill1 F t')) /\ forall k, cntF k F = 0%nat -> h' !! k = h !! k.
Proof.
  intros Hn HF Hpn Hp Ht'. destruct p as [c|]; [clear Hpn|congruence]. specialize (Hp c eq_refl).
  assert (exists h1, (l <- ld_left (Some (fa F)) ;;
     (if ptr_eqb l (Some c) then st_left (Some (fa F)) (rootp t') else st_right (Some (fa F)) (rootp t'))) (TSt h f rt z) = Ok (tt, TSt h1 f rt z) /\
     linked h1 par (fill1 F t') /\ forall k, cntF k F = 0%nat -> h1 !! k = h !! k) as (h1 & E1 & H1 & F1).
  { destruct F as [a hh x r|l a hh x]; cbn [fa flinked fill1 cntF] in *; destruct HF as [Ha Hs];
      pose proof (Hn a) as Hna; rewrite one_eq in Hna; hgo.
    - rewrite ptr_eqb_refl. eexists. split; [apply (st_left_ok _ _ _ _ _ _ _ Ha)|]. cbn [n_par n_right n_h n_val]. split.
      + cbn [linked]. split_and!; [apply lookup_insert| |]; apply linked_insert; (assumption || lia).
      + intros k Hk. apply lookup_insert_ne. intros ->. rewrite one_eq in Hk. lia.
    - rewrite ptr_eqb_ne. 2:{ intros E. apply rootp_cnt in E. lia. }
      eexists. split; [apply (st_right_ok _ _ _ _ _ _ _ Ha)|]. cbn [n_par n_left n_h n_val]. split.
      + cbn [linked]. split_and!; [apply lookup_insert| |]; apply linked_insert; (assumption || lia).
      + intros k Hk. apply lookup_insert_ne. intros ->. rewrite one_eq in Hk. lia. }
  assert (nd (fill1 F t')) as Hn1 by (intros k; rewrite cnt_fill1; apply Hn).
  destruct (update_height_root h1 f rt z par (fill1 F t') ltac:(destruct F; discriminate) Hn1 H1) as (h2 & E2 & H2 & F2).
  rewrite rootp_fill1 in E2. exists h2. split_and!; [| exact H2|].
  - rewrite <- bind_assoc. rewrite (bind_ok _ _ _ _ _ E1). exact E2.
  - intros k Hk. destruct (decide (cnt k t' = 0%nat)) as [Hk'|Hk'].
    + rewrite F2 by (rewrite cnt_fill1; lia). apply F1, Hk.
    + (* update_height touches only the root *)
      destruct F as [a hh x r|l a hh x]; cbn [fill1 fa cntF] in *; pose proof H1 as (Ha & Hl & Hr);
      rewrite (avl_update_height_ok _ _ _ _ _ _ _ _ _ _ _ Ha Hl Hr) in E2; injection E2 as <-;
      rewrite lookup_insert_ne by (intros ->; rewrite one_eq in Hk; lia); apply F1, Hk.
Qed.

Lemma nd_plug C t : nd (plug C t) <-> forall k, (cntC k C + cnt k t <= 1)%nat.
Proof. unfold nd. split; intros H k; specialize (H k); rewrite cnt_plug in *; exact H. Qed.

Lemma avl_rebalance_ok C : forall t t0 fl h f rt z,
  nd (plug C t) -> linked h (hpar None C) t -> linkedC h None C (rootp t) -> rt = rootp (plug C t) ->
  avl (plug C t0) -> near t -> depth t0 - 1 <= depth (balF t) <= depth t0 -> (length C < pred fl)%nat ->
  exists h', avl_rebalance fl (rootp t) (TSt h f rt z) = Ok (tt, TSt h' f (rootp (rebuild C t)) z) /\
    linked h' None (rebuild C t) /\ forall k, cnt k (plug C t) = 0%nat -> h' !! k = h !! k.
Proof.
  induction C as [|F C IH]; intros t t0 fl h f rt z Hn Ht HC Hrt H0 Hnr Hd Hfl; (destruct fl as [|fl]; [cbn in Hfl; lia|]);
    cbn [pred] in Hfl; destruct (near_kids _ Hnr) as [Hk Hnl]; cbn [avl_rebalance].
  - cbn [plug hpar linkedC rebuild] in *. destruct t as [|l a hh x r] eqn:Et; [congruence|]. rewrite <- Et in *.
    assert (rootp t = Some a) as Er by (rewrite Et; reflexivity).
    pose proof Ht as Ht2. rewrite Et in Ht2. destruct Ht2 as (Ha & _).
    rewrite Er. cbn [is_null]. erewrite bind_ok by hacc. cbn [n_par].
    destruct (avl_check_balance_ok h f rt z None t Hn Ht Hk) as (h1 & E1 & H1 & F1). rewrite Er in E1.
    rewrite (bind_ok _ _ _ _ _ E1). cbn [is_null negb].
    destruct fl as [|fl]; [cbn in Hfl; lia|].
    assert (exists h2, when (negb (ptr_eqb (rootp (balF t)) (Some a))) (update_root (rootp (balF t))) (TSt h1 f rt z) = Ok (tt, TSt h2 f (rootp (balF t)) z) /\ h2 = h1) as (h2 & E2 & ->).
    { exists h1. split; [|reflexivity]. unfold ptr_eqb. destruct (bool_decide_reflect (rootp (balF t) = Some a)) as [E|E].
      - cbn [negb when ret]. rewrite Hrt, Er, E. reflexivity.
      - cbn [negb when]. unfold update_root. erewrite bind_ok by reflexivity. cbn [t_heap t_al t_size].
        destruct (balF t) as [|l' b hb y r'] eqn:Eb; [reflexivity|]. cbn [rootp is_null negb when]. pose proof H1 as (Hb & _).
        rewrite (st_par_ok _ _ _ _ _ _ _ Hb). cbn [n_left n_right n_h n_val]. rewrite insert_id by exact Hb. reflexivity. }
    rewrite (bind_ok _ _ _ _ _ E2). exists h1. split_and!; [reflexivity|exact H1|exact F1].
  - cbn [plug hpar linkedC rebuild] in *. destruct HC as [HF HC].
    destruct t as [|l a hh x r] eqn:Et; [congruence|]. rewrite <- Et in *.
    assert (rootp t = Some a) as Er by (rewrite Et; reflexivity).
    pose proof Ht as Ht2. rewrite Et in Ht2. destruct Ht2 as (Ha & _).
    assert (forall k, cntC k C + (cntF k F + cnt k t) <= 1)%nat as Hcn.
    { intros k. specialize (Hn k). rewrite cnt_plug, cnt_fill1 in Hn. exact Hn. }
    assert (nd t) as Hnt by (intros k; specialize (Hcn k); lia).
    rewrite Er. cbn [is_null]. erewrite bind_ok by hacc. cbn [n_par].
    destruct (avl_check_balance_ok h f rt z (Some (fa F)) t Hnt Ht Hk) as (h1 & E1 & H1 & F1). rewrite Er in E1.
    rewrite (bind_ok _ _ _ _ _ E1). cbn [is_null negb].
    assert (flinked h1 (hpar None C) F (Some a)) as HF1.
    { rewrite <- Er. eapply flinked_same; [|exact HF]. intros k Hk2. apply F1. specialize (Hcn k). lia. }
    assert (linkedC h1 None C (Some (fa F))) as HC1.
    { eapply linkedC_same; [|exact HC]. intros k Hk2. apply F1. specialize (Hcn k). lia. }
    assert (0 < cnt a t)%nat as Hca by (apply rootp_cnt, Er).
    destruct (set_child_ok h1 f rt z (hpar None C) F (Some a) (balF t)) as (h2 & E2 & H2 & F2); try assumption.
    { intros k. rewrite cnt_bal. specialize (Hcn k). lia. }
    { discriminate. }
    { intros k [= <-]. specialize (Hcn a). lia. }
    rewrite (bind_ok _ _ _ _ _ E2).
    set (t2 := updF (fill1 F (balF t))) in *.
    assert (forall k, cnt k t2 = cntF k F + cnt k t)%nat as Hct2 by (intros k; unfold t2; rewrite cnt_upd, cnt_fill1, cnt_bal; reflexivity).
    assert (rootp t2 = Some (fa F)) as Er2 by (unfold t2; destruct F; reflexivity).
    destruct (near_fill F t0 (balF t) (avl_unplug _ _ H0) (near_bal _ Hnr) Hd) as [Hn' Hd'].
    destruct (IH t2 (fill1 F t0) fl h2 f rt z) as (h3 & E3 & H3 & F3); try assumption.
    + intros k. rewrite cnt_plug, Hct2. apply Hcn.
    + rewrite Er2. eapply linkedC_same; [|exact HC1]. intros k Hk2.
      destruct (decide (cnt k t = 0%nat)) as [Hkt|Hkt].
      * apply F2. specialize (Hcn k). lia.
      * specialize (Hcn k). lia.
    + rewrite Hrt, !rootp_plug. destruct (last C); [reflexivity|]. rewrite rootp_fill1, Er2. reflexivity.
    + cbn in Hfl. lia.
    + rewrite Er2 in E3. exists h3. split_and!; [exact E3|exact H3|].
      intros k Hk2. rewrite cnt_plug, cnt_fill1 in Hk2. rewrite F3 by (rewrite cnt_plug, Hct2; lia).
      rewrite F2 by lia. apply F1. lia.
Qed.

(** Deleting a node with at most one child that has a parent. *)
Definition subt l r : tree := match l with Lf => r | Br _ _ _ _ _ => l end.
Definition delat F C l r : tree := rebuild C (updF (fill1 F (subt l r))).
Lemma length_nodes C : forall t, (length C + nodes t <= nodes (plug C t))%nat.
Proof.
  induction C as [|F C IH]; intros t; cbn [plug length]; [lia|]. specialize (IH (fill1 F t)).
  destruct F; cbn [fill1 nodes] in *; lia.
Qed.
Lemma delat_cnt k F C l a (hh : Z) v r : l = Lf \/ r = Lf ->
  (cnt k (delat F C l r) + one k a = cnt k (plug (F :: C) (Br l a hh v r)))%nat.
Proof.
  intros H. unfold delat. rewrite cnt_rebuild. cbn [plug]. rewrite !cnt_plug, cnt_upd, !cnt_fill1. cbn [cnt].
  destruct H as [->| ->]; [cbn; lia|]. destruct l; cbn [subt cnt]; lia.
Qed.
Lemma delat_elems F C l r : l = Lf \/ r = Lf -> elems (delat F C l r) = elemsL (F :: C) ++ (elems l ++ elems r) ++ elemsR (F :: C).
Proof.
  intros H. unfold delat. rewrite elems_rebuild, elems_plug, elems_upd.
  assert (elems (subt l r) = elems l ++ elems r) as E.
  { destruct H as [->| ->]; [reflexivity|]. cbn [elems]. rewrite app_nil_r. destruct l; reflexivity. }
  destruct F; cbn [fill1 elems elemsL elemsR]; rewrite E, <- ?app_assoc; cbn [app]; rewrite <- ?app_assoc; reflexivity.
Qed.
Lemma subt_avl l a hh v r : l = Lf \/ r = Lf -> avl (Br l a hh v r) ->
  avl (subt l r) /\ depth (subt l r) = depth (Br l a hh v r) - 1.
Proof.
  intros H Ht. apply avl_Br in Ht as (_ & _ & Hl & Hr). pose proof (depth_nonneg l). pose proof (depth_nonneg r).
  destruct H as [->| ->]; [cbn [subt depth] in *; split; [exact Hr|lia]|].
  destruct l; cbn [subt]; [split; [exact Hl|cbn; lia]|]. split; [exact Hl|]. cbn [depth] in *. lia.
Qed.
Lemma delat_avl F C l a hh v r : l = Lf \/ r = Lf -> avl (plug (F :: C) (Br l a hh v r)) -> avl (delat F C l r).
Proof.
  intros H H0. cbn [plug] in H0. pose proof (avl_unplug _ _ H0) as Hf. pose proof (avl_fill1 _ _ Hf) as Ht.
  destruct (subt_avl l a hh v r H Ht) as [Hs Hd].
  destruct (near_fill F (Br l a hh v r) (subt l r) Hf Hs ltac:(lia)) as [Hn Hd'].
  unfold delat. exact (rebuild_avl C _ _ H0 Hn Hd').
Qed.

Lemma delete_target_small F C l a hh v r fl h f z :
  let t := plug (F :: C) (Br l a hh v r) in
  nd t -> linked h None t -> avl t -> l = Lf \/ r = Lf -> (0 < fl)%nat ->
  exists h' q, avl_delete_target fl (Some a) (TSt h f (rootp t) z) = Ok (q, TSt h' (al_gave a f) (rootp (delat F C l r)) (z - 1)) /\
    linked h' None (delat F C l r) /\ h' !! a = None /\ forall k, cnt k t = 0%nat -> h' !! k = h !! k.
Proof.
  intros t Hn H Hav Hlr Hfl. destruct fl as [|fl]; [lia|].
  assert (forall k, cntC k C + (cntF k F + (cnt k l + one k a + cnt k r)) <= 1)%nat as Hcn.
  { intros k. specialize (Hn k). unfold t in Hn. cbn [plug] in Hn. rewrite cnt_plug, cnt_fill1 in Hn. cbn [cnt] in Hn. exact Hn. }
  pose proof H as H'. unfold t in H'. apply linked_plug in H' as [[HF HC] (Ha & Hl & Hr)]. cbn [hpar rootp] in *.
  set (sub := subt l r).
  assert (linked h (Some a) sub) as Hsub by (unfold sub; destruct l; assumption).
  assert (forall k, cnt k sub <= cnt k l + cnt k r)%nat as Hcs by (intros k; unfold sub; destruct l; cbn [subt cnt]; lia).
  assert (nd sub) as Hns by (intros k; specialize (Hcn k); specialize (Hcs k); lia).
  pose proof (Hcn a) as Hcna. rewrite one_eq in Hcna.
  assert (0 < cntF (fa F) F)%nat as Hfa by apply fa_cnt.
  assert (fa F <> a) as Hfaa. { intros E. rewrite E in Hfa. lia. }
  (* after re-parenting the only child *)
  set (h1 := setparp h (rootp sub) (Some (fa F))).
  assert (linked h1 (Some (fa F)) sub) as Hs1 by (eapply linked_reparent; eauto).
  assert (flinked h1 (hpar None C) F (Some a)) as HF1.
  { eapply flinked_same; [|exact HF]. intros k Hk. apply sp_ne. specialize (Hcn k). specialize (Hcs k). lia. }
  assert (linkedC h1 None C (Some (fa F))) as HC1.
  { eapply linkedC_same; [|exact HC]. intros k Hk. apply sp_ne. specialize (Hcn k). specialize (Hcs k). lia. }
  assert (h1 !! a = h !! a) as Ha1 by (apply sp_ne; specialize (Hcs a); lia).
  destruct (set_child_ok h1 f (rootp t) z (hpar None C) F (Some a) sub) as (h2 & E2 & H2 & F2); try assumption.
  { intros k. specialize (Hcn k). specialize (Hcs k). lia. }
  { discriminate. }
  { intros k [= <-]. lia. }
  set (t2 := updF (fill1 F sub)) in *.
  assert (forall k, cnt k t2 = cntF k F + cnt k sub)%nat as Hct2 by (intros k; unfold t2; rewrite cnt_upd, cnt_fill1; reflexivity).
  assert (rootp t2 = Some (fa F)) as Er2 by (unfold t2; destruct F; reflexivity).
  unfold t in Hav. cbn [plug] in Hav. pose proof (avl_unplug _ _ Hav) as Hf. pose proof (avl_fill1 _ _ Hf) as Ht.
  destruct (subt_avl l a hh v r Hlr Ht) as [Hsa Hd].
  destruct (near_fill F (Br l a hh v r) sub Hf Hsa ltac:(unfold sub; lia)) as [Hn2 Hd2]. fold t2 in Hn2, Hd2.
  assert (linkedC h2 None C (rootp t2)) as HC2.
  { rewrite Er2. eapply linkedC_same; [|exact HC1]. intros k Hk. apply F2. specialize (Hcn k). lia. }
  assert (nd (plug C t2)) as Hnp.
  { intros k. rewrite cnt_plug, Hct2. specialize (Hcn k). specialize (Hcs k). lia. }
  assert (linked h2 None (plug C t2)) as Hlp by (apply linked_plug; auto).
  destruct (avl_rebalance_ok C t2 (fill1 F (Br l a hh v r)) (S (S (size h2))) h2 f (rootp t) z) as (h3 & E3 & H3 & F3); try assumption.
  { unfold t. cbn [plug]. rewrite !rootp_plug. destruct (last C); [reflexivity|]. rewrite rootp_fill1, Er2. reflexivity. }
  { pose proof (nodes_size _ _ _ Hnp Hlp). pose proof (length_nodes C t2). cbn [pred]. lia. }
  assert (cnt a t2 = 0%nat) as Hat2 by (rewrite Hct2; specialize (Hcs a); lia).
  assert (h3 !! a = h !! a) as Ha3.
  { rewrite F3 by (rewrite cnt_plug; lia). rewrite F2 by lia. exact Ha1. }
  assert (Hmid : ((l0 <- ld_left (Some (fa F)) ;; (if ptr_eqb l0 (Some a) then st_left (Some (fa F)) (rootp sub) else st_right (Some (fa F)) (rootp sub)) ;;;
       avl_update_height (Some (fa F)) ;;; g <- fuel ;; avl_rebalance g (Some (fa F))) ;;;
       avl_real_delete (Some a) ;;; ret (rootp sub)) (TSt h1 f (rootp t) z) = Ok (rootp sub, TSt (delete a h3) (al_gave a f) (rootp (rebuild C t2)) (z - 1))).
  { assert ((l0 <- ld_left (Some (fa F)) ;; (if ptr_eqb l0 (Some a) then st_left (Some (fa F)) (rootp sub) else st_right (Some (fa F)) (rootp sub)) ;;;
       avl_update_height (Some (fa F)) ;;; g <- fuel ;; avl_rebalance g (Some (fa F))) (TSt h1 f (rootp t) z) = Ok (tt, TSt h3 f (rootp (rebuild C t2)) z)) as Em.
    { rewrite <- bind_assoc. apply bind_inv in E2 as (ll & s1 & EA & EB). apply bind_inv in EB as (u & s2 & EB & EC).
      rewrite bind_assoc. erewrite bind_ok by exact EA. erewrite bind_ok by exact EB. erewrite bind_ok by exact EC.
      erewrite bind_ok by reflexivity. cbn [t_heap]. rewrite <- Er2. exact E3. }
    rewrite (bind_ok _ _ _ _ _ Em). unfold avl_real_delete. rewrite bind_assoc. unfold free_node.
    erewrite bind_ok. 2:{ cbn [t_heap]. rewrite Ha3, Ha. reflexivity. } reflexivity. }
  exists (delete a h3), (rootp sub). fold sub. change (delat F C l r) with (rebuild C t2). split_and!.
  - cbn [avl_delete_target is_null]. erewrite bind_ok by hacc. erewrite bind_ok by hacc. erewrite bind_ok by hacc.
    cbn [n_par n_left n_right].
    destruct sub as [|s1 c hc w s2] eqn:Es.
    + assert (l = Lf) as -> by (unfold sub in Es; destruct l; [reflexivity|discriminate]).
      assert (r = Lf) as -> by exact Es.
      cbn [rootp is_null andb negb when]. unfold h1 in Hmid. cbn [rootp setparp] in Hmid. exact Hmid.
    + assert (h !! c = Some (Nd (Some a) (rootp s1) (rootp s2) hc w)) as Hc by apply Hsub.
      assert ((is_null (rootp l) && is_null (rootp r)) = false) as ->.
      { destruct l; [|reflexivity]. unfold sub in Es. cbn [subt] in Es. subst r. reflexivity. }
      assert ((negb (is_null (rootp l)) && negb (is_null (rootp r))) = false) as ->.
      { destruct Hlr as [->| ->]; [reflexivity|]. destruct l; reflexivity. }
      assert ((if negb (is_null (rootp l)) then rootp l else rootp r) = Some c) as ->.
      { unfold sub in Es. destruct l; cbn [subt] in Es; [subst r; reflexivity|rewrite Es; reflexivity]. }
      cbn zeta. rewrite (bind_ok _ _ _ _ _ (st_par_al _ _ _ _ _ _ _ Hc)). cbn [is_null negb when].
      unfold h1 in Hmid. cbn [rootp setparp] in Hmid. exact Hmid.
  - apply linked_delete; [|exact H3]. rewrite cnt_rebuild, cnt_plug. lia.
  - apply lookup_delete.
  - intros k Hk. unfold t in Hk. cbn [plug] in Hk. rewrite cnt_plug, cnt_fill1 in Hk. cbn [cnt] in Hk.
    specialize (Hcs k). rewrite lookup_delete_ne by (intros <-; rewrite one_eq in Hk; lia).
    rewrite F3 by (rewrite cnt_plug, Hct2; lia). rewrite F2 by lia. apply sp_ne. lia.
Qed.
End Erase.
