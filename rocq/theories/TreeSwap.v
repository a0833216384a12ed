(** AVLTree::_swap_node of a node with the smallest node of its right subtree. *)
From Coq Require Import Sorted.
From Verif Require Import Base TreeModel TreeSpec TreeBase TreeSets TreeRot TreeZip.
Open Scope Z_scope.

Section Swap.
Context {A : Type}.
Notation tree := (atree A).
Implicit Types (h : gmap nat (node A)) (t l r : tree) (x : A).

Lemma la_cv h (k : nat) (n n' : node A) : h !! k = Some n -> n = n' -> h !! k = Some n'.
Proof. intros H <-. exact H. Qed.
Lemma la_eq g k h n : h !! k = Some n -> alter g k h !! k = Some (g n).
Proof. intros H. rewrite lookup_alter, H. reflexivity. Qed.
Lemma la_ne g j k h n : j <> k -> h !! k = Some n -> alter g j h !! k = Some n.
Proof. intros Hj H. rewrite lookup_alter_ne by exact Hj. exact H. Qed.
Lemma la_sp l k q h n : cnt k l = 0%nat -> h !! k = Some n -> setparp h (rootp l) q !! k = Some n.
Proof.
  intros Hk H. destruct l as [|l1 c hc v l2]; [exact H|]. cbn [setparp rootp]. apply la_ne; [|exact H].
  intros ->. cbn [cnt] in Hk. rewrite one_eq in Hk. lia.
Qed.
Lemma la_fp par a b k h n : par <> Some k -> h !! k = Some n -> fixp h par a b !! k = Some n.
Proof. intros Hk H. destruct par as [p|]; [|exact H]. cbn [fixp]. apply la_ne; [congruence|exact H]. Qed.

Lemma sp_ne l k q h : cnt k l = 0%nat -> setparp h (rootp l) q !! k = h !! k.
Proof.
  intros Hk. destruct l as [|l1 c hc v l2]; [reflexivity|]. cbn [setparp rootp]. apply lookup_alter_ne.
  intros ->. cbn [cnt] in Hk. rewrite one_eq in Hk. lia.
Qed.
Lemma fp_ne par a b k h : par <> Some k -> fixp h par a b !! k = h !! k.
Proof. intros Hk. destruct par as [p|]; [|reflexivity]. cbn [fixp]. apply lookup_alter_ne. congruence. Qed.
Lemma linked_sp_ne h p t l q : (forall k, (0 < cnt k t)%nat -> cnt k l = 0%nat) -> linked h p t -> linked (setparp h (rootp l) q) p t.
Proof. intros H. apply linked_same. intros k Hk. apply sp_ne. apply H. lia. Qed.
Lemma linked_fp_ne h p t par a b : (forall k, par = Some k -> cnt k t = 0%nat) -> linked h p t -> linked (fixp h par a b) p t.
Proof. intros H. apply linked_same. intros k Hk. apply fp_ne. intros ->. specialize (H k eq_refl). lia. Qed.
Lemma linkedC_sp_ne h p C e l q : (forall k, (0 < cntC k C)%nat -> cnt k l = 0%nat) -> linkedC h p C e -> linkedC (setparp h (rootp l) q) p C e.
Proof. intros H. apply linkedC_same. intros k Hk. apply sp_ne. apply H. lia. Qed.
Lemma linkedC_fp_ne h p C e par a b : (forall k, par = Some k -> cntC k C = 0%nat) -> linkedC h p C e -> linkedC (fixp h par a b) p C e.
Proof. intros H. apply linkedC_same. intros k Hk. apply fp_ne. intros ->. specialize (H k eq_refl). lia. Qed.
Lemma alter_some g (j k : nat) h : is_Some (h !! k) -> is_Some (alter g j h !! k).
Proof. intros H. apply (onp_some g h (Some j) k H). Qed.
Lemma cntC_app k (C1 C2 : list (frame A)) : cntC k (C1 ++ C2) = (cntC k C1 + cntC k C2)%nat.
Proof. induction C1 as [|F C1 IH]; cbn [app cntC]; [reflexivity|]. rewrite IH. lia. Qed.
End Swap.

Ltac alk := lazymatch goal with
  | |- alter _ ?j _ !! ?k = Some _ => first
      [ constr_eq j k; apply la_eq; alk
      | apply la_ne; [first [assumption | apply not_eq_sym; assumption | congruence]|alk] ]
  | |- setparp _ (rootp _) _ !! _ = Some _ => apply la_sp; [lia|alk]
  | |- fixp _ _ _ _ !! _ = Some _ => apply la_fp; [assumption|alk]
  | |- _ => eassumption
  end.
Ltac aacc := first [ eapply ld_par_ok; alk | eapply ld_left_ok; alk | eapply ld_right_ok; alk | eapply ld_h_ok; alk
  | eapply st_par_al; alk | eapply st_left_al; alk | eapply st_right_al; alk | eapply st_h_al; alk ].

Section Swap2.
Context {A : Type}.
Notation tree := (atree A).
Implicit Types (h : gmap nat (node A)) (t l r : tree) (x : A).

Lemma finish_swap h f rt z (par : option nat) a b (na nb : node A) :
  h !! b = Some nb -> h !! a = Some na -> n_par nb = par -> n_par na <> None ->
  (p <- ld_par (Some b) ;; when (is_null p) (update_root (Some b)) ;;;
   p <- ld_par (Some a) ;; when (is_null p) (update_root (Some a)) ;;;
   ret (Some b, Some a)) (TSt h f rt z) =
  Ok ((Some b, Some a), TSt h f (match par with None => Some b | Some _ => rt end) z).
Proof.
  intros Hb Ha Hp Hna. erewrite bind_ok by aacc. rewrite Hp. destruct par as [p|]; cbn [is_null when].
  - rewrite bind_ret. erewrite bind_ok by aacc. destruct (n_par na); [|congruence]. reflexivity.
  - unfold update_root. rewrite bind_assoc. erewrite bind_ok by reflexivity. cbn [is_null negb when t_heap t_al t_size].
    assert (alter (sp None) b h = h) as E.
    { rewrite <- (alter_ins (sp None) _ _ _ Hb). apply insert_id. rewrite Hb. unfold sp. rewrite <- Hp. destruct nb; reflexivity. }
    rewrite (bind_ok _ _ _ _ _ (st_par_al _ _ _ _ _ _ _ Hb)). rewrite E.
    erewrite bind_ok by aacc. destruct (n_par na); [|congruence]. reflexivity.
Qed.

Lemma swap_ok h f rt z par l a ha x r b y :
  nd (Br l a ha x r) -> linked h par (Br l a ha x r) -> minA r = Some (b, y) ->
  (forall p, par = Some p -> is_Some (h !! p) /\ cnt p (Br l a ha x r) = 0%nat) ->
  exists h', avl_swap_node (Some a) (Some b) (TSt h f rt z) =
      Ok ((Some b, Some a), TSt h' f (match par with None => Some b | Some _ => rt end) z) /\
    linked h' par (Br l b ha y (setmin r a x)) /\
    (forall k, cnt k (Br l a ha x r) = 0%nat -> h' !! k = fixp h par a b !! k).
Proof.
  intros Hn H Hm Hp. destruct (min_zip r) as (C & b3 & hb & y3 & br & Er & HC & Hm' & Hs); [intros ->; discriminate|].
  rewrite Hm in Hm'. injection Hm' as <- <-. rewrite Hs. clear Hs.
  pose proof H as (Ha & Hl & Hr). rewrite Er in Hr. apply linked_plug in Hr as [HrC Hrb].
  cbn [rootp linked] in HrC, Hrb. destruct Hrb as (Hb & _ & Hbr).
  assert (forall k, cnt k (Br l a ha x r) = cnt k l + one k a + (cntC k C + one k b + cnt k br))%nat as Hcnt.
  { intros k. cbn [cnt]. rewrite Er, cnt_plug. cbn [cnt]. lia. }
  assert (forall k, cnt k l + one k a + (cntC k C + one k b + cnt k br) <= 1)%nat as Hc.
  { intros k. rewrite <- Hcnt. apply Hn. }
  pose proof (Hc a) as Hca. pose proof (Hc b) as Hcb. rewrite one_eq in Hca, Hcb.
  assert (a <> b) as Hab by (intros ->; rewrite one_eq in Hca; lia).
  assert (par <> Some a) as Hpa. { intros E. destruct (Hp _ E) as [_ E0]. rewrite Hcnt, one_eq in E0. lia. }
  assert (par <> Some b) as Hpb. { intros E. destruct (Hp _ E) as [_ E0]. rewrite Hcnt, one_eq in E0. lia. }
  assert (forall k, rootp l = Some k -> is_Some (h !! k) /\ (0 < cnt k l)%nat) as Hlk.
  { intros k E. apply rootp_cnt in E. split; [|exact E]. exact (linked_in _ _ _ _ Hl E). }
  assert (forall k, rootp br = Some k -> is_Some (h !! k) /\ (0 < cnt k br)%nat) as Hbrk.
  { intros k E. apply rootp_cnt in E. split; [|exact E]. exact (linked_in _ _ _ _ Hbr E). }
  assert (nd l) as Hnl by (intros k; specialize (Hc k); lia).
  assert (nd br) as Hnbr by (intros k; specialize (Hc k); lia).
  unfold avl_swap_node. erewrite bind_ok by aacc. cbn [n_par]. rewrite (ptr_eqb_ne par (Some b)) by exact Hpb. cbn zeta.
  erewrite bind_ok by aacc. erewrite bind_ok by aacc. erewrite bind_ok by aacc.
  erewrite bind_ok by aacc. erewrite bind_ok by aacc. erewrite bind_ok by aacc. cbn [n_par n_left n_right].
  destruct C as [|F0 C0].
  - (* the right child itself *)
    cbn [hpar plug cntC] in *. subst r. cbn [rootp]. rewrite ptr_eqb_refl. rewrite ?bind_assoc.
    erewrite bind_ok by aacc. rewrite ?bind_assoc. erewrite bind_ok by aacc. cbn [n_right]. rewrite ptr_eqb_refl.
    rewrite ?bind_assoc. erewrite bind_ok by aacc. rewrite ?bind_assoc. erewrite bind_ok by aacc. rewrite ?bind_assoc.
    erewrite bind_ok.
    2:{ apply when_st_par_al. intros k E. destruct (Hlk k E) as [Hk1 Hk2].
        rewrite !lookup_alter_ne by (intros <-; lia). exact Hk1. }
    rewrite ?bind_assoc. erewrite bind_ok by aacc. rewrite ?bind_assoc. erewrite bind_ok by aacc. rewrite ?bind_assoc. erewrite bind_ok by aacc.
    rewrite ?bind_assoc.
    assert (Hpk : forall p, par = Some p -> is_Some (h !! p) /\ p <> a /\ p <> b /\ cnt p l = 0%nat /\ cnt p br = 0%nat).
    { intros p E. destruct (Hp p E) as [Hp1 Hp2]. rewrite Hcnt in Hp2. split_and!; [exact Hp1|congruence|congruence|lia|lia]. }
    erewrite bind_ok.
    2:{ apply fix_left_ok. intros p E. destruct (Hpk p E) as (Hp1 & Hp2 & Hp3 & Hp4 & _).
        rewrite !lookup_alter_ne by congruence. rewrite sp_ne by exact Hp4. rewrite !lookup_alter_ne by congruence. exact Hp1. }
    rewrite ?bind_assoc. erewrite bind_ok.
    2:{ apply fix_right_ok. intros p E. destruct (Hpk p E) as (Hp1 & Hp2 & Hp3 & Hp4 & _). apply onp_some.
        rewrite !lookup_alter_ne by congruence. rewrite sp_ne by exact Hp4. rewrite !lookup_alter_ne by congruence. exact Hp1. }
    rewrite fix_both. rewrite ?bind_assoc. erewrite bind_ok.
    2:{ apply when_st_par_al. intros k E. destruct (Hbrk k E) as [Hk1 Hk2]. pose proof (Hc k) as Hck.
        rewrite fp_ne by (intros E2; destruct (Hpk _ E2) as (_ & _ & _ & _ & E3); lia).
        rewrite !lookup_alter_ne by (intros <-; lia). rewrite sp_ne by lia. rewrite !lookup_alter_ne by (intros <-; lia). exact Hk1. }
    cbn [is_null negb when]. rewrite bind_ret.
    erewrite bind_ok by aacc. erewrite bind_ok by aacc. erewrite bind_ok by aacc. erewrite bind_ok by aacc.
    cbn [n_h sh sp sl sr].
    erewrite finish_swap; [| alk | alk | reflexivity | discriminate].
    eexists. split; [reflexivity|]. split.
    + cbn [linked rootp]. split_and!; try exact I.
      * eapply la_cv; [alk|reflexivity].
      * do 2 (apply linked_alter_ne; [lia|]). apply linked_sp_ne; [intros k Hk; specialize (Hc k); lia|].
        apply linked_fp_ne; [intros p E; apply Hpk, E|]. do 3 (apply linked_alter_ne; [lia|]).
        eapply linked_reparent; [exact Hnl|]. do 3 (apply linked_alter_ne; [lia|]). exact Hl.
      * eapply la_cv; [alk|reflexivity].
      * do 2 (apply linked_alter_ne; [lia|]). eapply linked_reparent; [exact Hnbr|].
        apply linked_fp_ne; [intros p E; apply Hpk, E|]. do 3 (apply linked_alter_ne; [lia|]).
        apply linked_sp_ne; [intros k Hk; specialize (Hc k); lia|]. do 3 (apply linked_alter_ne; [lia|]). exact Hbr.
    + intros k Hk. rewrite Hcnt in Hk.
      assert (k <> a) by (intros ->; rewrite one_eq in Hk; lia). assert (k <> b) by (intros ->; rewrite one_eq in Hk; lia).
      rewrite !lookup_alter_ne by congruence. rewrite sp_ne by lia.
      destruct (decide (par = Some k)) as [->|Hpk'].
      * cbn [fixp]. rewrite !lookup_alter. rewrite !lookup_alter_ne by congruence. rewrite sp_ne by lia.
        rewrite !lookup_alter_ne by congruence. reflexivity.
      * rewrite !fp_ne by exact Hpk'. rewrite !lookup_alter_ne by congruence. rewrite sp_ne by lia.
        rewrite !lookup_alter_ne by congruence. reflexivity.
  - (* further down *)
    assert (exists q hq w qr, F0 = FL q hq w qr) as (q & hq & w & qr & ->).
    { inversion HC as [|? ? HF _]; subst. destruct F0; [eauto|contradiction]. }
    clear HC. cbn [hpar fa] in *.
    destruct (exists_last (l := FL q hq w qr :: C0) ltac:(discriminate)) as (C1 & Ft & EC).
    set (c := fa Ft).
    assert (rootp r = Some c) as Erc by (rewrite Er, rootp_plug, EC, last_snoc; reflexivity).
    assert (0 < cntC q (FL q hq w qr :: C0))%nat as Hcq by (cbn [cntC cntF]; rewrite one_eq; lia).
    assert (0 < cntC c (FL q hq w qr :: C0))%nat as Hcc.
    { rewrite EC, cntC_app. cbn [cntC]. pose proof (fa_cnt Ft). unfold c. lia. }
    assert (q <> a) as Hqa by (intros ->; lia). assert (q <> b) as Hqb by (intros ->; lia).
    assert (c <> a) as Hca' by (intros E; rewrite E in *; lia). assert (c <> b) as Hcb' by (intros E; rewrite E in *; lia).
    pose proof (Hc q) as Hccq. pose proof (Hc c) as Hccc.
    assert (Hpk : forall p, par = Some p -> is_Some (h !! p) /\ p <> a /\ p <> b /\ cnt p l = 0%nat /\ cnt p br = 0%nat /\ cntC p (FL q hq w qr :: C0) = 0%nat /\ p <> q /\ p <> c).
    { intros p E. destruct (Hp p E) as [Hp1 Hp2]. rewrite Hcnt in Hp2.
      split_and!; [exact Hp1|congruence|congruence|lia|lia|lia|intros ->; lia|intros ->; lia]. }
    assert (par <> Some q) as Hpq by (intros E; apply Hpk in E; tauto).
    assert (par <> Some c) as Hpc by (intros E; apply Hpk in E; tauto).
    pose proof HrC as [[Hq Hqr] HC0]. cbn [flinked fa] in Hq, Hqr, HC0.
    assert (rootp qr <> Some b) as Hqrb.
    { intros E. apply rootp_cnt in E. cbn [cntC cntF] in Hcb. lia. }
    assert (is_Some (h !! c)) as Hcs.
    { apply (linked_in h (Some a) r); [apply H|]. apply rootp_cnt. exact Erc. }
    rewrite (ptr_eqb_ne (Some q) (Some a)) by congruence. rewrite ?bind_assoc.
    erewrite bind_ok. 2:{ apply fix_left_ok. intros p E. apply Hpk, E. }
    rewrite ?bind_assoc. erewrite bind_ok. 2:{ apply fix_right_ok. intros p E. apply onp_some. apply Hpk, E. }
    rewrite fix_both. rewrite ?bind_assoc. erewrite bind_ok by aacc. rewrite ?bind_assoc.
    set (h1 := alter (sp par) b (fixp h par a b)).
    assert (h1 !! q = Some (Nd (hpar (Some a) C0) (Some b) (rootp qr) hq w)) as Hq1 by (unfold h1; alk).
    erewrite bind_ok. 2:{ apply fix_left_ok. intros p [= <-]. rewrite Hq1. eauto. }
    rewrite ?bind_assoc.
    erewrite bind_ok. 2:{ apply fix_right_ok. intros p [= <-]. apply onp_some. rewrite Hq1. eauto. }
    assert (onp (fxr b a) (onp (fxl b a) h1 (Some q)) (Some q) = alter (sl (Some a)) q h1) as ->.
    { cbn [onp]. apply map_eq. intros j. destruct (decide (j = q)) as [->|Hj].
      - rewrite !lookup_alter, Hq1. cbn. unfold fxr, fxl, sl, swapc. cbn.
        rewrite ptr_eqb_refl, (ptr_eqb_ne (rootp qr) (Some b)) by exact Hqrb. reflexivity.
      - rewrite !lookup_alter_ne by congruence. reflexivity. }
    unfold h1. clear Hq1 h1. rewrite ?bind_assoc. erewrite bind_ok by aacc. rewrite ?bind_assoc.
    assert (forall k, (0 < cnt k l)%nat -> par <> Some k /\ k <> a /\ k <> b /\ k <> q /\ k <> c) as Hlne.
    { intros k Hk. pose proof (Hc k) as Hck. split_and!; try (intros ->; rewrite ?one_eq in *; lia). intros E; apply Hpk in E. lia. }
    assert (forall k, (0 < cnt k br)%nat -> par <> Some k /\ k <> a /\ k <> b /\ k <> q /\ k <> c) as Hbrne.
    { intros k Hk. pose proof (Hc k) as Hck. split_and!; try (intros ->; rewrite ?one_eq in *; lia). intros E; apply Hpk in E. lia. }
    erewrite bind_ok.
    2:{ apply when_st_par_al. intros k E. destruct (Hlk k E) as [Hk1 Hk2]. destruct (Hlne k Hk2) as (Hn1 & Hn2 & Hn3 & Hn4 & _).
        rewrite !lookup_alter_ne by congruence. rewrite fp_ne by exact Hn1. exact Hk1. }
    rewrite ?bind_assoc. rewrite Erc. erewrite bind_ok.
    2:{ apply when_st_par_al. intros k [= <-]. rewrite sp_ne by lia. do 3 apply alter_some. rewrite fp_ne by exact Hpc. exact Hcs. }
    cbn [setparp]. rewrite ?bind_assoc. erewrite bind_ok by aacc. rewrite ?bind_assoc. erewrite bind_ok by aacc.
    cbn [is_null negb when]. rewrite ?bind_assoc, ?bind_ret. rewrite ?bind_assoc. erewrite bind_ok.
    2:{ apply when_st_par_al. intros k E. destruct (Hbrk k E) as [Hk1 Hk2]. destruct (Hbrne k Hk2) as (Hn1 & Hn2 & Hn3 & Hn4 & Hn5).
        rewrite !lookup_alter_ne by congruence. rewrite sp_ne by (specialize (Hc k); lia).
        rewrite !lookup_alter_ne by congruence. rewrite fp_ne by exact Hn1. exact Hk1. }
    rewrite ?bind_assoc. erewrite bind_ok by aacc. rewrite ?bind_assoc. erewrite bind_ok by aacc.
    erewrite bind_ok by aacc. erewrite bind_ok by aacc. erewrite bind_ok by aacc. erewrite bind_ok by aacc.
    cbn [n_h sh sp sl sr].
    erewrite finish_swap; [| alk | alk | reflexivity | discriminate].
    eexists. split; [reflexivity|]. split.
    + change (linked ?hh par (Br l b ha y ?rr)) with (hh !! b = Some (Nd par (rootp l) (rootp rr) ha y) /\ linked hh (Some b) l /\ linked hh (Some b) rr).
      split_and!.
      * eapply la_cv; [alk|]. unfold sh, sr, sl, sp. cbn [n_par n_left n_right n_h n_val]. f_equal. rewrite rootp_plug, EC, last_snoc. reflexivity.
      * do 4 (apply linked_alter_ne; [lia|]). apply linked_sp_ne; [intros k Hk; specialize (Hc k); lia|].
        do 3 (apply linked_alter_ne; [lia|]).
        eapply linked_reparent; [exact Hnl|]. do 3 (apply linked_alter_ne; [lia|]).
        apply linked_fp_ne; [intros p E; apply Hpk, E|]. exact Hl.
      * apply linked_plug. split.
        -- cbn [rootp]. do 4 (apply linkedC_alter_ne; [lia|]). apply linkedC_sp_ne; [intros k Hk; specialize (Hc k); lia|].
           do 2 (apply linkedC_alter_ne; [lia|]). rewrite EC.
           apply (linkedC_top _ (Some a)). { intros k. rewrite <- EC. specialize (Hc k). lia. }
           rewrite <- EC. apply linkedC_sp_ne; [intros k Hk; specialize (Hc k); lia|].
           apply linkedC_alter_ne; [lia|]. eapply linkedC_hole; [lia|]. apply linkedC_alter_ne; [lia|].
           apply linkedC_fp_ne; [intros p E; apply Hpk, E|]. exact HrC.
        -- cbn [hpar fa linked rootp]. split_and!; [|exact I|].
           ++ eapply la_cv; [alk|]. reflexivity.
           ++ do 4 (apply linked_alter_ne; [lia|]). eapply linked_reparent; [exact Hnbr|].
              do 3 (apply linked_alter_ne; [lia|]).
              apply linked_sp_ne; [intros k Hk; specialize (Hc k); lia|]. do 3 (apply linked_alter_ne; [lia|]).
              apply linked_fp_ne; [intros p E; apply Hpk, E|]. exact Hbr.
    + intros k Hk. rewrite Hcnt in Hk.
      assert (k <> a) by (intros ->; rewrite one_eq in Hk; lia). assert (k <> b) by (intros ->; rewrite one_eq in Hk; lia).
      assert (k <> q) by (intros ->; lia). assert (k <> c) by (intros ->; lia).
      rewrite !lookup_alter_ne by congruence. rewrite sp_ne by lia. rewrite !lookup_alter_ne by congruence.
      rewrite sp_ne by lia. rewrite !lookup_alter_ne by congruence. reflexivity.
Qed.
End Swap2.
