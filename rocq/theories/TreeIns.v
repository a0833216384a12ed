(** AVLTree::push. *)
From Coq Require Import Sorted Permutation.
From Verif Require Import Base Alloc TreeModel TreeSpec TreeBase TreeSets TreeRot.
Open Scope Z_scope.

Section Ins.
Context {A : Type} (cmp : A -> A -> bool).
Notation tree := (atree A).
Implicit Types (h : gmap nat (node A)) (t l r : tree) (x : A).
Notation asc := (ascending cmp).

Definition root_lt t x : bool := match t with Lf => false | Br _ _ _ y _ => cmp y x end.
Definition root_gt t x : bool := match t with Lf => false | Br _ _ _ y _ => cmp x y end.
(** Insertion on trees. *)
Fixpoint insF (x : A) (f : nat) t : tree :=
  match t with
  | Lf => Br Lf f 1 x Lf
  | Br l a hh v r =>
      if cmp x v then
        let l' := insF x f l in
        updF (if hd l' - hd r =? 2 then rrotF (Br (if root_lt l' x then lrotF l' else l') a hh v r)
              else Br l' a hh v r)
      else
        let r' := insF x f r in
        updF (if hd r' - hd l =? 2 then lrotF (Br l a hh v (if root_gt r' x then rrotF r' else r'))
              else Br l a hh v r')
  end.

Lemma cnt_ins k x f t : cnt k (insF x f t) = (cnt k t + one k f)%nat.
Proof.
  induction t as [|l IHl a hh v r IHr]; cbn [insF cnt]; [lia|].
  destruct (cmp x v); cbn zeta; rewrite cnt_upd.
  - destruct (_ =? 2); [rewrite cnt_rrot; destruct (root_lt _ _)|]; cbn [cnt]; rewrite ?cnt_lrot; rewrite IHl; lia.
  - destruct (_ =? 2); [rewrite cnt_lrot; destruct (root_gt _ _)|]; cbn [cnt]; rewrite ?cnt_rrot; rewrite IHr; lia.
Qed.
Lemma ins_nonleaf x f t : insF x f t <> Lf.
Proof.
  intros E. pose proof (cnt_ins f x f t) as H. rewrite E, one_eq in H. cbn in H. lia.
Qed.

(** The address of the node with [x]. *)
Fixpoint atF x t : option nat :=
  match t with
  | Lf => None
  | Br l a _ v r => if cmp x v then atF x l else if cmp v x then atF x r else Some a
  end.

Lemma elems_ins_perm x f t : Permutation (elems (insF x f t)) (x :: elems t).
Proof.
  induction t as [|l IHl a hh v r IHr]; cbn [insF elems]; [reflexivity|].
  destruct (cmp x v); cbn zeta; rewrite elems_upd.
  - destruct (_ =? 2); [rewrite elems_rrot; destruct (root_lt _ _)|]; cbn [elems]; rewrite ?elems_lrot; rewrite IHl; reflexivity.
  - destruct (_ =? 2); [rewrite elems_lrot; destruct (root_gt _ _)|]; cbn [elems]; rewrite ?elems_rrot; rewrite IHr;
      (transitivity (elems l ++ x :: v :: elems r); [apply Permutation_app_head, perm_swap|symmetry; apply Permutation_middle]).
Qed.
(** Where the descent ends without an equivalent element. *)
Lemma at_none x l a hh v r : atF x (Br l a hh v r) = None ->
  (cmp x v = true /\ atF x l = None) \/ (cmp x v = false /\ cmp v x = true /\ atF x r = None).
Proof. cbn [atF]. destruct (cmp x v); [auto|]. destruct (cmp v x); [auto|discriminate]. Qed.

(** The tree grew, and on which side. *)
Definition grew x t t' : Prop :=
  depth t' = depth t + 1 /\
  match t' with
  | Lf => False
  | Br l' _ _ v' r' =>
      t = Lf \/ (cmp x v' = true /\ depth l' = depth r' + 1) \/ (cmp v' x = true /\ depth r' = depth l' + 1)
  end.
Lemma ins_avl_any x f t : (forall a b, cmp a b = true -> cmp b a = false) -> avl t -> atF x t = None ->
  avl (insF x f t) /\ (depth (insF x f t) = depth t \/ grew x t (insF x f t)).
Proof.
  intros Has. induction t as [|l IHl a hh v r IHr]; intros Ht Hx.
  { cbn [insF]. split; [apply avl_Br; cbn; unfold avl; cbn; split_and!; auto; lia|]. right. split; [reflexivity|]. left. reflexivity. }
  apply avl_Br in Ht as (Eh & Hb & Hl & Hr). cbn [insF].
  pose proof (hd_depth _ (proj1 Hl)) as El. pose proof (hd_depth _ (proj1 Hr)) as Er.
  destruct (at_none _ _ _ _ _ _ Hx) as [[E Hx1]|(E & E' & Hx1)].
  - rewrite E. specialize (IHl Hl Hx1) as (Hl' & Hd). cbn zeta.
    rewrite (hd_depth _ (proj1 Hl')), Er.
    destruct (Z.eqb_spec (depth (insF x f l) - depth r) 2) as [E2|E2].
    + destruct Hd as [Hd|[Hd Hg]]; [lia|]. destruct (insF x f l) as [|l1 b hb y r1] eqn:Ei; [contradiction|].
      destruct Hg as [->|Hg]; [cbn [depth] in *; pose proof (depth_nonneg r); lia|].
      apply avl_Br in Hl' as (Ehb & Hb1 & Hl1 & Hr1). cbn [root_lt].
      pose proof (hd_depth _ (proj1 Hl1)) as El1. pose proof (hd_depth _ (proj1 Hr1)) as Er1.
      destruct Hg as [(Hg1 & Hg2)|(Hg1 & Hg2)].
      * rewrite (Has _ _ Hg1). cbn [rrotF updF hd]. rewrite El1, Er1, Er. rewrite !avl_Br. cbn [depth] in *.
        split_and!; try assumption; try lia.
      * rewrite Hg1. destruct r1 as [|r1l c hc w r1r]; [cbn [depth] in *; pose proof (depth_nonneg l1); lia|].
        apply avl_Br in Hr1 as (Ehc & Hb2 & Hr1l & Hr1r).
        pose proof (hd_depth _ (proj1 Hr1l)) as Er1l. pose proof (hd_depth _ (proj1 Hr1r)) as Er1r.
        cbn [lrotF rrotF updF hd]. rewrite El1, Er1l, Er1r, Er. rewrite !avl_Br. cbn [depth] in *.
        split_and!; try assumption; try lia.
    + assert (depth l <= depth (insF x f l) <= depth l + 1) as Hr2 by (destruct Hd as [Hd|[Hd _]]; lia).
      cbn [updF]. rewrite (hd_depth _ (proj1 Hl')), Er. rewrite avl_Br. split_and!; try assumption; try lia.
      cbn [depth]. destruct (decide (Z.max (depth (insF x f l)) (depth r) = Z.max (depth l) (depth r))) as [Em|Em]; [left; lia|].
      right. split; [cbn [depth]; lia|]. right. left. split; [exact E|]. lia.
  - rewrite E. specialize (IHr Hr Hx1) as (Hr' & Hd).
    cbn zeta. rewrite (hd_depth _ (proj1 Hr')), El.
    destruct (Z.eqb_spec (depth (insF x f r) - depth l) 2) as [E2|E2].
    + destruct Hd as [Hd|[Hd Hg]]; [lia|]. destruct (insF x f r) as [|l1 b hb y r1] eqn:Ei; [contradiction|].
      destruct Hg as [->|Hg]; [cbn [depth] in *; pose proof (depth_nonneg l); lia|].
      apply avl_Br in Hr' as (Ehb & Hb1 & Hl1 & Hr1). cbn [root_gt].
      pose proof (hd_depth _ (proj1 Hl1)) as El1. pose proof (hd_depth _ (proj1 Hr1)) as Er1.
      destruct Hg as [(Hg1 & Hg2)|(Hg1 & Hg2)].
      * rewrite Hg1. destruct l1 as [|r1l c hc w r1r]; [cbn [depth] in *; pose proof (depth_nonneg r1); lia|].
        apply avl_Br in Hl1 as (Ehc & Hb2 & Hr1l & Hr1r).
        pose proof (hd_depth _ (proj1 Hr1l)) as Er1l. pose proof (hd_depth _ (proj1 Hr1r)) as Er1r.
        cbn [lrotF rrotF updF hd]. rewrite Er1, Er1l, Er1r, El. rewrite !avl_Br. cbn [depth] in *.
        split_and!; try assumption; try lia.
      * rewrite (Has _ _ Hg1). cbn [lrotF updF hd]. rewrite El1, Er1, El. rewrite !avl_Br. cbn [depth] in *.
        split_and!; try assumption; try lia.
    + assert (depth r <= depth (insF x f r) <= depth r + 1) as Hr2 by (destruct Hd as [Hd|[Hd _]]; lia).
      cbn [updF]. rewrite (hd_depth _ (proj1 Hr')), El. rewrite avl_Br. split_and!; try assumption; try lia.
      cbn [depth]. destruct (decide (Z.max (depth l) (depth (insF x f r)) = Z.max (depth l) (depth r))) as [Em|Em]; [left; lia|].
      right. split; [cbn [depth]; lia|]. right. right. split; [exact E'|]. lia.
Qed.

Lemma update_height_root h f rt z par t : t <> Lf -> nd t -> linked h par t ->
  exists h', avl_update_height (rootp t) (TSt h f rt z) = Ok (tt, TSt h' f rt z) /\
    linked h' par (updF t) /\ forall k, cnt k t = 0%nat -> h' !! k = h !! k.
Proof.
  destruct t as [|l a hh x r]; [congruence|]. intros _ Hn (Ha & Hl & Hr). cbn [rootp updF].
  rewrite (avl_update_height_ok _ _ _ _ _ _ _ _ _ _ _ Ha Hl Hr). eexists. split; [reflexivity|].
  pose proof (Hn a) as Hna. cbn [cnt] in *. rewrite one_eq in Hna. cbn [linked]. split_and!.
  - apply lookup_insert.
  - apply linked_insert; [lia|assumption].
  - apply linked_insert; [lia|assumption].
  - intros k Hk. apply lookup_insert_ne. intros ->. rewrite one_eq in Hk. lia.
Qed.

Lemma avl_insert_any t : (forall a b, cmp a b = true -> cmp b a = false) -> forall fuel h al f rt z par x,
  nd t -> linked h par t -> avl t -> al_pick al = Some f -> h !! f = None -> (nodes t < fuel)%nat ->
  match atF x t with
  | Some _ => avl_insert cmp fuel (rootp t) x par (TSt h al rt z) = Abort
  | None => exists h', avl_insert cmp fuel (rootp t) x par (TSt h al rt z) = Ok (rootp (insF x f t), TSt h' (al_got f al) rt z) /\
      linked h' par (insF x f t) /\ forall k, cnt k t = 0%nat -> k <> f -> h' !! k = h !! k
  end.
Proof.
  intros Has. induction t as [|l IHl a hh v r IHr]; intros fuel h al f rt z par x Hn H Ht Hpk Hfr Hfu.
  - destruct fuel as [|fuel]; [lia|]. cbn [atF insF rootp avl_insert is_null].
    eexists. split_and!.
    + rewrite bind_assoc. unfold new_node at 1. cbn [t_al]. erewrite bind_ok by (cbn [t_al]; rewrite Hpk; reflexivity). rewrite bind_assoc.
      erewrite bind_ok by (eapply st_par_ok; hlook). cbn [n_left n_right n_h n_val]. rewrite bind_ret.
      rewrite insert_insert.
      erewrite (bind_ok (avl_update_height _)).
      2:{ eapply (avl_update_height_ok _ _ _ _ _ None Lf f _ _ Lf); [apply lookup_insert|exact I|exact I]. }
      reflexivity.
    + rewrite insert_insert. cbn [linked rootp]. split_and!; auto. apply lookup_insert.
    + intros k _ Hk. cbn [t_al t_heap]. rewrite !lookup_insert_ne by congruence. reflexivity.
  - destruct fuel as [|fuel]; [cbn [nodes] in Hfu; lia|].
    cbn [nodes] in *.
    pose proof Ht as Ht0. apply avl_Br in Ht as (Eh & Hb & Hl & Hr).
    pose proof H as (Hla & Hll & Hlr). pose proof (nd_l _ _ _ _ _ Hn) as Hnl. pose proof (nd_r _ _ _ _ _ Hn) as Hnr.
    pose proof (Hn a) as Hna. cbn [cnt] in Hna. rewrite one_eq in Hna.
    assert (cnt f (Br l a hh v r) = 0%nat) as Hcf.
    { destruct (cnt f (Br l a hh v r)) eqn:E; [reflexivity|]. destruct (linked_in _ _ _ f H) as [nn Hf]; [lia|].
      congruence. }
    assert (f <> a) as Hfa. { intros ->. cbn [cnt] in Hcf. rewrite one_eq in Hcf. lia. }
    assert (forall t1, cnt f t1 = 0%nat -> nd t1 -> nd (insF x f t1)) as Hndi.
    { intros t1 Hc1 Hn1 k. rewrite cnt_ins. specialize (Hn1 k). destruct (decide (k = f)) as [->|Hk]; [rewrite one_eq; lia|rewrite one_ne by congruence; lia]. }
    cbn [avl_insert rootp is_null].
    cbn [atF]. destruct (cmp x v) eqn:E; [|destruct (cmp v x) eqn:E'].
    + specialize (IHl fuel h al f rt z (Some a) x Hnl Hll Hl Hpk Hfr ltac:(lia)).
      destruct (atF x l) as [y|] eqn:El.
      * rewrite bind_assoc. erewrite bind_ok by hacc. cbn [n_val]. rewrite E. rewrite bind_assoc.
        erewrite bind_ok by hacc. cbn [n_left]. rewrite bind_assoc. apply bind_abort. exact IHl.
      * destruct IHl as (h1 & E1 & H1 & Hf1). pose proof (ins_avl_any x f l Has Hl El) as [Havl' Hgr].
        assert (h1 !! a = Some (Nd par (rootp l) (rootp r) hh v)) as Ha1 by (rewrite Hf1 by (congruence || lia); exact Hla).
        assert (linked h1 (Some a) r) as Hr1.
        { eapply linked_same; [|exact Hlr]. intros k Hk. apply Hf1; [specialize (Hn k); cbn [cnt] in Hn; lia|].
          intros ->. cbn [cnt] in Hcf. lia. }
        set (l' := insF x f l) in *.
        assert (cnt a l' = 0%nat) as Hal'. { unfold l'. rewrite cnt_ins, one_ne by congruence. lia. }
        set (h2 := <[a := Nd par (rootp l') (rootp r) hh v]> h1).
        assert (linked h2 par (Br l' a hh v r)) as H2.
        { cbn [linked]. split_and!; [apply lookup_insert| |]; apply linked_insert; (assumption || lia). }
        assert (nd (Br l' a hh v r)) as Hn2.
        { intros k. cbn [cnt]. unfold l'. rewrite cnt_ins. specialize (Hn k). cbn [cnt] in Hn, Hcf.
          destruct (decide (k = f)) as [->|Hk]; [rewrite one_eq; lia|rewrite (one_ne k f) by congruence; lia]. }
        assert (forall k, cnt k (Br l a hh v r) = 0%nat -> k <> f -> h2 !! k = h !! k) as Hf2.
        { intros k Hk Hkf. cbn [cnt] in Hk. unfold h2. rewrite lookup_insert_ne by (intros ->; rewrite one_eq in Hk; lia).
          apply Hf1; [lia|exact Hkf]. }
        assert (exists h3 t3, t3 = (if hd l' - hd r =? 2 then rrotF (Br (if root_lt l' x then lrotF l' else l') a hh v r) else Br l' a hh v r) /\
           (l0 <- ld_left (Some a) ;; hl <- avl_h l0 ;; r0 <- ld_right (Some a) ;; hr <- avl_h r0 ;;
            if hl - hr =? 2 then
              l1 <- ld_left (Some a) ;; lv <- ld_val l1 ;;
              when (cmp lv x) (l1 <- ld_left (Some a) ;; l2 <- avl_left_rotate l1 ;; st_left (Some a) l2) ;;;
              avl_right_rotate (Some a)
            else ret (Some a)) (TSt h2 (al_got f al) rt z) = Ok (rootp t3, TSt h3 (al_got f al) rt z) /\ linked h3 par t3 /\
           (forall k, cnt k (Br l' a hh v r) = 0%nat -> h3 !! k = h2 !! k)) as (h3 & t3 & Et3 & E3 & H3 & Hf3).
        { pose proof H2 as (Ha2 & Hl2 & Hr2).
          hgo. rewrite (bind_ok _ _ _ _ _ (avl_h_ok _ _ _ _ _ _ Hl2)). hgo.
          rewrite (bind_ok _ _ _ _ _ (avl_h_ok _ _ _ _ _ _ Hr2)).
          destruct (hd l' - hd r =? 2) eqn:E2.
          - hgo. destruct l' as [|l1 b hb y r1] eqn:El'; [exfalso; eapply ins_nonleaf; eauto|].
            pose proof Hl2 as (Hb2 & _). cbn [rootp]. hgo.
            destruct (rotate_right_ok (root_lt (Br l1 b hb y r1) x) h2 (al_got f al) rt z par _ _ _ _ _ Hn2 H2) as (h3 & E3 & H3 & Hf3).
            + discriminate.
            + intros Hlt. exists l1, b, hb, y, r1. split; [reflexivity|]. intros ->. cbn [root_lt] in Hlt.
              destruct Hgr as [Hd|(Hd & Hg)].
              { apply Z.eqb_eq in E2. rewrite (hd_depth _ (proj1 Havl')), (hd_depth _ (proj1 Hr)) in E2. lia. }
              destruct Hg as [->|[(Hg1 & Hg2)|(Hg1 & Hg2)]].
              * apply Z.eqb_eq in E2. rewrite (hd_depth _ (proj1 Havl')), (hd_depth _ (proj1 Hr)) in E2. cbn [depth] in Hd, Hb, E2.
                pose proof (depth_nonneg r). pose proof (depth_nonneg l1). lia.
              * rewrite (Has _ _ Hg1) in Hlt. discriminate.
              * cbn [depth] in Hg2. pose proof (depth_nonneg l1). lia.
            + exists h3. eexists. split_and!; [reflexivity|exact E3|exact H3|exact Hf3].
          - exists h2, (Br l' a hh v r). split_and!; [reflexivity|reflexivity|exact H2|reflexivity]. }
        assert (nd t3) as Hn3.
        { intros k. subst t3. destruct (_ =? 2); [rewrite cnt_rrot; destruct (root_lt l' x)|]; cbn [cnt]; rewrite ?cnt_lrot; apply Hn2. }
        assert (forall k, cnt k t3 = cnt k (Br l' a hh v r)) as Hc3.
        { intros k. subst t3. destruct (_ =? 2); [rewrite cnt_rrot; destruct (root_lt l' x)|]; cbn [cnt]; rewrite ?cnt_lrot; reflexivity. }
        assert (t3 <> Lf) as Hnl3. { intros E0. specialize (Hc3 a). rewrite E0 in Hc3. cbn [cnt] in Hc3. rewrite one_eq in Hc3. lia. }
        destruct (update_height_root h3 (al_got f al) rt z par t3 Hnl3 Hn3 H3) as (h4 & E4 & H4 & Hf4).
        assert (insF x f (Br l a hh v r) = updF t3) as Einsf by (cbn [insF]; rewrite E; cbn zeta; rewrite Et3; reflexivity).
        exists h4. split_and!.
        -- rewrite bind_assoc. erewrite bind_ok by hacc. cbn [n_val]. rewrite E. rewrite bind_assoc.
           erewrite bind_ok by hacc. cbn [n_left]. rewrite bind_assoc. rewrite (bind_ok _ _ _ _ _ E1).
           rewrite bind_assoc. erewrite bind_ok by (eapply st_left_ok; exact Ha1). cbn [n_par n_right n_h n_val].
           fold h2. rewrite (bind_ok _ _ _ _ _ E3). rewrite (bind_ok _ _ _ _ _ E4). unfold ret. rewrite Einsf.
           destruct t3; reflexivity.
        -- rewrite Einsf. exact H4.
        -- intros k Hk Hkf. assert (cnt k (Br l' a hh v r) = 0%nat) as Hk'.
           { cbn [cnt] in *. unfold l'. rewrite cnt_ins, (one_ne k f) by congruence. lia. }
           rewrite Hf4 by (rewrite Hc3; exact Hk'). rewrite Hf3 by exact Hk'. apply Hf2; assumption.
    + specialize (IHr fuel h al f rt z (Some a) x Hnr Hlr Hr Hpk Hfr ltac:(lia)).
      destruct (atF x r) as [y|] eqn:El.
      * rewrite bind_assoc. erewrite bind_ok by hacc. cbn [n_val]. rewrite ?E, ?E', bind_assoc.
        erewrite bind_ok by hacc. cbn [n_right]. rewrite bind_assoc. apply bind_abort. exact IHr.
      * destruct IHr as (h1 & E1 & H1 & Hf1). pose proof (ins_avl_any x f r Has Hr El) as [Havl' Hgr].
        assert (h1 !! a = Some (Nd par (rootp l) (rootp r) hh v)) as Ha1 by (rewrite Hf1 by (congruence || lia); exact Hla).
        assert (linked h1 (Some a) l) as Hr1.
        { eapply linked_same; [|exact Hll]. intros k Hk. apply Hf1; [specialize (Hn k); cbn [cnt] in Hn; lia|].
          intros ->. cbn [cnt] in Hcf. lia. }
        set (r' := insF x f r) in *.
        assert (cnt a r' = 0%nat) as Hal'. { unfold r'. rewrite cnt_ins, one_ne by congruence. lia. }
        set (h2 := <[a := Nd par (rootp l) (rootp r') hh v]> h1).
        assert (linked h2 par (Br l a hh v r')) as H2.
        { cbn [linked]. split_and!; [apply lookup_insert| |]; apply linked_insert; (assumption || lia). }
        assert (nd (Br l a hh v r')) as Hn2.
        { intros k. cbn [cnt]. unfold r'. rewrite cnt_ins. specialize (Hn k). cbn [cnt] in Hn, Hcf.
          destruct (decide (k = f)) as [->|Hk]; [rewrite one_eq; lia|rewrite (one_ne k f) by congruence; lia]. }
        assert (forall k, cnt k (Br l a hh v r) = 0%nat -> k <> f -> h2 !! k = h !! k) as Hf2.
        { intros k Hk Hkf. cbn [cnt] in Hk. unfold h2. rewrite lookup_insert_ne by (intros ->; rewrite one_eq in Hk; lia).
          apply Hf1; [lia|exact Hkf]. }
        assert (exists h3 t3, t3 = (if hd r' - hd l =? 2 then lrotF (Br l a hh v (if root_gt r' x then rrotF r' else r')) else Br l a hh v r') /\
           (r0 <- ld_right (Some a) ;; hr <- avl_h r0 ;; l0 <- ld_left (Some a) ;; hl <- avl_h l0 ;;
            if hr - hl =? 2 then
              r1 <- ld_right (Some a) ;; rv <- ld_val r1 ;;
              when (cmp x rv) (r1 <- ld_right (Some a) ;; r2 <- avl_right_rotate r1 ;; st_right (Some a) r2) ;;;
              avl_left_rotate (Some a)
            else ret (Some a)) (TSt h2 (al_got f al) rt z) = Ok (rootp t3, TSt h3 (al_got f al) rt z) /\ linked h3 par t3 /\
           (forall k, cnt k (Br l a hh v r') = 0%nat -> h3 !! k = h2 !! k)) as (h3 & t3 & Et3 & E3 & H3 & Hf3).
        { pose proof H2 as (Ha2 & Hl2 & Hr2).
          hgo. rewrite (bind_ok _ _ _ _ _ (avl_h_ok _ _ _ _ _ _ Hr2)). hgo.
          rewrite (bind_ok _ _ _ _ _ (avl_h_ok _ _ _ _ _ _ Hl2)).
          destruct (hd r' - hd l =? 2) eqn:E2.
          - hgo. destruct r' as [|l1 b hb y r1] eqn:El'; [exfalso; eapply ins_nonleaf; eauto|].
            pose proof Hr2 as (Hb2 & _). cbn [rootp]. hgo.
            destruct (rotate_left_ok (root_gt (Br l1 b hb y r1) x) h2 (al_got f al) rt z par _ _ _ _ _ Hn2 H2) as (h3 & E3 & H3 & Hf3).
            + discriminate.
            + intros Hlt. exists l1, b, hb, y, r1. split; [reflexivity|]. intros ->. cbn [root_gt] in Hlt.
              destruct Hgr as [Hd|(Hd & Hg)].
              { apply Z.eqb_eq in E2. rewrite (hd_depth _ (proj1 Havl')), (hd_depth _ (proj1 Hl)) in E2. lia. }
              destruct Hg as [->|[(Hg1 & Hg2)|(Hg1 & Hg2)]].
              * apply Z.eqb_eq in E2. rewrite (hd_depth _ (proj1 Havl')), (hd_depth _ (proj1 Hl)) in E2. cbn [depth] in Hd, Hb, E2.
                pose proof (depth_nonneg l). pose proof (depth_nonneg r1). lia.
              * cbn [depth] in Hg2. pose proof (depth_nonneg r1). lia.
              * rewrite (Has _ _ Hg1) in Hlt. discriminate.
            + exists h3. eexists. split_and!; [reflexivity|exact E3|exact H3|exact Hf3].
          - exists h2, (Br l a hh v r'). split_and!; [reflexivity|reflexivity|exact H2|reflexivity]. }
        assert (nd t3) as Hn3.
        { intros k. subst t3. destruct (_ =? 2); [rewrite cnt_lrot; destruct (root_gt r' x)|]; cbn [cnt]; rewrite ?cnt_rrot; apply Hn2. }
        assert (forall k, cnt k t3 = cnt k (Br l a hh v r')) as Hc3.
        { intros k. subst t3. destruct (_ =? 2); [rewrite cnt_lrot; destruct (root_gt r' x)|]; cbn [cnt]; rewrite ?cnt_rrot; reflexivity. }
        assert (t3 <> Lf) as Hnl3. { intros E0. specialize (Hc3 a). rewrite E0 in Hc3. cbn [cnt] in Hc3. rewrite one_eq in Hc3. lia. }
        destruct (update_height_root h3 (al_got f al) rt z par t3 Hnl3 Hn3 H3) as (h4 & E4 & H4 & Hf4).
        assert (insF x f (Br l a hh v r) = updF t3) as Einsf by (cbn [insF]; rewrite E; cbn zeta; rewrite Et3; reflexivity).
        exists h4. split_and!.
        -- rewrite bind_assoc. erewrite bind_ok by hacc. cbn [n_val]. rewrite ?E, ?E', bind_assoc.
           erewrite bind_ok by hacc. cbn [n_right]. rewrite bind_assoc. rewrite (bind_ok _ _ _ _ _ E1).
           rewrite bind_assoc. erewrite bind_ok by (eapply st_right_ok; exact Ha1). cbn [n_par n_left n_h n_val].
           fold h2. rewrite (bind_ok _ _ _ _ _ E3). rewrite (bind_ok _ _ _ _ _ E4). unfold ret. rewrite Einsf.
           destruct t3; reflexivity.
        -- rewrite Einsf. exact H4.
        -- intros k Hk Hkf. assert (cnt k (Br l a hh v r') = 0%nat) as Hk'.
           { cbn [cnt] in *. unfold r'. rewrite cnt_ins, (one_ne k f) by congruence. lia. }
           rewrite Hf4 by (rewrite Hc3; exact Hk'). rewrite Hf3 by exact Hk'. apply Hf2; assumption.
    + rewrite bind_assoc. erewrite bind_ok by hacc. cbn [n_val]. rewrite E, E'. reflexivity.
Qed.
(** The allocator refuses. *)
Lemma avl_insert_refused t : forall fuel h al rt z par x,
  linked h par t -> (nodes t < fuel)%nat -> al_pick al = None -> avl_insert cmp fuel (rootp t) x par (TSt h al rt z) = Abort.
Proof.
  induction t as [|l IHl a hh v r IHr]; intros fuel h al rt z par x H Hfu Hpk.
  - destruct fuel as [|fuel]; [lia|]. cbn [rootp avl_insert is_null]. rewrite bind_assoc. apply bind_abort. unfold new_node. cbn [t_al].
    rewrite Hpk. reflexivity.
  - destruct fuel as [|fuel]; [lia|]. cbn [nodes] in Hfu. destruct H as (Hla & Hll & Hlr). cbn [avl_insert rootp is_null].
    rewrite bind_assoc. erewrite bind_ok by hacc. cbn [n_val].
    destruct (cmp x v); [|destruct (cmp v x); [|reflexivity]]; rewrite bind_assoc; erewrite bind_ok by hacc; cbn [n_left n_right];
      rewrite bind_assoc; apply bind_abort; [eapply IHl|eapply IHr]; (eassumption || lia).
Qed.

(** With an order. *)
Context (Hc : swo cmp).
Lemma atF_some x t : asc (elems t) -> match lookup_set cmp x (elems t) with None => atF x t = None | Some _ => exists b, atF x t = Some b end.
Proof.
  induction t as [|l IHl a hh v r IHr]; cbn [atF elems]; [reflexivity|].
  intros Ha. pose proof (proj1 (asc_mid cmp Hc _ _ _) Ha) as (Hal & Har & _ & _).
  destruct (c_cases cmp Hc x v) as [[E E']|[[E E']|E]].
  - rewrite E, (lookup_lt cmp Hc _ _ _ Ha _ E). exact (IHl Hal).
  - rewrite E, E', (lookup_gt cmp Hc _ _ _ Ha _ E'). exact (IHr Har).
  - rewrite (lookup_eq cmp Hc _ _ _ Ha _ E). destruct E as [-> ->]. eauto.
Qed.
Lemma elems_ins x f t : asc (elems t) -> lookup_set cmp x (elems t) = None ->
  elems (insF x f t) = add_set cmp x (elems t).
Proof.
  induction t as [|l IHl a hh v r IHr]; cbn [insF elems]; [reflexivity|].
  intros Ha Hx. pose proof (proj1 (asc_mid cmp Hc _ _ _) Ha) as (Hal & Har & _ & _).
  destruct (c_cases cmp Hc x v) as [[E E']|[[E E']|E]].
  - rewrite E. rewrite (lookup_lt cmp Hc _ _ _ Ha _ E) in Hx. rewrite (add_lt cmp _ _ _ _ E).
    cbn zeta. rewrite elems_upd.
    destruct (_ =? 2); [rewrite elems_rrot; destruct (root_lt _ _)|]; cbn [elems]; rewrite ?elems_lrot; rewrite IHl by auto; reflexivity.
  - rewrite E. rewrite (lookup_gt cmp Hc _ _ _ Ha _ E') in Hx. rewrite (add_gt cmp Hc _ _ _ Ha _ E').
    cbn zeta. rewrite elems_upd.
    destruct (_ =? 2); [rewrite elems_lrot; destruct (root_gt _ _)|]; cbn [elems]; rewrite ?elems_rrot; rewrite IHr by auto; reflexivity.
  - rewrite (lookup_eq cmp Hc _ _ _ Ha _ E) in Hx. discriminate.
Qed.
Lemma ins_avl x f t : avl t -> asc (elems t) -> lookup_set cmp x (elems t) = None ->
  avl (insF x f t) /\ (depth (insF x f t) = depth t \/ grew x t (insF x f t)).
Proof.
  intros Ht Ha Hx. apply ins_avl_any; [exact (c_asym cmp Hc)|exact Ht|]. pose proof (atF_some x t Ha) as P. rewrite Hx in P. exact P.
Qed.
Lemma avl_insert_ok t : forall fuel h al f rt z par x,
  nd t -> linked h par t -> avl t -> asc (elems t) -> al_pick al = Some f -> h !! f = None -> (nodes t < fuel)%nat ->
  match lookup_set cmp x (elems t) with
  | Some _ => avl_insert cmp fuel (rootp t) x par (TSt h al rt z) = Abort
  | None => exists h', avl_insert cmp fuel (rootp t) x par (TSt h al rt z) = Ok (rootp (insF x f t), TSt h' (al_got f al) rt z) /\
      linked h' par (insF x f t) /\ forall k, cnt k t = 0%nat -> k <> f -> h' !! k = h !! k
  end.
Proof.
  intros fuel h al f rt z par x Hn H Ht Ha Hpk Hfr Hfu.
  pose proof (avl_insert_any t (c_asym cmp Hc) fuel h al f rt z par x Hn H Ht Hpk Hfr Hfu) as P.
  pose proof (atF_some x t Ha) as Q. destruct (lookup_set cmp x (elems t)); [destruct Q as [b Q]; rewrite Q in P; exact P|rewrite Q in P; exact P].
Qed.
End Ins.
