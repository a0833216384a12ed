(** The balancing steps of AVLTree on stored trees. *)
From Coq Require Import Sorted.
From Verif Require Import Base TreeModel TreeSpec TreeBase.
Open Scope Z_scope.

Section Rot.
Context {A : Type}.
Notation tree := (atree A).
Implicit Types (h : gmap nat (node A)) (t l r : tree).

(** Stored height of a tree, and the tree-level effect of the operations. *)
Definition hd t : Z := match t with Lf => 0 | Br _ _ h _ _ => h end.
Definition lrotF t : tree :=
  match t with
  | Br l a _ x (Br rl b _ y rr) =>
      let k := Z.max (hd l) (hd rl) + 1 in Br (Br l a k x rl) b (Z.max k k + 1) y rr
  | _ => t
  end.
Definition rrotF t : tree :=
  match t with
  | Br (Br ll b _ y lr) a _ x r =>
      let k := Z.max (hd lr) (hd r) + 1 in Br ll b (Z.max (hd ll) k + 1) y (Br lr a k x r)
  | _ => t
  end.
Definition updF t : tree := match t with Lf => Lf | Br l a _ x r => Br l a (Z.max (hd l) (hd r) + 1) x r end.
Definition bfF t : Z := match t with Lf => 0 | Br l _ _ _ r => hd l - hd r end.
Definition balF t : tree :=
  match t with
  | Lf => Lf
  | Br l a hh x r =>
      if 1 <? bfF t then rrotF (Br (if bfF l <? 0 then lrotF l else l) a hh x r)
      else if bfF t <? -1 then lrotF (Br l a hh x (if 0 <? bfF r then rrotF r else r))
      else t
  end.

Lemma cnt_lrot k t : cnt k (lrotF t) = cnt k t.
Proof. destruct t as [|l a ha x [|rl b hb y rr]]; cbn; lia. Qed.
Lemma cnt_rrot k t : cnt k (rrotF t) = cnt k t.
Proof. destruct t as [|[|ll b hb y lr] a ha x r]; cbn; lia. Qed.
Lemma cnt_upd k t : cnt k (updF t) = cnt k t.
Proof. destruct t; reflexivity. Qed.
Lemma cnt_bal k t : cnt k (balF t) = cnt k t.
Proof.
  destruct t as [|l a ha x r]; [reflexivity|]. unfold balF.
  destruct (1 <? _); [rewrite cnt_rrot; destruct (_ <? 0); cbn [cnt]; rewrite ?cnt_lrot; reflexivity|].
  destruct (_ <? -1); [rewrite cnt_lrot; destruct (0 <? _); cbn [cnt]; rewrite ?cnt_rrot; reflexivity|reflexivity].
Qed.
Lemma elems_lrot t : elems (lrotF t) = elems t.
Proof. destruct t as [|l a ha x [|rl b hb y rr]]; cbn; rewrite <- ?app_assoc; reflexivity. Qed.
Lemma elems_rrot t : elems (rrotF t) = elems t.
Proof. destruct t as [|[|ll b hb y lr] a ha x r]; cbn; rewrite <- ?app_assoc; reflexivity. Qed.
Lemma elems_upd t : elems (updF t) = elems t.
Proof. destruct t; reflexivity. Qed.
Lemma elems_bal t : elems (balF t) = elems t.
Proof.
  destruct t as [|l a ha x r]; [reflexivity|]. unfold balF.
  destruct (1 <? _); [rewrite elems_rrot; destruct (_ <? 0); cbn [elems]; rewrite ?elems_lrot; reflexivity|].
  destruct (_ <? -1); [rewrite elems_lrot; destruct (0 <? _); cbn [elems]; rewrite ?elems_rrot; reflexivity|reflexivity].
Qed.

(** Reading heights. *)
Lemma avl_h_ok h f rt z par t : linked h par t -> avl_h (rootp t) (TSt h f rt z) = Ok (hd t, TSt h f rt z).
Proof.
  destruct t as [|l a hh x r]; [reflexivity|]. intros (Ha & _). cbn [rootp hd]. unfold avl_h. cbn [is_null].
  rewrite (ld_h_ok _ _ _ _ _ _ Ha). reflexivity.
Qed.
Lemma avl_update_height_ok h f rt z par q l a hh x r :
  h !! a = Some (Nd par (rootp l) (rootp r) hh x) -> linked h q l -> linked h q r ->
  avl_update_height (Some a) (TSt h f rt z) =
  Ok (tt, TSt (<[a := Nd par (rootp l) (rootp r) (Z.max (hd l) (hd r) + 1) x]> h) f rt z).
Proof.
  intros Ha Hl Hr. unfold avl_update_height. hgo.
  rewrite (bind_ok _ _ _ _ _ (avl_h_ok _ _ _ _ _ _ Hl)). hgo.
  rewrite (bind_ok _ _ _ _ _ (avl_h_ok _ _ _ _ _ _ Hr)).
  rewrite (st_h_ok _ _ _ _ _ _ _ Ha). reflexivity.
Qed.
Lemma avl_bf_ok h f rt z par t : linked h par t -> avl_bf (rootp t) (TSt h f rt z) = Ok (bfF t, TSt h f rt z).
Proof.
  destruct t as [|l a hh x r]; [reflexivity|]. intros (Ha & Hl & Hr). cbn [rootp bfF]. unfold avl_bf. hgo.
  rewrite (bind_ok _ _ _ _ _ (avl_h_ok _ _ _ _ _ _ Hl)). hgo.
  rewrite (bind_ok _ _ _ _ _ (avl_h_ok _ _ _ _ _ _ Hr)). reflexivity.
Qed.

Lemma left_rotate_ok h f rt z par l a ha x rl b hb y rr :
  nd (Br l a ha x (Br rl b hb y rr)) -> linked h par (Br l a ha x (Br rl b hb y rr)) ->
  exists h', left_rotate (Some a) (TSt h f rt z) = Ok (Some b, TSt h' f rt z) /\
    linked h' par (Br (Br l a ha x rl) b hb y rr) /\
    forall k, cnt k (Br l a ha x (Br rl b hb y rr)) = 0%nat -> h' !! k = h !! k.
Proof.
  intros Hn (Ha & Hl & Hb & Hrl & Hrr). cbn [rootp] in *.
  assert (forall k, cnt k l + one k a + (cnt k rl + one k b + cnt k rr) <= 1)%nat as Hc by exact Hn.
  pose proof (Hc a) as Hca. pose proof (Hc b) as Hcb. rewrite one_eq in Hca, Hcb.
  assert (a <> b) as Hab by (intros ->; rewrite one_eq in Hca; lia).
  unfold left_rotate. hgo.
  destruct rl as [|l1 c hc v r1].
  - cbn [rootp is_null negb when] in *. hgo. eexists. split; [reflexivity|]. cbn [linked rootp cnt] in *. split.
    + split_and!; try exact I; try hlook.
      * repeat apply linked_insert; (assumption || lia).
      * repeat apply linked_insert; (assumption || lia).
    + intros k Hk. rewrite !lookup_insert_ne by (intros ->; rewrite ?one_eq in *; lia). reflexivity.
  - cbn [cnt] in *. pose proof (Hc c) as Hcc. rewrite one_eq in Hcc.
    assert (c <> a) as Hac by (intros ->; rewrite one_eq in *; lia).
    assert (c <> b) as Hbc by (intros ->; rewrite one_eq in *; lia).
    destruct Hrl as (Hcl & Hl1 & Hr1).
    cbn [rootp is_null negb when] in *. hgo. eexists. split; [reflexivity|]. cbn [linked rootp cnt] in *. split.
    + split_and!; try exact I; try hlook; repeat apply linked_insert; (assumption || lia).
    + intros k Hk. rewrite !lookup_insert_ne by (intros ->; rewrite ?one_eq in *; lia). reflexivity.
Qed.

Lemma right_rotate_ok h f rt z par ll b hb y lr a ha x r :
  nd (Br (Br ll b hb y lr) a ha x r) -> linked h par (Br (Br ll b hb y lr) a ha x r) ->
  exists h', right_rotate (Some a) (TSt h f rt z) = Ok (Some b, TSt h' f rt z) /\
    linked h' par (Br ll b hb y (Br lr a ha x r)) /\
    forall k, cnt k (Br (Br ll b hb y lr) a ha x r) = 0%nat -> h' !! k = h !! k.
Proof.
  intros Hn (Ha & (Hb & Hll & Hlr) & Hr). cbn [rootp] in *.
  assert (forall k, (cnt k ll + one k b + cnt k lr) + one k a + cnt k r <= 1)%nat as Hc by exact Hn.
  pose proof (Hc a) as Hca. pose proof (Hc b) as Hcb. rewrite one_eq in Hca, Hcb.
  assert (a <> b) as Hab by (intros ->; rewrite one_eq in Hca; lia).
  unfold right_rotate. hgo.
  destruct lr as [|l1 c hc v r1].
  - cbn [rootp is_null negb when] in *. hgo. eexists. split; [reflexivity|]. cbn [linked rootp cnt] in *. split.
    + split_and!; try exact I; try hlook; repeat apply linked_insert; (assumption || lia).
    + intros k Hk. rewrite !lookup_insert_ne by (intros ->; rewrite ?one_eq in *; lia). reflexivity.
  - cbn [cnt] in *. pose proof (Hc c) as Hcc. rewrite one_eq in Hcc.
    assert (c <> a) as Hac by (intros ->; rewrite one_eq in *; lia).
    assert (c <> b) as Hbc by (intros ->; rewrite one_eq in *; lia).
    destruct Hlr as (Hcl & Hl1 & Hr1).
    cbn [rootp is_null negb when] in *. hgo. eexists. split; [reflexivity|]. cbn [linked rootp cnt] in *. split.
    + split_and!; try exact I; try hlook; repeat apply linked_insert; (assumption || lia).
    + intros k Hk. rewrite !lookup_insert_ne by (intros ->; rewrite ?one_eq in *; lia). reflexivity.
Qed.

Lemma avl_left_rotate_ok h f rt z par l a ha x rl b hb y rr :
  nd (Br l a ha x (Br rl b hb y rr)) -> linked h par (Br l a ha x (Br rl b hb y rr)) ->
  exists h', avl_left_rotate (Some a) (TSt h f rt z) = Ok (Some b, TSt h' f rt z) /\
    linked h' par (lrotF (Br l a ha x (Br rl b hb y rr))) /\
    forall k, cnt k (Br l a ha x (Br rl b hb y rr)) = 0%nat -> h' !! k = h !! k.
Proof.
  intros Hn H. destruct (left_rotate_ok h f rt z par l a ha x rl b hb y rr Hn H) as (h1 & E & H1 & Hf).
  unfold avl_left_rotate. rewrite (bind_ok _ _ _ _ _ E).
  assert (forall k, cnt k l + one k a + (cnt k rl + one k b + cnt k rr) <= 1)%nat as Hc by exact Hn.
  pose proof (Hc a) as Hca. pose proof (Hc b) as Hcb. rewrite one_eq in Hca, Hcb.
  assert (a <> b) as Hab by (intros ->; rewrite one_eq in Hca; lia).
  destruct H1 as (Hb & (Ha & Hl & Hrl) & Hrr). cbn [rootp] in *. hgo.
  rewrite (bind_ok _ _ _ _ _ (avl_h_ok _ _ _ _ _ _ Hl)). hgo.
  rewrite (bind_ok _ _ _ _ _ (avl_h_ok _ _ _ _ _ _ Hrl)). hgo.

  hgo. eexists. split; [reflexivity|]. cbn [lrotF linked rootp cnt] in *. split.
  - split_and!; try hlook; repeat apply linked_insert; (assumption || lia).
  - intros k Hk. rewrite !lookup_insert_ne by (intros ->; rewrite ?one_eq in *; lia). apply Hf. exact Hk.
Qed.

Lemma avl_right_rotate_ok h f rt z par ll b hb y lr a ha x r :
  nd (Br (Br ll b hb y lr) a ha x r) -> linked h par (Br (Br ll b hb y lr) a ha x r) ->
  exists h', avl_right_rotate (Some a) (TSt h f rt z) = Ok (Some b, TSt h' f rt z) /\
    linked h' par (rrotF (Br (Br ll b hb y lr) a ha x r)) /\
    forall k, cnt k (Br (Br ll b hb y lr) a ha x r) = 0%nat -> h' !! k = h !! k.
Proof.
  intros Hn H. destruct (right_rotate_ok h f rt z par ll b hb y lr a ha x r Hn H) as (h1 & E & H1 & Hf).
  unfold avl_right_rotate. rewrite (bind_ok _ _ _ _ _ E).
  assert (forall k, (cnt k ll + one k b + cnt k lr) + one k a + cnt k r <= 1)%nat as Hc by exact Hn.
  pose proof (Hc a) as Hca. pose proof (Hc b) as Hcb. rewrite one_eq in Hca, Hcb.
  assert (a <> b) as Hab by (intros ->; rewrite one_eq in Hca; lia).
  destruct H1 as (Hb & Hll & (Ha & Hlr & Hr)). cbn [rootp] in *. hgo.
  rewrite (bind_ok _ _ _ _ _ (avl_h_ok _ _ _ _ _ _ Hlr)). hgo.
  rewrite (bind_ok _ _ _ _ _ (avl_h_ok _ _ _ _ _ _ Hr)). hgo.
  erewrite bind_ok. 2:{ eapply (avl_h_ok _ _ _ _ (Some b) ll). apply linked_insert; [lia|assumption]. }
  hgo. eexists. split; [reflexivity|]. cbn [rrotF linked rootp cnt] in *. split.
  - split_and!; try hlook; repeat apply linked_insert; (assumption || lia).
  - intros k Hk. rewrite !lookup_insert_ne by (intros ->; rewrite ?one_eq in *; lia). apply Hf. exact Hk.
Qed.

(** Heights are right below the root, wherever the root may be out of date. *)
Definition kids_ok t : Prop := match t with Lf => True | Br l _ _ _ r => heights_ok l /\ heights_ok r end.
Lemma hd_depth t : heights_ok t -> hd t = depth t.
Proof. destruct t; [reflexivity|]. intros (-> & _). reflexivity. Qed.
Lemma hd_nonneg t : heights_ok t -> 0 <= hd t.
Proof. intros H. rewrite hd_depth by exact H. apply depth_nonneg. Qed.
Lemma ok_kids t : heights_ok t -> kids_ok t.
Proof. destruct t; [auto|]. intros (_ & Hl & Hr). split; assumption. Qed.

Lemma nonleaf_of_hd t : heights_ok t -> 1 <= hd t -> exists l a hh x r, t = Br l a hh x r.
Proof. destruct t as [|l a hh x r]; [cbn; lia|]. intros _ _. repeat eexists. Qed.

(** The two possibly double rotations on stored trees. *)
Lemma st_left_linked h f rt z par l a hh x r l' h1 :
  nd (Br l a hh x r) -> linked h par (Br l a hh x r) ->
  linked h1 (Some a) l' -> (forall k, cnt k l' = cnt k l) -> (forall k, cnt k l = 0%nat -> h1 !! k = h !! k) ->
  exists h2, st_left (Some a) (rootp l') (TSt h1 f rt z) = Ok (tt, TSt h2 f rt z) /\
    linked h2 par (Br l' a hh x r) /\ (forall k, cnt k (Br l a hh x r) = 0%nat -> h2 !! k = h !! k).
Proof.
  intros Hn (Ha & Hl & Hr) Hl' Hcl Hf. pose proof (Hn a) as Hca. cbn [cnt] in Hca. rewrite one_eq in Hca.
  assert (h1 !! a = Some (Nd par (rootp l) (rootp r) hh x)) as Ha1 by (rewrite Hf by lia; exact Ha).
  rewrite (st_left_ok _ _ _ _ _ _ _ Ha1). eexists. split; [reflexivity|]. cbn [linked]. split_and!.
  - apply lookup_insert.
  - apply linked_insert; [rewrite Hcl; lia|assumption].
  - apply linked_insert; [lia|]. eapply linked_same; [|exact Hr]. intros k Hk. apply Hf.
    specialize (Hn k). cbn [cnt] in Hn. lia.
  - intros k Hk. cbn [cnt] in Hk. rewrite lookup_insert_ne by (intros ->; rewrite one_eq in Hk; lia). apply Hf. lia.
Qed.
Lemma st_right_linked h f rt z par l a hh x r r' h1 :
  nd (Br l a hh x r) -> linked h par (Br l a hh x r) ->
  linked h1 (Some a) r' -> (forall k, cnt k r' = cnt k r) -> (forall k, cnt k r = 0%nat -> h1 !! k = h !! k) ->
  exists h2, st_right (Some a) (rootp r') (TSt h1 f rt z) = Ok (tt, TSt h2 f rt z) /\
    linked h2 par (Br l a hh x r') /\ (forall k, cnt k (Br l a hh x r) = 0%nat -> h2 !! k = h !! k).
Proof.
  intros Hn (Ha & Hl & Hr) Hr' Hcr Hf. pose proof (Hn a) as Hca. cbn [cnt] in Hca. rewrite one_eq in Hca.
  assert (h1 !! a = Some (Nd par (rootp l) (rootp r) hh x)) as Ha1 by (rewrite Hf by lia; exact Ha).
  rewrite (st_right_ok _ _ _ _ _ _ _ Ha1). eexists. split; [reflexivity|]. cbn [linked]. split_and!.
  - apply lookup_insert.
  - apply linked_insert; [lia|]. eapply linked_same; [|exact Hl]. intros k Hk. apply Hf.
    specialize (Hn k). cbn [cnt] in Hn. lia.
  - apply linked_insert; [rewrite Hcr; lia|assumption].
  - intros k Hk. cbn [cnt] in Hk. rewrite lookup_insert_ne by (intros ->; rewrite one_eq in Hk; lia). apply Hf. lia.
Qed.

(** [when d (root->left = _left_rotate(root->left)); root = _right_rotate(root)]. *)
Lemma rotate_right_ok (d : bool) h f rt z par l a hh x r :
  nd (Br l a hh x r) -> linked h par (Br l a hh x r) -> l <> Lf ->
  (d = true -> exists l1 b hb y r1, l = Br l1 b hb y r1 /\ r1 <> Lf) ->
  let t' := rrotF (Br (if d then lrotF l else l) a hh x r) in
  exists h', (when d (l <- ld_left (Some a) ;; l' <- avl_left_rotate l ;; st_left (Some a) l') ;;;
              avl_right_rotate (Some a)) (TSt h f rt z) = Ok (rootp t', TSt h' f rt z) /\
    linked h' par t' /\ forall k, cnt k (Br l a hh x r) = 0%nat -> h' !! k = h !! k.
Proof.
  intros Hn H Hl Hd. destruct d; cbn zeta.
  - destruct (Hd eq_refl) as (l1 & b & hb & y & r1 & -> & Hr1). destruct r1 as [|r1l c hc v r1r]; [congruence|].
    pose proof (nd_l _ _ _ _ _ Hn) as Hnl.
    pose proof H as (Ha & Hll & Hr).
    destruct (avl_left_rotate_ok h f rt z (Some a) _ _ _ _ _ _ _ _ _ Hnl Hll) as (h1 & E1 & H1 & Hf1).
    destruct (st_left_linked h f rt z par _ _ _ _ _ _ h1 Hn H H1 (fun k => cnt_lrot k _) Hf1) as (h2 & E2 & H2 & Hf2).
    assert (nd (Br (lrotF (Br l1 b hb y (Br r1l c hc v r1r))) a hh x r)) as Hn2.
    { intros k. cbn [cnt]. rewrite cnt_lrot. apply Hn. }
    destruct (avl_right_rotate_ok h2 f rt z par _ _ _ _ _ _ _ _ _ Hn2 H2) as (h3 & E3 & H3 & Hf3).
    exists h3. split_and!.
    + cbn [when]. rewrite bind_assoc. hgo. rewrite bind_assoc. cbn [rootp].
      rewrite (bind_ok _ _ _ _ _ E1). rewrite (bind_ok _ _ _ _ _ E2). exact E3.
    + exact H3.
    + intros k Hk. rewrite Hf3 by (cbn [cnt lrotF] in *; lia). apply Hf2. exact Hk.
  - destruct l as [|l1 b hb y r1]; [congruence|].
    destruct (avl_right_rotate_ok h f rt z par _ _ _ _ _ _ _ _ _ Hn H) as (h3 & E3 & H3 & Hf3).
    exists h3. split_and!; [exact E3|exact H3|exact Hf3].
Qed.
Lemma rotate_left_ok (d : bool) h f rt z par l a hh x r :
  nd (Br l a hh x r) -> linked h par (Br l a hh x r) -> r <> Lf ->
  (d = true -> exists l1 b hb y r1, r = Br l1 b hb y r1 /\ l1 <> Lf) ->
  let t' := lrotF (Br l a hh x (if d then rrotF r else r)) in
  exists h', (when d (r <- ld_right (Some a) ;; r' <- avl_right_rotate r ;; st_right (Some a) r') ;;;
              avl_left_rotate (Some a)) (TSt h f rt z) = Ok (rootp t', TSt h' f rt z) /\
    linked h' par t' /\ forall k, cnt k (Br l a hh x r) = 0%nat -> h' !! k = h !! k.
Proof.
  intros Hn H Hl Hd. destruct d; cbn zeta.
  - destruct (Hd eq_refl) as (l1 & b & hb & y & r1 & -> & Hr1). destruct l1 as [|r1l c hc v r1r]; [congruence|].
    pose proof (nd_r _ _ _ _ _ Hn) as Hnl.
    pose proof H as (Ha & Hll & Hr).
    destruct (avl_right_rotate_ok h f rt z (Some a) _ _ _ _ _ _ _ _ _ Hnl Hr) as (h1 & E1 & H1 & Hf1).
    destruct (st_right_linked h f rt z par _ _ _ _ _ _ h1 Hn H H1 (fun k => cnt_rrot k _) Hf1) as (h2 & E2 & H2 & Hf2).
    assert (nd (Br l a hh x (rrotF (Br (Br r1l c hc v r1r) b hb y r1)))) as Hn2.
    { intros k. cbn [cnt]. rewrite cnt_rrot. apply Hn. }
    destruct (avl_left_rotate_ok h2 f rt z par _ _ _ _ _ _ _ _ _ Hn2 H2) as (h3 & E3 & H3 & Hf3).
    exists h3. split_and!.
    + cbn [when]. rewrite bind_assoc. hgo. rewrite bind_assoc. cbn [rootp].
      rewrite (bind_ok _ _ _ _ _ E1). rewrite (bind_ok _ _ _ _ _ E2). exact E3.
    + exact H3.
    + intros k Hk. rewrite Hf3 by (cbn [cnt rrotF] in *; lia). apply Hf2. exact Hk.
  - destruct r as [|l1 b hb y r1]; [congruence|].
    destruct (avl_left_rotate_ok h f rt z par _ _ _ _ _ _ _ _ _ Hn H) as (h3 & E3 & H3 & Hf3).
    exists h3. split_and!; [exact E3|exact H3|exact Hf3].
Qed.

Lemma avl_check_balance_ok h f rt z par t :
  nd t -> linked h par t -> kids_ok t ->
  exists h', avl_check_balance (rootp t) (TSt h f rt z) = Ok (rootp (balF t), TSt h' f rt z) /\
    linked h' par (balF t) /\ forall k, cnt k t = 0%nat -> h' !! k = h !! k.
Proof.
  intros Hn H (* *). destruct t as [|l a hh x r].
  { intros _. exists h. split_and!; [reflexivity|exact I|reflexivity]. }
  intros (Hl & Hr). unfold avl_check_balance.
  rewrite (bind_ok _ _ _ _ _ (avl_bf_ok _ _ _ _ _ _ H)).
  pose proof (hd_nonneg _ Hl) as Hpl. pose proof (hd_nonneg _ Hr) as Hpr.
  pose proof H as (Ha & Hll & Hrl). cbn [bfF balF].
  destruct (Z.ltb_spec 1 (hd l - hd r)) as [Hb|Hb].
  - cbn [rootp]. hgo. rewrite (bind_ok _ _ _ _ _ (avl_bf_ok _ _ _ _ _ _ Hll)).
    apply rotate_right_ok; [exact Hn|exact H|intros ->; cbn in *; lia|].
    intros Hbl. apply Z.ltb_lt in Hbl. destruct l as [|l1 b hb y r1]; [cbn in Hb; lia|]. cbn [bfF] in Hbl.
    destruct Hl as (_ & Hl1 & Hr1). pose proof (hd_nonneg _ Hl1).
    exists l1, b, hb, y, r1. split; [reflexivity|]. intros ->. cbn in Hbl. lia.
  - destruct (Z.ltb_spec (hd l - hd r) (-1)) as [Hb'|Hb'].
    + cbn [rootp]. hgo. rewrite (bind_ok _ _ _ _ _ (avl_bf_ok _ _ _ _ _ _ Hrl)).
      apply rotate_left_ok; [exact Hn|exact H|intros ->; cbn in *; lia|].
      intros Hbl. apply Z.ltb_lt in Hbl. destruct r as [|l1 b hb y r1]; [cbn in Hb'; lia|]. cbn [bfF] in Hbl.
      destruct Hr as (_ & Hl1 & Hr1). pose proof (hd_nonneg _ Hr1).
      exists l1, b, hb, y, r1. split; [reflexivity|]. intros ->. cbn in Hbl. lia.
    + exists h. split_and!; [reflexivity|exact H|reflexivity].
Qed.

(** ** Balance.  A tree with right heights whose children are AVL trees and
    differ by at most two becomes an AVL tree, of the larger child's height
    plus one, or one less. *)
Definition avl t : Prop := heights_ok t /\ balanced t.
Lemma avl_Br l a hh x r : avl (Br l a hh x r) <->
  hh = Z.max (depth l) (depth r) + 1 /\ (-1 <= depth l - depth r <= 1) /\ avl l /\ avl r.
Proof. unfold avl. cbn [heights_ok balanced depth]. tauto. Qed.

Lemma upd_avl l a hh x r : avl l -> avl r -> -1 <= depth l - depth r <= 1 ->
  avl (updF (Br l a hh x r)) /\ depth (updF (Br l a hh x r)) = Z.max (depth l) (depth r) + 1.
Proof.
  intros Hl Hr Hb. cbn [updF]. rewrite avl_Br. destruct Hl as [Hl1 Hl2], Hr as [Hr1 Hr2].
  rewrite (hd_depth l), (hd_depth r) by assumption. unfold avl. cbn [depth]. tauto.
Qed.

Lemma bal_avl l a hh x r : avl l -> avl r -> -2 <= depth l - depth r <= 2 ->
  avl (balF (updF (Br l a hh x r))) /\
  (depth (balF (updF (Br l a hh x r))) = Z.max (depth l) (depth r) + 1 \/
   Z.max (depth l) (depth r) = Z.min (depth l) (depth r) + 2 /\
   depth (balF (updF (Br l a hh x r))) = Z.max (depth l) (depth r)).
Proof.
  intros Hl Hr Hb. cbn [updF balF bfF].
  pose proof (hd_depth l (proj1 Hl)) as El. pose proof (hd_depth r (proj1 Hr)) as Er. rewrite El, Er.
  destruct (Z.ltb_spec 1 (depth l - depth r)) as [H1|H1].
  - destruct l as [|ll b hb y lr]; [cbn [depth] in H1; pose proof (depth_nonneg r); lia|].
    apply avl_Br in Hl as (Ehb & Hbl & Hll & Hlr).
    pose proof (hd_depth _ (proj1 Hll)) as Ell. pose proof (hd_depth _ (proj1 Hlr)) as Elr. cbn [bfF].
    rewrite Ell, Elr. destruct (Z.ltb_spec (depth ll - depth lr) 0) as [H2|H2].
    + destruct lr as [|lrl c hc v lrr]; [cbn [depth] in H2; pose proof (depth_nonneg ll); lia|].
      apply avl_Br in Hlr as (Ehc & Hblr & Hlrl & Hlrr).
      pose proof (hd_depth _ (proj1 Hlrl)) as Elrl. pose proof (hd_depth _ (proj1 Hlrr)) as Elrr.
      cbn [lrotF rrotF hd]. rewrite Ell, Elrl, Elrr, Er. rewrite !avl_Br. cbn [depth] in *.
      split_and!; try assumption; try lia.
    + cbn [rrotF hd]. rewrite Ell, Elr, Er. rewrite !avl_Br. cbn [depth] in *.
      split_and!; try assumption; try lia.
  - destruct (Z.ltb_spec (depth l - depth r) (-1)) as [H3|H3].
    + destruct r as [|rl b hb y rr]; [cbn [depth] in H3; pose proof (depth_nonneg l); lia|].
      apply avl_Br in Hr as (Ehb & Hbr & Hrl & Hrr).
      pose proof (hd_depth _ (proj1 Hrl)) as Erl. pose proof (hd_depth _ (proj1 Hrr)) as Err. cbn [bfF].
      rewrite Erl, Err. destruct (Z.ltb_spec 0 (depth rl - depth rr)) as [H2|H2].
      * destruct rl as [|rll c hc v rlr]; [cbn [depth] in H2; pose proof (depth_nonneg rr); lia|].
        apply avl_Br in Hrl as (Ehc & Hbrl & Hrll & Hrlr).
        pose proof (hd_depth _ (proj1 Hrll)) as Erll. pose proof (hd_depth _ (proj1 Hrlr)) as Erlr.
        cbn [lrotF rrotF hd]. rewrite Err, Erll, Erlr, El. rewrite !avl_Br. cbn [depth] in *.
        split_and!; try assumption; try lia.
      * cbn [lrotF hd]. rewrite Erl, El. rewrite !avl_Br. cbn [depth] in *.
        split_and!; try assumption; try lia.
    + rewrite avl_Br. cbn [depth]. split_and!; try assumption; try lia.
Qed.
End Rot.
