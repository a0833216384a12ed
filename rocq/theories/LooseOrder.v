(** Trees with a comparison function that need not be an order. *)
From Coq Require Import Permutation.
From Verif Require Import Base Alloc AllocProofs TreeAlloc VectorModel VectorSpec Adapter Hist.
From Verif Require Import TreeModel TreeSpec TreeBase TreeRot TreeIns TreeZip TreeDel TreeErase TreeIter TreeObj TreeWorld TreeHist BstWorld BstSpec BstObj.
Open Scope Z_scope.

Section L.
Context {A : Type} (cmp : A -> A -> bool).
Notation tree := (atree A).
Implicit Types (h : gmap nat (node A)) (t : tree) (x : A) (w : tworld A).

(** A stored tree, alone in memory. *)
Record alone t h (f : Alloc.alloc) : Prop := Alone {
  al_linked : linked h None t;
  al_nd : nd t;
  al_alok : alok h f;
  al_only : forall k, is_Some (h !! k) -> (0 < cnt k t)%nat }.
Definition the (id : nat) t (z : Z) w : Prop := alone t (tw_heap w) (tw_al w) /\ tw_objs w = {[id := (rootp t, z)]}.

Lemma alone_count t h f : alone t h f -> size h = length (elems t).
Proof.
  intros [Hl Hn _ Ho]. rewrite <- addrs_len. rewrite <- size_dom, <- (size_list_to_set (C := gset nat) (addrs t)) by (apply addrs_nodup; exact Hn).
  f_equal. apply set_eq. intros k. rewrite elem_of_dom, elem_of_list_to_set, addrs_cnt. split; [apply Ho|apply (linked_in _ _ _ _ Hl)].
Qed.
Lemma the_new id : forall pol, sound pol -> exists w, tw_new id (tw_init pol : tworld A) = Ok (tt, w) /\ the id Lf 0 w /\ al_pol (tw_al w) = pol.
Proof.
  intros pol Hs. unfold tw_new, tw_init, on, bt_init. cbn [tw_objs tw_heap tw_al]. rewrite lookup_empty, lookup_insert. cbn. eexists. split; [reflexivity|].
  split; [split|reflexivity]; cbn [tw_heap tw_al tw_objs].
  - split; [exact I|intros k; cbn; lia|apply alok_init, Hs|]. intros k [? Hk]. rewrite lookup_empty in Hk. discriminate.
  - rewrite insert_insert. apply insert_empty.
Qed.
Lemma on_the {X} id t z w (m : M (tst A) X) : the id t z w -> on id m w =
  match m (TSt (tw_heap w) (tw_al w) (rootp t) z) with
  | Ok (x, s) => Ok (x, TW (t_heap s) (t_al s) {[id := (t_root s, t_size s)]})
  | Abort => Abort | UB => UB | Diverge => Diverge end.
Proof.
  intros [_ E]. unfold on. rewrite E, lookup_singleton. destruct (m _) as [[x s]| | |]; try reflexivity. rewrite insert_singleton. reflexivity.
Qed.
Lemma the_query {X} id t z w (m : M (tst A) X) o : the id t z w -> (let s := TSt (tw_heap w) (tw_al w) (rootp t) z in m s = Ok (o, s)) -> on id m w = Ok (o, w).
Proof. intros H E. cbn zeta in E. rewrite (on_the _ _ _ _ _ H), E. cbn. destruct H as [_ H]. rewrite <- H. destruct w; reflexivity. Qed.

Lemma alone_grow h h' f a t t' : alone t h f -> al_pick f = Some a -> (forall k, cnt k t' = (cnt k t + one k a)%nat) -> linked h' None t' ->
  (forall k, cnt k t = 0%nat -> k <> a -> h' !! k = h !! k) -> alone t' h' (al_got a f).
Proof.
  intros [Hl Hn Hf Ho] Hp Hc H' Fr. pose proof (alok_new _ _ _ Hf Hp) as Hfr. 
  assert (cnt a t = 0%nat) as Hca. { destruct (cnt a t) eqn:E0; [reflexivity|]. destruct (linked_in _ _ _ a Hl ltac:(lia)). congruence. }
  split.
  - exact H'.
  - intros k. rewrite Hc. specialize (Hn k). destruct (decide (k = a)) as [->|Hk]; [rewrite one_eq; lia|rewrite one_ne by congruence; lia].
  - apply (alok_got h f a h' Hf Hp). intros k. destruct (decide (k = a)) as [->|Hka].
    + split; [auto|]. intros _. apply (linked_in _ _ _ _ H'). rewrite Hc, one_eq. lia.
    + destruct (decide (cnt k t = 0%nat)) as [Hk|Hk]; [rewrite Fr by assumption; tauto|].
      split; [intros _; right; apply (linked_in _ _ _ _ Hl); lia|]. intros _. apply (linked_in _ _ _ _ H'). rewrite Hc. lia.
  - intros k Hk. rewrite Hc. destruct (decide (k = a)) as [->|Hka]; [rewrite one_eq; lia|].
    destruct (decide (cnt k t = 0%nat)) as [Hk0|Hk0]; [|lia]. rewrite Fr in Hk by assumption. specialize (Ho _ Hk). lia.
Qed.

(** What search finds is there, and is equivalent. *)
Lemma at_equiv x t b : atF cmp x t = Some b -> exists y, In y (elems t) /\ equiv cmp x y.
Proof.
  intros H. destruct (atF_zip cmp x t b H) as (C & l & hh & v & r & -> & E). exists v. split; [|exact E].
  clear. revert l r. assert (forall (u : tree), In v (elems u) -> In v (elems (plug C u))) as H.
  { induction C as [|[a h0 y r|l a h0 y] C IH]; intros u Hu; cbn [plug]; [exact Hu| |]; apply IH; cbn [elems]; apply in_or_app; [left; exact Hu|right; right; exact Hu]. }
  intros l r. apply H. cbn [elems]. apply in_or_app. right. left. reflexivity.
Qed.
Lemma find_any id t z w x : the id t z w -> exists o, on id (p <- bt_find cmp x ;; deref p) w = Ok (o, w) /\
  match o with Some y => In y (elems t) /\ equiv cmp x y | None => True end.
Proof.
  intros H. pose proof H as [[Hl Hn _ _] _]. destruct (atF cmp x t) as [b|] eqn:E.
  - destruct (atF_zip cmp x t b E) as (C & l & hh & v & r & Et & Ee). exists (Some v). split.
    + apply (the_query _ _ _ _ _ _ H). cbn zeta. rewrite (bind_ok _ _ _ _ _ (find_ok cmp x t _ _ _ Hn Hl)). rewrite E. cbn [deref is_null].
      rewrite Et in Hl. destruct (linked_lookup _ _ _ _ _ _ _ _ Hl) as (n & Hb & Hv & _). unfold deref. cbn [is_null].
      erewrite bind_ok by (eapply ld_val_ok; exact Hb). rewrite Hv. reflexivity.
    + destruct (at_equiv x t b E) as (y & Hy & He). split; [|exact Ee]. subst t.
      clear. assert (forall (u : tree), In v (elems u) -> In v (elems (plug C u))) as H.
      { induction C as [|[a h0 y r0|l0 a h0 y] C IH]; intros u Hu; cbn [plug]; [exact Hu| |]; apply IH; cbn [elems]; apply in_or_app; [left; exact Hu|right; right; exact Hu]. }
      apply H. cbn [elems]. apply in_or_app. right. left. reflexivity.
  - exists None. split; [|exact I]. apply (the_query _ _ _ _ _ _ H). cbn zeta. rewrite (bind_ok _ _ _ _ _ (find_ok cmp x t _ _ _ Hn Hl)). rewrite E. reflexivity.
Qed.
Lemma destroy_any id t z w : the id t z w -> exists w', tw_destroy id w = Ok (tt, w') /\ tw_heap w' = ∅ /\ tw_objs w' = ∅.
Proof.
  intros H. pose proof H as [[Hl Hn Hf Ho] Eo]. unfold tw_destroy. change bt_destroy with (@bt_clear A).
  erewrite bind_ok by (rewrite (on_the _ _ _ _ _ H); rewrite (clear_ok t _ _ z Hn Hl); reflexivity).
  eexists. split; [reflexivity|]. cbn [tw_heap tw_objs t_heap]. split; [|apply delete_singleton].
  apply map_eq. intros k. rewrite lookup_remove_tree, lookup_empty. destruct (decide _) as [E|E]; [|reflexivity].
  destruct (tw_heap w !! k) as [n|] eqn:Ek; [|reflexivity]. specialize (Ho k ltac:(eauto)). lia.
Qed.

(** ** BinarySearchTree: any function *)
Lemma elems_insB_perm x f t : Permutation (elems (insB cmp x f t)) (x :: elems t).
Proof.
  induction t as [|l IHl a hh v r IHr]; cbn [insB elems]; [reflexivity|]. destruct (cmp x v); cbn [elems].
  - rewrite IHl. reflexivity.
  - rewrite IHr. transitivity (elems l ++ x :: v :: elems r); [apply Permutation_app_head, perm_swap|symmetry; apply Permutation_middle].
Qed.
Lemma bst_push_any id t z w x : grants (al_pol (tw_al w)) -> the id t z w -> exists w' t', b_step cmp (BPush id x) w = Ok (OUnit, w') /\ the id t' (z + 1) w' /\
  al_pol (tw_al w') = al_pol (tw_al w) /\
  (Permutation (elems t') (x :: elems t) \/ elems t' = elems t /\ exists y, In y (elems t) /\ equiv cmp x y).
Proof.
  intros Hg H. pose proof H as [Hal Eo]. pose proof Hal as [Hl Hn Hf Ho]. cbn [b_step].
  destruct (atF cmp x t) as [b|] eqn:E.
  - eexists _, t. split; [erewrite bind_ok by (rewrite (on_the _ _ _ _ _ H); rewrite (push_dup cmp _ _ _ _ _ b Hn Hl E); reflexivity); reflexivity|].
    split; [split; [exact Hal|reflexivity]|]. split; [reflexivity|]. right. split; [reflexivity|]. exact (at_equiv x t b E).
  - destruct (Hg _ (ak_served _ _ Hf)) as [a Hp].
    destruct (push_any cmp _ _ a z t x Hl Hn Hf E Hp) as (h' & E' & Hl' & Hn' & Hf' & Fr).
    eexists _, (insB cmp x a t). split; [erewrite bind_ok by (rewrite (on_the _ _ _ _ _ H), E'; reflexivity); reflexivity|].
    split; [split; [|reflexivity]|split; [reflexivity|left; apply elems_insB_perm]]. cbn [tw_heap tw_al t_heap t_al].
    exact (alone_grow _ _ _ _ _ _ Hal Hp (fun k => cnt_insB cmp k x a t) Hl' Fr).
Qed.
Lemma bst_pushes_any id xs : forall t z w, grants (al_pol (tw_al w)) -> the id t z w -> exists w' t' rest,
  mrun (b_step cmp) (map (BPush id) xs) w = Ok (repeat OUnit (length xs), w') /\ the id t' (z + Z.of_nat (length xs)) w' /\
  Permutation (elems t ++ xs) (elems t' ++ rest) /\ (forall x, In x rest -> exists y, In y (elems t') /\ equiv cmp x y) /\ forall y, In y (elems t) -> In y (elems t').
Proof.
  induction xs as [|x xs IH]; intros t z w Hg H; cbn [map length repeat].
  - exists w, t, []. rewrite Z.add_0_r. split_and!; [reflexivity|exact H|reflexivity|intros ? []|auto].
  - destruct (bst_push_any id t z w x Hg H) as (w1 & t1 & E1 & H1 & P1 & He). rewrite (mrun_cons _ _ _ _ _ _ E1). rewrite <- P1 in Hg.
    destruct (IH t1 (z + 1) w1 Hg H1) as (w2 & t2 & rest & E2 & H2 & P2 & Hr & Hk). rewrite E2.
    replace (z + 1 + Z.of_nat (length xs)) with (z + Z.of_nat (S (length xs))) in H2 by lia.
    destruct He as [He|(He & y & Hy & Hxy)].
    + exists w2, t2, rest. split_and!; [reflexivity|exact H2| |exact Hr|].
      * rewrite <- P2, He. symmetry. apply Permutation_middle.
      * intros y Hy. apply Hk. eapply Permutation_in; [symmetry; exact He|]. right. exact Hy.
    + exists w2, t2, (x :: rest). rewrite He in Hk, P2. split_and!; [reflexivity|exact H2| | |exact Hk].
      * rewrite <- !Permutation_middle, <- P2. reflexivity.
      * intros x' [<-|Hx']; [exists y; auto|auto].
Qed.
Theorem bst_any (pol : policy) (id : nat) (xs : list A) : sound pol -> grants pol -> exists w t rest,
  mrun (b_step cmp) (BNew id :: map (BPush id) xs) (tw_init pol) = Ok (OUnit :: repeat OUnit (length xs), w) /\
  linked (tw_heap w) None t /\ nd t /\ size (tw_heap w) = length (elems t) /\ tw_objs w = {[id := (rootp t, Z.of_nat (length xs))]} /\
  Permutation xs (elems t ++ rest) /\ (forall x, In x rest -> exists y, In y (elems t) /\ equiv cmp x y) /\
  (xs <> [] -> b_step cmp (BIter id InOrder) w = Ok (OList (elems t), w)) /\
  (forall x, exists o, b_step cmp (BFind id x) w = Ok (OOpt o, w) /\ match o with Some y => In y (elems t) /\ equiv cmp x y | None => True end) /\
  exists w', b_step cmp (BDestroy id) w = Ok (OUnit, w') /\ tw_heap w' = ∅ /\ tw_objs w' = ∅.
Proof.
  intros Hs Hg. destruct (the_new id pol Hs) as (w0 & E0 & H0 & P0).
  destruct (bst_pushes_any id xs Lf 0 w0) as (w & t & rest & E & H & P & Hr & _); [rewrite P0; exact Hg|exact H0|].
  pose proof H as [Hal Eo]. pose proof Hal as [Hl Hn Hf Ho]. cbn [elems app] in P.
  exists w, t, rest. split_and!.
  - rewrite (mrun_cons _ _ _ _ OUnit w0), E; [reflexivity|]. cbn [b_step]. rewrite (bind_ok _ _ _ _ _ E0). reflexivity.
  - exact Hl.
  - exact Hn.
  - exact (alone_count _ _ _ Hal).
  - exact Eo.
  - exact P.
  - exact Hr.
  - intros Hx. cbn [b_step]. erewrite bind_ok; [reflexivity|]. apply (the_query _ _ _ _ _ _ H). cbn zeta. apply (iterate_in_ok t); [|exact Hn|exact Hl].
    intros ->. destruct rest as [|y rest]; [|destruct (Hr y) as (? & [] & _); left; reflexivity]. destruct xs as [|x xs]; [congruence|].
    apply Permutation_length in P. cbn in P. lia.
  - intros x. destruct (find_any id t _ w x H) as (o & Ef & Hf'). exists o. split; [|exact Hf']. cbn [b_step]. rewrite (bind_ok _ _ _ _ _ Ef). reflexivity.
  - destruct (destroy_any id t _ w H) as (w' & Ed & H1 & H2). exists w'. split; [|auto]. cbn [b_step]. rewrite (bind_ok _ _ _ _ _ Ed). reflexivity.
Qed.

(** ** AVLTree: any asymmetric function *)
Lemma avl_push_any id t z w x : (forall a b, cmp a b = true -> cmp b a = false) -> grants (al_pol (tw_al w)) -> the id t z w -> avl t ->
  (t_step cmp (TPush id x) w = Abort /\ exists y, In y (elems t) /\ equiv cmp x y) \/
  exists w' t', t_step cmp (TPush id x) w = Ok (OUnit, w') /\ the id t' (z + 1) w' /\ avl t' /\
    al_pol (tw_al w') = al_pol (tw_al w) /\ Permutation (elems t') (x :: elems t).
Proof.
  intros Has Hg H Hav. pose proof H as [Hal Eo]. pose proof Hal as [Hl Hn Hf Ho]. cbn [t_step].
  destruct (Hg _ (ak_served _ _ Hf)) as [a Hp]. change (al_pick (tw_al w) = Some a) in Hp.
  pose proof (avl_insert_any cmp t Has (S (S (size (tw_heap w)))) _ _ a (rootp t) z None x Hn Hl Hav Hp (alok_new _ _ _ Hf Hp)) as Hi.
  specialize (Hi ltac:(pose proof (nodes_size _ _ _ Hn Hl); lia)).
  destruct (atF cmp x t) as [b|] eqn:E.
  - left. split; [|exact (at_equiv x t b E)]. apply bind_abort. rewrite (on_the _ _ _ _ _ H). unfold avl_push.
    erewrite bind_ok by reflexivity. erewrite bind_ok by reflexivity. cbn [t_heap t_root]. rewrite (bind_abort _ _ _ Hi). reflexivity.
  - right. destruct Hi as (h' & E' & H' & Fr). eexists _, (insF cmp x a t). split.
    { erewrite bind_ok; [reflexivity|]. rewrite (on_the _ _ _ _ _ H). unfold avl_push.
      erewrite bind_ok by reflexivity. erewrite bind_ok by reflexivity. cbn [t_heap t_root].
      rewrite (bind_ok _ _ _ _ _ E'). rewrite (bind_ok _ _ _ _ _ (update_root_ok h' _ (rootp t) z _ H')). reflexivity. }
    split; [split; [|reflexivity]|]. 2:{ split_and!; [apply ins_avl_any; assumption|reflexivity|apply elems_ins_perm]. }
    cbn [tw_heap tw_al t_heap t_al]. exact (alone_grow _ _ _ _ _ _ Hal Hp (fun k => cnt_ins cmp k x a t) H' Fr).
Qed.
Lemma avl_pushes_any id xs : (forall a b, cmp a b = true -> cmp b a = false) -> forall t z w, grants (al_pol (tw_al w)) -> the id t z w -> avl t ->
  (mrun (t_step cmp) (map (TPush id) xs) w = Abort /\ exists xs1 x xs2 y, xs = xs1 ++ x :: xs2 /\ In y (elems t ++ xs1) /\ equiv cmp x y) \/
  exists w' t', mrun (t_step cmp) (map (TPush id) xs) w = Ok (repeat OUnit (length xs), w') /\ the id t' (z + Z.of_nat (length xs)) w' /\ avl t' /\
    Permutation (elems t ++ xs) (elems t').
Proof.
  intros Has. induction xs as [|x xs IH]; intros t z w Hg H Hav; cbn [map length repeat].
  - right. exists w, t. rewrite Z.add_0_r, app_nil_r. split_and!; [reflexivity|exact H|exact Hav|reflexivity].
  - destruct (avl_push_any id t z w x Has Hg H Hav) as [(E & y & Hy & Hxy)|(w1 & t1 & E1 & H1 & Hav1 & P1 & He)].
    { left. split; [cbn [mrun]; apply bind_abort, E|]. exists [], x, xs, y. rewrite app_nil_r. auto. }
    rewrite (mrun_cons _ _ _ _ _ _ E1). rewrite <- P1 in Hg.
    destruct (IH t1 (z + 1) w1 Hg H1 Hav1) as [(E2 & xs1 & x2 & xs2 & y & -> & Hy & Hxy)|(w2 & t2 & E2 & H2 & Hav2 & P2)]; rewrite E2.
    + left. split; [reflexivity|]. exists (x :: xs1), x2, xs2, y. split; [reflexivity|]. split; [|exact Hxy].
      eapply Permutation_in; [|exact Hy]. rewrite He. apply Permutation_middle.
    + right. exists w2, t2. replace (z + 1 + Z.of_nat (length xs)) with (z + Z.of_nat (S (length xs))) in H2 by lia.
      split_and!; [reflexivity|exact H2|exact Hav2|]. rewrite <- P2, He. symmetry. apply Permutation_middle.
Qed.
Theorem avl_any (pol : policy) (id : nat) (xs : list A) : (forall a b, cmp a b = true -> cmp b a = false) -> sound pol -> grants pol ->
  (mrun (t_step cmp) (TNew id :: map (TPush id) xs) (tw_init pol) = Abort /\
   exists xs1 x xs2 y, xs = xs1 ++ x :: xs2 /\ In y xs1 /\ equiv cmp x y) \/
  exists w t, mrun (t_step cmp) (TNew id :: map (TPush id) xs) (tw_init pol) = Ok (OUnit :: repeat OUnit (length xs), w) /\
  linked (tw_heap w) None t /\ nd t /\ size (tw_heap w) = length xs /\ tw_objs w = {[id := (rootp t, Z.of_nat (length xs))]} /\
  heights_ok t /\ balanced t /\ Permutation xs (elems t) /\
  (xs <> [] -> t_step cmp (TIter id) w = Ok (OList (elems t), w)) /\
  (forall x, exists o, t_step cmp (TFind id x) w = Ok (OOpt o, w) /\ match o with Some y => In y (elems t) /\ equiv cmp x y | None => True end) /\
  exists w', t_step cmp (TDestroy id) w = Ok (OUnit, w') /\ tw_heap w' = ∅ /\ tw_objs w' = ∅.
Proof.
  intros Has Hs Hg. destruct (the_new id pol Hs) as (w0 & E0 & H0 & P0).
  assert (t_step cmp (TNew id) (tw_init pol) = Ok (OUnit, w0)) as E1 by (cbn [t_step]; rewrite (bind_ok _ _ _ _ _ E0); reflexivity).
  rewrite (mrun_cons _ _ _ _ _ _ E1).
  destruct (avl_pushes_any id xs Has Lf 0 w0) as [(E & xs1 & x & xs2 & y & Ex & Hy & Hxy)|(w & t & E & H & Hav & P)];
    [rewrite P0; exact Hg|exact H0|split; exact I| |]; rewrite E.
  { left. split; [reflexivity|]. exists xs1, x, xs2, y. auto. }
  right. pose proof H as [Hal Eo]. pose proof Hal as [Hl Hn Hf Ho]. cbn [elems app] in P.
  exists w, t. split_and!.
  - reflexivity.
  - exact Hl.
  - exact Hn.
  - rewrite (alone_count _ _ _ Hal). symmetry. apply Permutation_length, P.
  - exact Eo.
  - apply Hav.
  - apply Hav.
  - exact P.
  - intros Hx. cbn [t_step]. erewrite bind_ok; [reflexivity|]. apply (the_query _ _ _ _ _ _ H). cbn zeta. apply (iterate_in_ok t); [|exact Hn|exact Hl].
    intros ->. destruct xs as [|x xs]; [congruence|]. apply Permutation_length in P. cbn in P. lia.
  - intros x. destruct (find_any id t _ w x H) as (o & Ef & Hf'). exists o. split; [|exact Hf']. cbn [t_step]. rewrite (bind_ok _ _ _ _ _ Ef). reflexivity.
  - destruct (destroy_any id t _ w H) as (w' & Ed & H1 & H2). exists w'. split; [|auto]. cbn [t_step]. rewrite (bind_ok _ _ _ _ _ Ed). reflexivity.
Qed.

(** ... but not a reflexive one *)
Lemma ins_leaf fl h al f par rt z x : al_pick al = Some f ->
  avl_insert cmp (S fl) None x par (TSt h al rt z) = Ok (Some f, TSt (<[f := Nd par None None 1 x]> h) (al_got f al) rt z).
Proof.
  intros Hpk. cbn [avl_insert is_null]. rewrite bind_assoc. unfold new_node at 1. erewrite bind_ok by (cbn [t_al]; rewrite Hpk; reflexivity). rewrite bind_assoc.
  cbn [t_heap t_al t_root t_size]. erewrite bind_ok by (eapply st_par_ok; hlook). cbn [n_left n_right n_h n_val]. rewrite bind_ret. rewrite insert_insert.
  erewrite (bind_ok (avl_update_height _)).
  2:{ eapply (avl_update_height_ok _ _ _ _ _ None Lf f _ _ Lf); [apply lookup_insert|exact I|exact I]. }
  cbn [hd]. rewrite insert_insert. reflexivity.
Qed.
Lemma ins_two fl h al f f1 par rt z x : cmp x x = true -> al_pick al = Some f -> f <> f1 -> h !! f1 = Some (Nd par None None 1 x) ->
  exists h', avl_insert cmp (S (S fl)) (Some f1) x par (TSt h al rt z) = Ok (Some f1, TSt h' (al_got f al) rt z) /\
    h' !! f1 = Some (Nd par (Some f) None 2 x) /\ h' !! f = Some (Nd (Some f1) None None 1 x) /\ forall k, k <> f -> k <> f1 -> h' !! k = h !! k.
Proof.
  intros Hx Hpk Hne H1. set (fl1 := S fl). cbn [avl_insert is_null]. rewrite bind_assoc. erewrite bind_ok by hacc. cbn [n_val]. rewrite Hx, bind_assoc.
  erewrite bind_ok by hacc. cbn [n_left]. rewrite bind_assoc. unfold fl1 at 1. erewrite bind_ok by (apply ins_leaf; exact Hpk).
  rewrite bind_assoc. erewrite bind_ok by hacc. cbn [n_par n_left n_right n_h n_val].
  rewrite bind_assoc. erewrite bind_ok by hacc. cbn [n_left]. rewrite bind_assoc. unfold avl_h at 1. cbn [is_null]. erewrite bind_ok by hacc. cbn [n_h].
  rewrite bind_assoc. erewrite bind_ok by hacc. cbn [n_right]. rewrite bind_assoc. unfold avl_h at 1. cbn [is_null]. rewrite bind_ret.
  change (1 - 0 =? 2) with false. cbn iota. rewrite bind_ret.
  unfold avl_update_height, avl_h. rewrite bind_assoc. erewrite bind_ok by hacc. cbn [n_left is_null]. rewrite bind_assoc. erewrite bind_ok by hacc. cbn [n_h].
  rewrite bind_assoc. erewrite bind_ok by hacc. cbn [n_right is_null]. rewrite bind_assoc, bind_ret. erewrite bind_ok by hacc. cbn [n_par n_left n_right n_h n_val].
  eexists. split; [reflexivity|]. split_and!.
  - hlook.
  - hlook.
  - intros k Hk Hk1. rewrite !lookup_insert_ne by congruence. reflexivity.
Qed.
Lemma ins_three fl h al f f1 f2 par rt z x : cmp x x = true -> al_pick al = Some f -> f <> f1 -> f <> f2 -> f1 <> f2 ->
  h !! f1 = Some (Nd par (Some f2) None 2 x) -> h !! f2 = Some (Nd (Some f1) None None 1 x) ->
  avl_insert cmp (S (S (S fl))) (Some f1) x par (TSt h al rt z) = UB.
Proof.
  intros Hx Hpk Hn1 Hn2 Hn H1 H2. set (fl1 := S (S fl)). cbn [avl_insert is_null]. rewrite bind_assoc. erewrite bind_ok by hacc. cbn [n_val]. rewrite Hx, bind_assoc.
  erewrite bind_ok by hacc. cbn [n_left]. rewrite bind_assoc. destruct (ins_two fl h al f f2 (Some f1) rt z x Hx Hpk Hn2 H2) as (h' & E & H2' & _ & Fr).
  unfold fl1. rewrite (bind_ok _ _ _ _ _ E). clear E. rewrite <- (Fr f1) in H1 by congruence.
  rewrite bind_assoc. erewrite bind_ok by hacc. cbn [n_par n_left n_right n_h n_val].
  rewrite bind_assoc. erewrite bind_ok by hacc. cbn [n_left]. rewrite bind_assoc. unfold avl_h at 1. cbn [is_null]. erewrite bind_ok by hacc. cbn [n_h].
  rewrite bind_assoc. erewrite bind_ok by hacc. cbn [n_right]. rewrite bind_assoc. unfold avl_h at 1. cbn [is_null]. rewrite bind_ret.
  change (2 - 0 =? 2) with true. cbn iota. rewrite !bind_assoc. erewrite bind_ok by hacc. cbn [n_left]. rewrite !bind_assoc. erewrite bind_ok by hacc. cbn [n_val].
  rewrite Hx. cbn [when]. rewrite !bind_assoc. erewrite bind_ok by hacc. cbn [n_left]. rewrite !bind_assoc. unfold avl_left_rotate at 1, left_rotate at 1. rewrite !bind_assoc.
  erewrite bind_ok by hacc. cbn [n_right]. rewrite !bind_assoc. erewrite bind_ok by hacc. cbn [n_par]. reflexivity.
Qed.
Theorem avl_reflexive (pol : policy) (id : nat) a : sound pol -> grants pol -> cmp a a = true ->
  mrun (t_step cmp) [TNew id; TPush id a; TPush id a; TPush id a] (tw_init pol) = UB /\
  exists w, mrun (t_step cmp) [TNew id; TPush id a; TPush id a] (tw_init pol) = Ok ([OUnit; OUnit; OUnit], w).
Proof.
  intros Hs Hg Ha. destruct (the_new id pol Hs) as (w0 & E0 & H0 & P0).
  assert (t_step cmp (TNew id) (tw_init pol) = Ok (OUnit, w0)) as E1 by (cbn [t_step]; rewrite (bind_ok _ _ _ _ _ E0); reflexivity).
  destruct w0 as [h0 al0 o0]. destruct H0 as [[_ _ Hf0 Ho0] Eo0]. cbn [tw_heap tw_al tw_objs] in *. subst o0.
  assert (forall h (al : Alloc.alloc), alok h al -> al_pol al = pol -> exists f, al_pick al = Some f /\ h !! f = None) as Hpick.
  { intros h al Hf Hp. rewrite <- Hp in Hg. destruct (Hg _ (ak_served _ _ Hf)) as [f Hf']. exists f. split; [exact Hf'|]. exact (alok_new _ _ _ Hf Hf'). }
  assert (forall rt z h al r al' h' , avl_insert cmp (S (S (size h))) rt a None (TSt h al rt z) = Ok (Some r, TSt h' al' rt z) ->
    forall n, h' !! r = Some n -> n_par n = None ->
    t_step cmp (TPush id a) (TW h al {[id := (rt, z)]}) = Ok (OUnit, TW h' al' {[id := (Some r, z + 1)]})) as Hpush.
  { intros rt z h al r al' h' E n Hn Hp. cbn [t_step]. erewrite bind_ok; [reflexivity|]. unfold on. cbn [tw_objs tw_heap tw_al]. rewrite lookup_singleton.
    unfold avl_push. erewrite bind_ok by reflexivity. erewrite bind_ok by reflexivity. cbn [t_heap t_root]. rewrite (bind_ok _ _ _ _ _ E).
    unfold update_root. rewrite bind_assoc. erewrite bind_ok by reflexivity. cbn [is_null negb when t_heap t_al t_size]. erewrite bind_ok by hacc.
    rewrite <- Hp. assert (Nd (n_par n) (n_left n) (n_right n) (n_h n) (n_val n) = n) as -> by (destruct n; reflexivity). rewrite insert_id by exact Hn.
    cbn. rewrite insert_singleton. reflexivity. }
  destruct (Hpick _ _ Hf0 P0) as (f1 & Hp1 & Hh1).
  pose proof (ins_leaf (S (size h0)) h0 al0 f1 None None 0 a Hp1) as I1. pose proof (Hpush _ _ _ _ _ _ _ I1 _ (lookup_insert _ _ _) eq_refl) as E2.
  set (h1 := <[f1 := Nd None None None 1 a]> h0) in *.
  assert (alok h1 (al_got f1 al0)) as Hf1.
  { apply (alok_got h0 al0 f1 h1 Hf0 Hp1). intros k. unfold h1. rewrite lookup_insert_is_Some. destruct (decide (k = f1)) as [->|Hk]; [tauto|]. split; [intros [<-|[_ ?]]; auto|]. intros [->|?]; [congruence|]. right. auto. }
  destruct (Hpick _ _ Hf1 P0) as (f2 & Hp2 & Hh2).
  assert (f2 <> f1) as Hn21. { intros ->. unfold h1 in Hh2. rewrite lookup_insert in Hh2. discriminate. }
  destruct (ins_two (size h1) h1 _ f2 f1 None (Some f1) (0 + 1) a Ha Hp2 Hn21 (lookup_insert _ _ _)) as (h2 & I2 & G1 & G2 & Fr).
  pose proof (Hpush _ _ _ _ _ _ _ I2 _ G1 eq_refl) as E3.
  assert (alok h2 (al_got f2 (al_got f1 al0))) as Hf2.
  { apply (alok_got h1 (al_got f1 al0) f2 h2 Hf1 Hp2). intros k. destruct (decide (k = f2)) as [->|Hk2]; [rewrite G2; split; eauto|].
    destruct (decide (k = f1)) as [->|Hk1]; [rewrite G1; split; [intros _; right; unfold h1; rewrite lookup_insert; eauto|eauto]|].
    rewrite (Fr k Hk2 Hk1). split; [auto|intros [->|?]; [congruence|auto]]. }
  destruct (Hpick _ _ Hf2 P0) as (f3 & Hp3 & Hh3).
  assert (f3 <> f1) as Hn31 by (intros ->; congruence). assert (f3 <> f2) as Hn32 by (intros ->; congruence).
  split.
  - assert (exists n, size h2 = S n) as [n En].
    { destruct (size h2) as [|n] eqn:E; [|eauto]. apply map_size_empty_inv in E. rewrite E, lookup_empty in G1. discriminate. }
    assert (avl_push cmp a (TSt h2 (al_got f2 (al_got f1 al0)) (Some f1) (0 + 1 + 1)) = UB) as Eu.
    { unfold avl_push. erewrite bind_ok by reflexivity. erewrite bind_ok by reflexivity. cbn [t_heap t_root]. rewrite En. unfold bind at 1.
      rewrite (ins_three n h2 _ f3 f1 f2 None (Some f1) (0 + 1 + 1) a Ha Hp3 Hn31 Hn32 (not_eq_sym Hn21) G1 G2). reflexivity. }
    assert (t_step cmp (TPush id a) (TW h2 (al_got f2 (al_got f1 al0)) {[id := (Some f1, 0 + 1 + 1)]}) = UB) as E4.
    { cbn [t_step]. unfold bind, on. cbn [tw_objs tw_heap tw_al]. rewrite lookup_singleton, Eu. reflexivity. }
    rewrite (mrun_cons _ _ _ _ _ _ E1), (mrun_cons _ _ _ _ _ _ E2), (mrun_cons _ _ _ _ _ _ E3). cbn [mrun]. unfold bind at 1. rewrite E4. reflexivity.
  - eexists. rewrite (mrun_cons _ _ _ _ _ _ E1), (mrun_cons _ _ _ _ _ _ E2), (mrun_cons _ _ _ _ _ _ E3). reflexivity.
Qed.
End L.

From Verif Require Import HeapModel HeapSpec HeapProofs VecProg.
Lemma heap_any (A : Type) (triv : bool) (cmp : A -> A -> bool) (ops : list (@hop A)) :
  exists r, h_run triv (fun _ _ => True) ops ∅ r /\
    match r with
    | SVal (rs, s) => exists w, wrun triv (arun (hp_step cmp) ops) world_init = Ok (rs, w) /\ storage_ok w
    | SAbort => wrun triv (arun (hp_step cmp) ops) world_init = Abort
    | SUnspec => True
    end.
Proof. apply heap_history; auto. Qed.
