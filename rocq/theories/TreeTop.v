(** The remaining tree statements, in the form used by the property file. *)
From Coq Require Import Sorted.
From Verif Require Import Base VectorModel VectorSpec Adapter Hist.
From Verif Require Import TreeModel TreeSpec TreeBase TreeSets TreeRot TreeIns TreeZip TreeSwap TreeDel TreeErase TreeIter TreeObj TreeWorld TreeWSpec TreeHist TreeRefute TreePost.

(** Iterating stored trees. *)
Lemma top_iterate {A} (t : atree A) h f z : t <> Lf -> nd t -> linked h None t ->
  bt_iterate InOrder (TSt h f (rootp t) z) = Ok (elems t, TSt h f (rootp t) z) /\
  bt_iterate PreOrder (TSt h f (rootp t) z) = Ok (pre t, TSt h f (rootp t) z) /\
  (forall o, avl_iterate o (TSt h f (rootp t) z) = Ok (elems t, TSt h f (rootp t) z)).
Proof.
  intros Ht Hn Hl. split; [apply iterate_in_ok; assumption|]. split; [apply iterate_pre_ok; assumption|].
  intros o. apply (iterate_in_ok t h f z Ht Hn Hl).
Qed.
(** Traversing stored trees. *)
Lemma top_traverse {A} (t : atree A) h f z : nd t -> linked h None t ->
  bt_traversal PreOrder (TSt h f (rootp t) z) = Ok (pre t, TSt h f (rootp t) z) /\
  (forall a hh x r, t = Br Lf a hh x r -> bt_traversal InOrder (TSt h f (rootp t) z) = Ok (elems t, TSt h f (rootp t) z) /\
     bt_traversal PostOrder (TSt h f (rootp t) z) = Ok (post t, TSt h f (rootp t) z)) /\
  (forall l a hh x r, t = Br l a hh x r -> l <> Lf -> forall o, o <> PreOrder ->
     exists xs, bt_traversal o (TSt h f (rootp t) z) = Ok (xs, TSt h f (rootp t) z) /\ (length xs < nodes t)%nat).
Proof.
  intros Hn Hl. split; [apply (traversal_ok PreOrder); auto|]. split.
  - intros a hh x r E. assert (t <> Lf) as Ht by (intros ->; discriminate).
    rewrite (traversal_ok InOrder t h f z (or_intror Ht) Hn Hl), (traversal_ok PostOrder t h f z (or_intror Ht) Hn Hl). rewrite E. auto.
  - intros l a hh x r E Hnl o Ho. assert (t <> Lf) as Ht by (intros ->; discriminate).
    rewrite (traversal_ok o t h f z (or_intror Ht) Hn Hl). eexists. split; [reflexivity|].
    assert ((length (ord o (lowest t)) < nodes t)%nat) as Hlt.
    { rewrite length_ord, length_elems. destruct (lowest_zip t Ht) as (C & b & hb & y & r2 & E1 & _ & E2 & _).
      assert ((nodes (lowest t) <= nodes t)%nat) as Hle.
      { rewrite E2. pose proof (length_nodes C (Br Lf b hb y r2)) as P. rewrite <- E1 in P. lia. }
      destruct (Nat.eq_dec (nodes (lowest t)) (nodes t)) as [Eq|]; [|lia].
      pose proof (lowest_all t Eq) as Hall. rewrite E in Hall. congruence. }
    destruct o; [congruence|exact Hlt|exact Hlt].
Qed.
(** Clearing and destroying stored trees. *)
Lemma top_clear {A} (t : atree A) h f z : nd t -> linked h None t -> exists h' f',
  bt_clear (TSt h f (rootp t) z) = Ok (tt, TSt h' f' None 0%Z) /\
  bt_destroy (TSt h f (rootp t) z) = Ok (tt, TSt h' f' None 0%Z) /\
  (forall k, cnt k t = 1%nat -> is_Some (h !! k) /\ h' !! k = None) /\ (forall k, cnt k t = 0%nat -> h' !! k = h !! k).
Proof.
  intros Hn Hl. exists (remove_tree h t), (gaves t f). split; [apply clear_ok; assumption|]. split; [apply clear_ok; assumption|].
  split; intros k Hk; rewrite lookup_remove_tree.
  - split; [eapply linked_in; [exact Hl|lia]|]. destruct (decide _); [lia|reflexivity].
  - destruct (decide _); [reflexivity|lia].
Qed.
(** Finding in stored search trees. *)
Lemma top_find {A} (cmp : A -> A -> bool) (t : atree A) h f z x : swo cmp -> nd t -> linked h None t -> ascending cmp (elems t) ->
  match lookup_set cmp x (elems t) with
  | None => bt_find cmp x (TSt h f (rootp t) z) = Ok (None, TSt h f (rootp t) z)
  | Some v => exists a n, bt_find cmp x (TSt h f (rootp t) z) = Ok (Some a, TSt h f (rootp t) z) /\ cnt a t = 1%nat /\ h !! a = Some n /\ n_val n = v
  end.
Proof.
  intros Hc Hn Hl Hs. pose proof (find_ok cmp x t h f z Hn Hl) as E. pose proof (atF_lookup cmp Hc x t h None Hs Hl) as P.
  destruct (lookup_set cmp x (elems t)) as [v|]; [|rewrite <- P; exact E].
  destruct P as (a & n & Ea & H1 & H2 & H3). exists a, n. rewrite Ea in E. split; [exact E|]. specialize (Hn a). split; [lia|auto].
Qed.
(** A tree with distinct elements, iterated from begin(PostOrder). *)
Lemma top_post {A} (t : atree A) h f z : t <> Lf -> nd t -> linked h None t -> NoDup (elems t) -> exists l : list A,
  bt_iterate PostOrder (TSt h f (rootp t) z) = Ok (l, TSt h f (rootp t) z) /\ sublist l (elems t) /\
  (l = post t <-> (forall C l0 a hh x r, t = plug C (Br l0 a hh x r) -> r = Lf)).
Proof.
  intros Ht Hn Hl Hd. destruct (iterate_post t h f z Ht Hn Hl Hd) as (l & E & Hs & Hiff). exists l. split; [exact E|]. split; [exact Hs|].
  rewrite Hiff. clear. split.
  - intros H C. revert t H. induction C as [|F C IH] using rev_ind; intros t H l0 a hh x r ->; [apply H|].
    rewrite plug_app in H. cbn [plug] in H. destruct F as [b hb y rb|lb b hb y]; cbn [fill1 left_only] in H.
    + destruct H as [_ H]. eapply IH; [exact H|reflexivity].
    + destruct H as [H _]. exfalso. assert (forall t0 : atree A, plug C t0 = Lf -> t0 = Lf) as Hp.
      { clear. induction C as [|F C IH]; intros t0 E; [exact E|]. cbn [plug] in E. apply IH in E. destruct F; discriminate. }
      apply Hp in H. discriminate.
  - induction t as [|l0 IH a hh x r _]; [exact (fun _ => I)|]. intros H. split; [apply (H [] l0 a hh x r eq_refl)|].
    apply IH. intros C l1 b hb y r1 ->. apply (H (C ++ [FL a hh x r]) l1 b hb y r1). rewrite plug_app. reflexivity.
Qed.
