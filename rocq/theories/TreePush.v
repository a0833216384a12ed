(** Pushing any keys, no two equivalent, into a new AVLTree. *)
From Coq Require Import Sorted Permutation.
From Verif Require Import Base Alloc AllocProofs VectorModel VectorSpec VecProg VectorProofs VectorWorld VectorExtra Adapter Hist.
From Verif Require Import TreeModel TreeSpec TreeBase TreeSets TreeRot TreeIns TreeZip TreeSwap TreeDel TreeErase TreeIter TreeObj TreeWorld TreeWSpec TreeHist TreeRefute.
Open Scope Z_scope.

Section P.
Context {A : Type} (cmp : A -> A -> bool) (Hc : swo cmp) (pol : policy) (Hso : sound pol) (Hgr : grants pol).
Lemma add_perm x (l : list A) : Permutation (add_set cmp x l) (x :: l).
Proof.
  induction l as [|y l IH]; cbn [add_set]; [reflexivity|]. destruct (cmp x y); [reflexivity|].
  rewrite IH. apply Permutation_swap.
Qed.
Lemma srun_pushes xs : forall l s, s !! 0%nat = Some l -> ForallOrdPairs (fun a b => ~ equiv cmp a b) xs ->
  (forall x y, In x xs -> In y l -> ~ equiv cmp x y) ->
  exists l' s', srun (ts_step cmp) (map (TPush 0) xs) s = SVal (repeat OUnit (length xs), s') /\ s' !! 0%nat = Some l' /\ Permutation l' (xs ++ l).
Proof.
  induction xs as [|x xs IH]; intros l s Hl Hd Hx; cbn [map srun repeat length app].
  - exists l, s. auto.
  - inversion Hd as [|? ? Hd1 Hd2]; subst. cbn [ts_step]. unfold with_set. rewrite Hl.
    assert (lookup_set cmp x l = None) as -> by (apply lookup_none; intros y Hy; apply Hx; [left; reflexivity|exact Hy]).
    destruct (IH (add_set cmp x l) (<[0%nat := add_set cmp x l]> s)) as (l' & s' & E & Hl' & P).
    + apply lookup_insert.
    + exact Hd2.
    + intros a b Ha Hb. apply in_add in Hb as [->|Hb].
      * rewrite Forall_forall in Hd1. intros He. apply (Hd1 a); [apply elem_of_list_In, Ha|]. apply equiv_sym, He.
      * apply Hx; [right; exact Ha|exact Hb].
    + exists l', s'. rewrite E. split; [reflexivity|]. split; [exact Hl'|]. rewrite P, add_perm. symmetry. apply Permutation_middle.
Qed.
Theorem push_all xs : ForallOrdPairs (fun a b => ~ equiv cmp a b) xs -> exists w t,
  mrun (t_step cmp) (TNew 0 :: map (TPush 0) xs) (tw_init pol) = Ok (OUnit :: repeat OUnit (length xs), w) /\
  linked (tw_heap w) None t /\ nd t /\ Permutation (elems t) xs /\ ascending cmp (elems t) /\ heights_ok t /\ balanced t /\
  tw_objs w !! 0%nat = Some (rootp t, Z.of_nat (length xs)) /\ size (tw_heap w) = length xs /\
  t_step cmp (THeight 0) w = Ok (OZ (depth t), w) /\ t_step cmp (TSize 0) w = Ok (OZ (Z.of_nat (length xs)), w).
Proof.
  intros Hd. destruct (srun_pushes xs [] {[0%nat := []]}) as (l & s & E & Hl & P); [apply lookup_singleton|exact Hd|intros ? ? _ []|].
  rewrite app_nil_r in P.
  assert (srun (ts_step cmp) (TNew 0 :: map (TPush 0) xs) ∅ = SVal (OUnit :: repeat OUnit (length xs), s)) as E1.
  { cbn [srun ts_step]. unfold no_set. rewrite lookup_empty, insert_empty, E. reflexivity. }
  destruct (t_shape cmp Hc pol Hso Hgr _ _ _ E1) as (w & T & Ew & -> & HT & _ & _). destruct (at_id _ _ _ Hl) as (t & Ht & Et).
  destruct (HT _ _ Ht) as (H1 & H2 & H3 & H4 & H5 & H6 & H7). exists w, t. rewrite Et in *.
  assert (length l = length xs) as El by (apply Permutation_length, P). rewrite El in H6.
  split_and!; try assumption.
  - pose proof (t_history cmp Hc pol (TNew 0 :: map (TPush 0) xs) Hso Hgr) as Hh. rewrite E1 in Hh. destruct Hh as (w' & Ew' & Hs).
    rewrite Ew in Ew'. injection Ew' as <-. rewrite Hs. unfold total.
    assert (forall i l', (elems <$> T) !! i = Some l' -> i = 0%nat) as Honly.
    { assert (forall ys s0 rs s1, srun (ts_step cmp) (map (TPush 0) ys) s0 = SVal (rs, s1) -> (forall i l', s0 !! i = Some l' -> i = 0%nat) ->
        forall i l', s1 !! i = Some l' -> i = 0%nat) as Hg.
      { induction ys as [|y ys IH]; intros s0 rs s1; cbn [map srun].
        - intros [= <- <-]. auto.
        - cbn [ts_step]. unfold with_set. destruct (s0 !! 0%nat) as [l0|]; [|discriminate]. destruct (lookup_set cmp y l0); [discriminate|].
          destruct (srun (ts_step cmp) (map (TPush 0) ys) _) as [[rs' s']| |] eqn:E3; try discriminate. intros [= <- <-] H0. eapply IH; [exact E3|].
          intros i l' Hi. apply lookup_insert_Some in Hi as [[<- _]|[_ Hi]]; [reflexivity|eapply H0, Hi]. }
      eapply Hg; [exact E|]. intros i l' Hi. apply lookup_singleton_Some in Hi as [<- _]. reflexivity. }
    assert (elems <$> T = {[0%nat := l]}) as ->.
    { apply map_eq. intros i. destruct ((elems <$> T) !! i) as [l'|] eqn:Ei.
      - pose proof (Honly _ _ Ei) as ->. rewrite lookup_singleton. congruence.
      - symmetry. apply lookup_singleton_None. intros <-. congruence. }
    rewrite map_to_list_singleton. cbn. rewrite app_nil_r. exact El.
  - cbn [t_step]. erewrite bind_ok; [reflexivity|]. unfold on. rewrite H6. cbn. rewrite insert_id by exact H6. destruct w; reflexivity.
Qed.
End P.
