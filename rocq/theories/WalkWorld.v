(** Rounds of whole iterations after every history. *)
From Coq Require Import Sorted.
From Verif Require Import Base Alloc AllocProofs VectorModel VectorSpec Adapter Hist.
From Verif Require Import TreeModel TreeSpec TreeBase TreeIter TreeObj TreeWorld TreeWSpec TreeHist TreeRefute TreeHeight WalkModel WalkProofs.
From Verif Require BstWorld BstSpec BstObj BstHist.
From Verif Require Import WalkSpec.
Local Open Scope nat_scope.

Section AVL.
Context {A : Type} (cmp : A -> A -> bool) (Hc : swo cmp) (pol : policy) (Hso : sound pol) (Hgr : grants pol).

Lemma avl_rounds ops rs s id l : srun (ts_step cmp) ops ∅ = SVal (rs, s) -> s !! id = Some l -> l <> [] -> exists n d0 ds w w',
  mrun (t_step cmp) ops (tw_init pol) = Ok (rs, w) /\ 2 ^ n <= (length l + 1) * (length l + 1) /\
  d0 + list_sum ds = 2 * length l /\ length ds = length l /\ Forall (fun d => d <= n) (d0 :: ds) /\
  on id (walk_all InOrder d0 ds) w = Ok (l, w') /\ t_step cmp (TIter id) w = Ok (OList l, w').
Proof.
  intros E Hl Hne. destruct (after cmp Hc pol Hso Hgr _ _ _ E) as (w & T & Ew & -> & H). destruct (at_id _ _ _ Hl) as (t & Ht & <-).
  pose proof (rt_wf _ _ _ _ H _ _ Ht) as W. pose proof (depth_nonneg t) as Hd. destruct (wf_avl _ _ _ _ W) as [_ Hb].
  assert (t <> Lf) as Hnl by (intros ->; apply Hne; reflexivity).
  destruct (inorder_rounds t (tw_heap w) (tw_al w) (Z.of_nat (nodes t)) Hnl (wf_nd _ _ _ _ W) (wf_linked _ _ _ _ W)) as (d0 & ds & S & L & B & R).
  exists (Z.to_nat (depth t)), d0, ds, w. eexists. split; [exact Ew|]. split; [|split; [exact S|split; [exact L|split; [|split]]]].
  - pose proof (fib_bound t Hb (Z.to_nat (depth t)) ltac:(lia)) as Hf. pose proof (fib_pow (Z.to_nat (depth t))). nia.
  - eapply Forall_impl; [exact B|]. intros d Hle. cbn beta in Hle. lia.
  - rewrite (on_at _ _ _ _ _ _ _ H Ht). destruct (R d0 ds) as [R1 _]. rewrite firstn_all2 in R1 by lia.
    rewrite R1 by (clear; induction (d0 :: ds); constructor; auto). reflexivity.
  - cbn [t_step]. erewrite bind_ok; [reflexivity|]. rewrite (on_at _ _ _ _ _ _ _ H Ht).
    change (avl_iterate InOrder) with (bt_iterate (A := A) InOrder). rewrite (iterate_in_ok t _ _ _ Hnl (wf_nd _ _ _ _ W) (wf_linked _ _ _ _ W)). reflexivity.
Qed.
End AVL.

Section BST.
Import BstWorld BstSpec BstObj BstHist.
Local Open Scope nat_scope.
Context {A : Type} (cmp : A -> A -> bool) (Hc : swo cmp) (pol : policy) (Hso : sound pol) (Hgr : grants pol).

Lemma levels_shape (t : atree A) : Z.of_nat (levels (shape t)) = depth t.
Proof. induction t as [|l IHl a hh x r IHr]; cbn [shape levels depth]; [reflexivity|]. lia. Qed.
Lemma levels_bound (t : bt A) : levels t <= length (inorder t).
Proof. induction t as [|l IHl x r IHr]; cbn [levels inorder]; [lia|]. rewrite app_length. cbn [length]. lia. Qed.
Lemma bst_rounds ops rs s id (t : bt A) : srun (bs_step cmp) ops ∅ = SVal (rs, s) -> s !! id = Some t -> t <> BE -> exists d0 ds w w',
  mrun (b_step cmp) ops (tw_init pol) = Ok (rs, w) /\
  d0 + list_sum ds = 2 * length (inorder t) /\ length ds = length (inorder t) /\ Forall (fun d => d <= levels t) (d0 :: ds) /\
  on id (walk_all InOrder d0 ds) w = Ok (inorder t, w') /\ b_step cmp (BIter id InOrder) w = Ok (OList (inorder t), w').
Proof.
  intros E Hl Hne. destruct (b_after cmp Hc pol _ _ _ Hso Hgr E) as (w & T & Ew & -> & H).
  rewrite lookup_fmap in Hl. destruct (T !! id) as [u|] eqn:Ht; [|discriminate]. cbn in Hl. injection Hl as <-.
  pose proof (rb_wf _ _ _ _ H _ _ Ht) as W. assert (u <> Lf) as Hnl by (intros ->; apply Hne; reflexivity). rewrite inorder_shape.
  destruct (inorder_rounds u (tw_heap w) (tw_al w) (Z.of_nat (nodes u)) Hnl (bwf_nd _ _ _ _ W) (bwf_linked _ _ _ _ W)) as (d0 & ds & S & L & B & R).
  exists d0, ds, w. eexists. split; [exact Ew|]. split; [exact S|split; [exact L|split; [|split]]].
  - eapply Forall_impl; [exact B|]. intros d Hle. cbn beta in Hle. rewrite <- levels_shape in Hle. lia.
  - rewrite (BstHist.on_at cmp pol _ _ _ _ _ H Ht). destruct (R d0 ds) as [R1 _]. rewrite firstn_all2 in R1 by lia.
    rewrite R1 by (clear; induction (d0 :: ds); constructor; auto). reflexivity.
  - cbn [b_step]. erewrite bind_ok; [reflexivity|]. rewrite (BstHist.on_at cmp pol _ _ _ _ _ H Ht).
    rewrite (iterate_in_ok u _ _ _ Hnl (bwf_nd _ _ _ _ W) (bwf_linked _ _ _ _ W)). reflexivity.
Qed.
Lemma bst_rounds_pre ops rs s id (t : bt A) : srun (bs_step cmp) ops ∅ = SVal (rs, s) -> s !! id = Some t -> exists ds w w',
  mrun (b_step cmp) ops (tw_init pol) = Ok (rs, w) /\
  list_sum ds = length (inorder t) /\ length ds = length (inorder t) /\ Forall (fun d => d <= levels t) ds /\
  on id (walk_all PreOrder 0 ds) w = Ok (preorder t, w') /\ b_step cmp (BIter id PreOrder) w = Ok (OList (preorder t), w').
Proof.
  intros E Hl. destruct (b_after cmp Hc pol _ _ _ Hso Hgr E) as (w & T & Ew & -> & H).
  rewrite lookup_fmap in Hl. destruct (T !! id) as [u|] eqn:Ht; [|discriminate]. cbn in Hl. injection Hl as <-.
  pose proof (rb_wf _ _ _ _ H _ _ Ht) as W. rewrite inorder_shape, preorder_shape.
  destruct (preorder_rounds u (tw_heap w) (tw_al w) (Z.of_nat (nodes u)) (bwf_nd _ _ _ _ W) (bwf_linked _ _ _ _ W)) as (ds & S & L & B & R).
  exists ds, w. eexists. split; [exact Ew|]. split; [exact S|split; [exact L|split; [|split]]].
  - eapply Forall_impl; [exact B|]. intros d Hle. cbn beta in Hle. rewrite <- levels_shape in Hle. lia.
  - rewrite (BstHist.on_at cmp pol _ _ _ _ _ H Ht). destruct (R 0 ds) as [R1 _]. rewrite firstn_all2 in R1 by lia.
    rewrite R1 by (clear; induction ds; constructor; auto). reflexivity.
  - cbn [b_step]. erewrite bind_ok; [reflexivity|]. rewrite (BstHist.on_at cmp pol _ _ _ _ _ H Ht).
    rewrite (iterate_pre_ok u _ _ _ (bwf_nd _ _ _ _ W) (bwf_linked _ _ _ _ W)). reflexivity.
Qed.
End BST.
