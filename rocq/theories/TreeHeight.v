(** The free function height, and how far find walks. *)
From Coq Require Import Sorted.
From Verif Require Import Base Alloc AllocProofs VectorModel VectorSpec Adapter Hist.
From Verif Require Import TreeModel TreeSpec TreeBase TreeSets TreeRot TreeIns TreeZip TreeSwap TreeDel TreeErase TreeIter TreeObj TreeWorld TreeWSpec TreeHist TreeRefute.
Open Scope Z_scope.

(** height of a stored tree; it nests one call per level and one more. *)
Lemma height_ok {A} (t : atree A) : forall fl h f rt z par, linked h par t ->
  height_loop fl (rootp t) (TSt h f rt z) =
  if depth t <? Z.of_nat fl then Ok (depth t, TSt h f rt z) else Diverge.
Proof.
  induction t as [|l IHl a hh v r IHr]; intros fl h f rt z par H; (destruct fl as [|fl]; [cbn [height_loop]|cbn [height_loop rootp]]).
  - reflexivity.
  - cbn [depth]. destruct (Z.ltb_spec 0 (Z.of_nat (S fl))); [reflexivity|lia].
  - pose proof (depth_nonneg (Br l a hh v r)). destruct (Z.ltb_spec (depth (Br l a hh v r)) (Z.of_nat 0)); [lia|reflexivity].
  - destruct H as (Ha & Hl & Hr). cbn [depth]. rewrite (bind_ok _ _ _ _ _ (ld_left_ok _ _ _ _ _ _ Ha)). cbn [n_left].
    pose proof (IHl fl h f rt z _ Hl) as El. pose proof (IHr fl h f rt z _ Hr) as Er.
    destruct (Z.ltb_spec (depth l) (Z.of_nat fl)).
    + rewrite (bind_ok _ _ _ _ _ El), (bind_ok _ _ _ _ _ (ld_right_ok _ _ _ _ _ _ Ha)). cbn [n_right].
      destruct (Z.ltb_spec (depth r) (Z.of_nat fl)).
      * rewrite (bind_ok _ _ _ _ _ Er). unfold ret.
        destruct (Z.ltb_spec (Z.max (depth l) (depth r) + 1) (Z.of_nat (S fl))); [|lia].
        destruct (Z.ltb_spec (depth r) (depth l)); do 2 f_equal; lia.
      * rewrite (bind_diverge _ _ _ Er). destruct (Z.ltb_spec (Z.max (depth l) (depth r) + 1) (Z.of_nat (S fl))); [lia|reflexivity].
    + rewrite (bind_diverge _ _ _ El). destruct (Z.ltb_spec (Z.max (depth l) (depth r) + 1) (Z.of_nat (S fl))); [lia|reflexivity].
Qed.
Lemma height_top {A} (t : atree A) h f rt z par : linked h par t ->
  (forall fl, depth t < Z.of_nat fl -> height_loop fl (rootp t) (TSt h f rt z) = Ok (depth t, TSt h f rt z)) /\
  (forall fl, Z.of_nat fl <= depth t -> height_loop fl (rootp t) (TSt h f rt z) = Diverge) /\
  depth t <= Z.of_nat (length (elems t)).
Proof.
  intros H. split; [|split].
  - intros fl Hf. rewrite (height_ok _ _ _ _ _ _ _ H). destruct (Z.ltb_spec (depth t) (Z.of_nat fl)); [reflexivity|lia].
  - intros fl Hf. rewrite (height_ok _ _ _ _ _ _ _ H). destruct (Z.ltb_spec (depth t) (Z.of_nat fl)); [lia|reflexivity].
  - rewrite <- nodes_len. apply depth_nodes.
Qed.

Section Cost.
Context {A : Type} (cmp : A -> A -> bool) (Hc : swo cmp) (pol : policy) (Hso : sound pol) (Hgr : grants pol).

Lemma find_near x (t : atree A) : forall fl h f rt z par, linked h par t -> depth t < Z.of_nat fl ->
  find_loop cmp fl (rootp t) x (TSt h f rt z) = Ok (atF cmp x t, TSt h f rt z).
Proof.
  induction t as [|l IHl a hh v r IHr]; intros fl h f rt z par H Hfl;
    (destruct fl as [|fl]; [pose proof (depth_nonneg (A := A) Lf); cbn [depth] in *; try (pose proof (depth_nonneg l); pose proof (depth_nonneg r)); lia|]);
    cbn [find_loop rootp is_null atF].
  - reflexivity.
  - destruct H as (Ha & Hl & Hr). cbn [depth] in Hfl. erewrite bind_ok by hacc. cbn [n_val].
    destruct (cmp x v); [hgo; eapply IHl; [eassumption|lia]|]. destruct (cmp v x); [hgo; eapply IHr; [eassumption|lia]|]. reflexivity.
Qed.

(** After every history, find on a tree of n keys looks at no more nodes than
    its height, which is at most twice the logarithm of n+1. *)
Lemma find_cost ops rs s id l x : srun (ts_step cmp) ops ∅ = SVal (rs, s) -> s !! id = Some l -> exists n w w',
  mrun (t_step cmp) ops (tw_init pol) = Ok (rs, w) /\ (2 ^ n <= (length l + 1) * (length l + 1))%nat /\
  on id (r <- ld_root ;; p <- find_loop cmp (S n) r x ;; deref p) w = Ok (lookup_set cmp x l, w') /\
  t_step cmp (TFind id x) w = Ok (OOpt (lookup_set cmp x l), w').
Proof.
  intros E Hl. destruct (after cmp Hc pol Hso Hgr _ _ _ E) as (w & T & Ew & -> & H). destruct (at_id _ _ _ Hl) as (t & Ht & <-).
  pose proof (rt_wf _ _ _ _ H _ _ Ht) as W. pose proof (depth_nonneg t) as Hd.
  exists (Z.to_nat (depth t)), w. eexists. split; [exact Ew|].
  destruct (wf_avl _ _ _ _ W) as [_ Hb].
  split; [|split].
  - pose proof (fib_bound t Hb (Z.to_nat (depth t)) ltac:(lia)) as Hf. pose proof (fib_pow (Z.to_nat (depth t))). nia.
  - rewrite (on_at _ _ _ _ _ _ _ H Ht). erewrite bind_ok by reflexivity. cbn [t_root].
    rewrite (bind_ok _ _ _ _ _ (find_near x t (S (Z.to_nat (depth t))) _ _ _ _ _ (wf_linked _ _ _ _ W) ltac:(lia))).
    rewrite (deref_at cmp Hc _ _ _ _ W). reflexivity.
  - cbn [t_step]. erewrite bind_ok; [reflexivity|]. rewrite (on_at _ _ _ _ _ _ _ H Ht).
    rewrite (bind_ok _ _ _ _ _ (find_ok cmp x t _ _ _ (wf_nd _ _ _ _ W) (wf_linked _ _ _ _ W))), (deref_at cmp Hc _ _ _ _ W). reflexivity.
Qed.

(** The descent of push, likewise. *)
Lemma bind_cong {S X Y} (m m' : M S X) (k : X -> M S Y) s : m s = m' s -> bind m k s = bind m' k s.
Proof. unfold bind. intros ->. reflexivity. Qed.
Lemma insert_near x (t : atree A) : forall fl1 fl2 h f rt z p0 par, linked h p0 t ->
  depth t < Z.of_nat fl1 -> depth t < Z.of_nat fl2 ->
  avl_insert cmp fl1 (rootp t) x par (TSt h f rt z) = avl_insert cmp fl2 (rootp t) x par (TSt h f rt z).
Proof.
  induction t as [|l IHl a hh v r IHr]; intros fl1 fl2 h f rt z p0 par H H1 H2; pose proof (depth_nonneg (A := A) Lf).
  - cbn [depth] in *. destruct fl1 as [|fl1]; [lia|]. destruct fl2 as [|fl2]; [lia|]. reflexivity.
  - cbn [depth] in *. pose proof (depth_nonneg l). pose proof (depth_nonneg r).
    destruct fl1 as [|fl1]; [lia|]. destruct fl2 as [|fl2]; [lia|]. destruct H as (Ha & Hl & Hr).
    cbn [avl_insert rootp is_null]. apply bind_cong. rewrite !(bind_ok _ _ _ _ _ (ld_val_ok _ _ _ _ _ _ Ha)). cbn [n_val].
    destruct (cmp x v); [|destruct (cmp v x); [|reflexivity]].
    + rewrite !(bind_ok _ _ _ _ _ (ld_left_ok _ _ _ _ _ _ Ha)). cbn [n_left]. apply bind_cong. eapply IHl; [exact Hl|lia|lia].
    + rewrite !(bind_ok _ _ _ _ _ (ld_right_ok _ _ _ _ _ _ Ha)). cbn [n_right]. apply bind_cong. eapply IHr; [exact Hr|lia|lia].
Qed.
Lemma push_cost ops rs s (id : nat) (l : list A) (x : A) : srun (ts_step cmp) ops ∅ = SVal (rs, s) -> s !! id = Some l -> exists n w,
  mrun (t_step cmp) ops (tw_init pol) = Ok (rs, w) /\ (2 ^ n <= (length l + 1) * (length l + 1))%nat /\
  on id (r <- ld_root ;; r' <- avl_insert cmp (S n) r x None ;; update_root r' ;;; k <- ld_size ;; st_size (k + 1)) w = on id (avl_push cmp x) w /\
  on id (avl_push cmp x) w <> Diverge.
Proof.
  intros E Hl. destruct (after cmp Hc pol Hso Hgr _ _ _ E) as (w & T & Ew & -> & H). destruct (at_id _ _ _ Hl) as (t & Ht & <-).
  pose proof (rt_wf _ _ _ _ H _ _ Ht) as W. pose proof (depth_nonneg t) as Hd.
  exists (Z.to_nat (depth t)), w. split; [exact Ew|]. destruct (wf_avl _ _ _ _ W) as [_ Hb].
  split; [|split].
  - pose proof (fib_bound t Hb (Z.to_nat (depth t)) ltac:(lia)) as Hf. pose proof (fib_pow (Z.to_nat (depth t))). nia.
  - rewrite !(on_at _ _ _ _ _ _ _ H Ht). unfold avl_push.
    set (st := TSt (tw_heap w) (tw_al w) (rootp t) (Z.of_nat (nodes t))).
    assert ((r <- ld_root ;; r' <- avl_insert cmp (S (Z.to_nat (depth t))) r x None ;; update_root r' ;;; k <- ld_size ;; st_size (k + 1)) st =
            (r <- ld_root ;; f <- fuel ;; r' <- avl_insert cmp f r x None ;; update_root r' ;;; k <- ld_size ;; st_size (k + 1)) st) as ->; [|reflexivity].
    erewrite bind_ok by reflexivity. erewrite (bind_ok ld_root) by reflexivity. erewrite (bind_ok fuel) by reflexivity.
    apply bind_cong. unfold st. cbn [t_root t_heap]. pose proof (nodes_size _ _ _ (wf_nd _ _ _ _ W) (wf_linked _ _ _ _ W)). pose proof (depth_nodes t).
    eapply insert_near; [apply W|lia|lia].
  - rewrite (on_at _ _ _ _ _ _ _ H Ht). pose proof (push_ok cmp Hc _ _ (Z.of_nat (nodes t)) t x W) as P.
    destruct (lookup_set cmp x (elems t)); [rewrite P; discriminate|]. destruct (al_pick (tw_al w)); [|rewrite P; discriminate]. destruct P as (h' & t' & -> & _). discriminate.
Qed.
(** The descent of pop. *)
Lemma bind_stays {S X Y} (m m' : M S X) (k k' : X -> M S Y) s :
  (m s <> Diverge -> m' s = m s) -> (forall x s', m s = Ok (x, s') -> k x s' <> Diverge -> k' x s' = k x s') -> bind m k s <> Diverge -> bind m' k' s = bind m k s.
Proof. unfold bind. intros Hm Hk H. destruct (m s) as [[x s']| | |]; try (rewrite Hm by congruence; reflexivity). rewrite Hm by congruence. apply Hk; [reflexivity|exact H]. Qed.
Lemma delete_stays x f1 : forall f2 root (s : tst A), (f1 <= f2)%nat -> avl_delete cmp f1 root x s <> Diverge -> avl_delete cmp f2 root x s = avl_delete cmp f1 root x s.
Proof.
  induction f1 as [|f1 IH]; intros f2 root s Hf; [cbn [avl_delete]; unfold diverge; congruence|]. destruct f2 as [|f2]; [lia|]. cbn [avl_delete]. apply bind_stays; [reflexivity|]. intros v s1 _.
  assert (Hrec : forall (q : option nat) (s : tst A), avl_delete cmp f1 q x s <> Diverge -> avl_delete cmp f2 q x s = avl_delete cmp f1 q x s) by (intros q s0; apply IH; lia).
  destruct (cmp x v).
  - apply bind_stays; [reflexivity|]. intros q s2 _. apply bind_stays; [apply Hrec|reflexivity].
  - destruct (cmp v x).
    + apply bind_stays; [reflexivity|]. intros q s2 _. apply bind_stays; [apply Hrec|reflexivity].
    + apply bind_stays; [reflexivity|]. intros q s2 _. apply bind_stays; [reflexivity|]. intros q2 s3 _. destruct (negb (is_null q) && negb (is_null q2)); [|reflexivity].
      apply bind_stays; [reflexivity|]. intros tg s4 _. apply bind_stays; [reflexivity|]. intros ab s5 _. cbv zeta. apply bind_stays; [reflexivity|]. intros q3 s6 _. apply bind_stays; [apply Hrec|reflexivity].
Qed.
Lemma pop_cost ops rs s (id : nat) (l : list A) (x : A) : srun (ts_step cmp) ops ∅ = SVal (rs, s) -> s !! id = Some l -> exists n w,
  mrun (t_step cmp) ops (tw_init pol) = Ok (rs, w) /\ (2 ^ n <= (length l + 1) * (length l + 1))%nat /\
  on id (k <- ld_size ;; if k =? 0 then ret tt else r <- ld_root ;; r' <- avl_delete cmp (S n) r x ;; r <- ld_root ;; when (negb (ptr_eqb r r')) (update_root r')) w = on id (avl_pop cmp x) w /\
  on id (avl_pop cmp x) w <> Diverge.
Proof.
  intros E Hl. destruct (after cmp Hc pol Hso Hgr _ _ _ E) as (w & T & Ew & -> & H). destruct (at_id _ _ _ Hl) as (t & Ht & <-).
  pose proof (rt_wf _ _ _ _ H _ _ Ht) as W. pose proof (depth_nonneg t) as Hd.
  exists (Z.to_nat (depth t)), w. split; [exact Ew|]. destruct (wf_avl _ _ _ _ W) as [_ Hb].
  split; [|split].
  - pose proof (fib_bound t Hb (Z.to_nat (depth t)) ltac:(lia)) as Hf. pose proof (fib_pow (Z.to_nat (depth t))). nia.
  - rewrite !(on_at _ _ _ _ _ _ _ H Ht). unfold avl_pop.
    set (st := TSt (tw_heap w) (tw_al w) (rootp t) (Z.of_nat (nodes t))).
    assert ((k <- ld_size ;; if k =? 0 then ret tt else r <- ld_root ;; r' <- avl_delete cmp (S (Z.to_nat (depth t))) r x ;; r <- ld_root ;; when (negb (ptr_eqb r r')) (update_root r')) st =
            (n <- ld_size ;; if n =? 0 then ret tt else r <- ld_root ;; f <- fuel ;; r' <- avl_delete cmp f r x ;; r <- ld_root ;; when (negb (ptr_eqb r r')) (update_root r')) st) as ->; [|reflexivity].
    erewrite bind_ok by reflexivity. erewrite (bind_ok ld_size) by reflexivity. destruct (t_size st =? 0); [reflexivity|].
    erewrite bind_ok by reflexivity. erewrite (bind_ok ld_root) by reflexivity. erewrite (bind_ok fuel) by reflexivity.
    apply bind_cong. unfold st. cbn [t_root t_heap]. pose proof (nodes_size _ _ _ (wf_nd _ _ _ _ W) (wf_linked _ _ _ _ W)). pose proof (depth_nodes t).
    symmetry. apply delete_stays; [lia|]. pose proof (avl_delete_ok cmp Hc x (S (Z.to_nat (depth t))) t (tw_heap w) (tw_al w) (rootp t) (Z.of_nat (nodes t)) None (wf_nd _ _ _ _ W) (wf_linked _ _ _ _ W) (wf_avl _ _ _ _ W) (wf_asc _ _ _ _ W) ltac:(lia) ltac:(discriminate)) as P.
    destruct (atF cmp x t); [destruct P as (h' & rt' & -> & _)|rewrite P]; discriminate.
  - rewrite (on_at _ _ _ _ _ _ _ H Ht). destruct (Z.eq_dec (Z.of_nat (nodes t)) 0) as [E0|E0].
    + unfold avl_pop. erewrite bind_ok by reflexivity. cbn [t_size]. rewrite E0. discriminate.
    + pose proof (pop_full cmp Hc _ _ (Z.of_nat (nodes t)) t x W E0) as P.
      destruct (lookup_set cmp x (elems t)); [destruct P as (h' & t' & b & -> & _)|rewrite P]; discriminate.
Qed.
End Cost.
