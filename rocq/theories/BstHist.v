(** Every history over BinarySearchTree objects does what the specification says. *)
From Coq Require Import Sorted.
From Verif Require Import Base Alloc AllocProofs TreeAlloc VectorModel VectorSpec VecProg VectorProofs VectorWorld VectorExtra Adapter Hist.
From Verif Require Import TreeModel TreeSpec TreeBase TreeSets TreeZip TreeDel TreeErase TreeIter TreeObj TreeWorld TreeHist BstWorld BstSpec BstObj BstDel.
Open Scope Z_scope.

Section B.
Context {A : Type} (cmp : A -> A -> bool) (Hc : swo cmp) (pol : policy).
Notation tree := (atree A).
Implicit Types (h : gmap nat (node A)) (t l r : tree) (x : A) (w : tworld A) (T : gmap nat tree).

Lemma bclear_goes h f z t : bwf cmp h f t -> exists h' f', bt_clear (TSt h f (rootp t) z) = Ok (tt, TSt h' f' None 0) /\ bgoes cmp h f t h' f' Lf.
Proof.
  intros W. pose proof W as [Hl Hn Hs Hf]. exists (remove_tree h t), (gaves t f). split; [apply clear_ok; assumption|].
  destruct (alok_gaves t h f None Hn Hl Hf) as [Hf' Hp].
  split; [split|exact Hp| |].
  - exact I.
  - intros k. cbn. lia.
  - constructor.
  - exact Hf'.
  - intros k _. apply lookup_remove_tree.
  - intros k Hk. cbn in Hk. lia.
Qed.

Notation ob := (@ob A).
(** The world holds the trees [T]: well formed, apart from each other, and
    nothing else is allocated; the allocator is [pol]. *)
Record RB T w : Prop := Rb {
  rb_objs : tw_objs w = ob <$> T;
  rb_wf : forall id t, T !! id = Some t -> bwf cmp (tw_heap w) (tw_al w) t;
  rb_apart : forall i j t r k, i <> j -> T !! i = Some t -> T !! j = Some r -> (0 < cnt k t)%nat -> cnt k r = 0%nat;
  rb_all : forall k n, tw_heap w !! k = Some n -> exists i t, T !! i = Some t /\ (0 < cnt k t)%nat;
  rb_al : alok (tw_heap w) (tw_al w);
  rb_pol : al_pol (tw_al w) = pol }.
Definition RWB (s : gmap nat (bt A)) w : Prop := exists T, s = shape <$> T /\ RB T w.

Lemma RB_init : sound pol -> RB ∅ (tw_init pol).
Proof. intros Hp. split; cbn; [by rewrite fmap_empty|..]; try (intros; exfalso; rewrite lookup_empty in *; discriminate); [apply alok_init, Hp|reflexivity]. Qed.
Lemma RWB_init : sound pol -> RWB ∅ (tw_init pol).
Proof. intros Hp. exists ∅. split; [by rewrite fmap_empty|apply RB_init, Hp]. Qed.

Lemma RB_lookup T w id t : RB T w -> T !! id = Some t -> tw_objs w !! id = Some (rootp t, Z.of_nat (nodes t)).
Proof. intros H E. rewrite (rb_objs _ _ H), lookup_fmap, E. reflexivity. Qed.
Lemma RB_none T w id : RB T w -> T !! id = None -> tw_objs w !! id = None.
Proof. intros H E. rewrite (rb_objs _ _ H), lookup_fmap, E. reflexivity. Qed.

(** One object moved on. *)
Lemma RB_goes T w id t h' f' t' : RB T w -> T !! id = Some t -> bgoes cmp (tw_heap w) (tw_al w) t h' f' t' ->
  RB (<[id := t']> T) (TW h' f' (<[id := ob t']> (tw_objs w))).
Proof.
  intros [Ho Hw Hd Ha Hal Hpo] Ht [Gw Gl Go Gi].
  assert (forall i r k, i <> id -> T !! i = Some r -> (0 < cnt k r)%nat -> cnt k t' = 0%nat) as Hdis.
  { intros i r k Hi Hr Hk. destruct (cnt k t') eqn:E0; [reflexivity|exfalso].
    destruct (Gi k ltac:(lia)) as [H|H].
    - specialize (Hd i id r t k Hi Hr Ht Hk). lia.
    - destruct (bwf_some _ _ _ _ k (Hw i r Hr) Hk) as [? E1]. congruence. }
  assert (forall i r k, i <> id -> T !! i = Some r -> (0 < cnt k r)%nat -> h' !! k = tw_heap w !! k) as Hsame.
  { intros i r k Hi Hr Hk. rewrite Go by (eapply Hdis; eauto). destruct (decide _) as [|Hn]; [reflexivity|].
    exfalso. apply Hn. eapply (Hd i id); eauto. }
  split; cbn [tw_objs tw_heap tw_al].
  - rewrite fmap_insert, Ho. reflexivity.
  - intros i r Hr. destruct (decide (i = id)) as [->|Hi]; [rewrite lookup_insert in Hr; injection Hr as <-; exact Gw|].
    rewrite lookup_insert_ne in Hr by congruence. specialize (Hw i r Hr) as W. destruct W as [W1 W2 W3 W4]. split; auto.
    + apply (linked_same (tw_heap w)); [|exact W1]. intros k Hk. eapply Hsame; eauto. lia.
    + apply (bwf_al _ _ _ _ Gw).
  - intros i j r r2 k Hij Hr Hr2 Hk. destruct (decide (i = id)) as [->|Hi].
    + rewrite lookup_insert in Hr. injection Hr as <-. rewrite lookup_insert_ne in Hr2 by congruence.
      destruct (cnt k r2) eqn:E0; [reflexivity|]. specialize (Hdis j r2 k ltac:(congruence) Hr2 ltac:(lia)). lia.
    + rewrite lookup_insert_ne in Hr by congruence. destruct (decide (j = id)) as [->|Hj].
      * rewrite lookup_insert in Hr2. injection Hr2 as <-. eapply Hdis; eauto.
      * rewrite lookup_insert_ne in Hr2 by congruence. eapply (Hd i j); eauto.
  - intros k n Hk. destruct (cnt k t') eqn:E0.
    + rewrite Go in Hk by exact E0. destruct (decide _) as [E1|]; [|discriminate].
      destruct (Ha k n Hk) as (i & r & Hr & Hkr). exists i, r. split; [|exact Hkr].
      rewrite lookup_insert_ne; [exact Hr|]. intros <-. rewrite Ht in Hr. injection Hr as <-. lia.
    + exists id, t'. rewrite lookup_insert. split; [reflexivity|lia].
  - apply (bwf_al _ _ _ _ Gw).
  - congruence.
Qed.
(** An empty object added or removed. *)
Lemma RB_add T w id : RB T w -> T !! id = None -> RB (<[id := Lf]> T) (TW (tw_heap w) (tw_al w) (<[id := (None, 0)]> (tw_objs w))).
Proof.
  intros [Ho Hw Hd Ha Hal Hpo] Hi. split; cbn [tw_objs tw_heap tw_al].
  - rewrite fmap_insert, Ho. reflexivity.
  - intros i r Hr. destruct (decide (i = id)) as [->|Hn]; [|rewrite lookup_insert_ne in Hr by congruence; eauto].
    rewrite lookup_insert in Hr. injection Hr as <-. split; [exact I|intros k; cbn; lia|constructor|exact Hal].
  - intros i j r r2 k Hij Hr Hr2 Hk. destruct (decide (i = id)) as [->|Hn].
    + rewrite lookup_insert in Hr. injection Hr as <-. cbn in Hk. lia.
    + rewrite lookup_insert_ne in Hr by congruence. destruct (decide (j = id)) as [->|Hj].
      * rewrite lookup_insert in Hr2. injection Hr2 as <-. reflexivity.
      * rewrite lookup_insert_ne in Hr2 by congruence. eapply (Hd i j); eauto.
  - intros k n Hk. destruct (Ha k n Hk) as (i & r & Hr & Hkr). exists i, r. rewrite lookup_insert_ne by congruence. auto.
  - exact Hal.
  - exact Hpo.
Qed.
Lemma RB_del T w id : RB T w -> T !! id = Some Lf -> RB (delete id T) (TW (tw_heap w) (tw_al w) (delete id (tw_objs w))).
Proof.
  intros [Ho Hw Hd Ha Hal Hpo] Hi. split; cbn [tw_objs tw_heap tw_al].
  - rewrite fmap_delete, Ho. reflexivity.
  - intros i r Hr. apply lookup_delete_Some in Hr as [_ Hr]. eauto.
  - intros i j r r2 k Hij Hr Hr2. apply lookup_delete_Some in Hr as [_ Hr]. apply lookup_delete_Some in Hr2 as [_ Hr2]. eapply (Hd i j); eauto.
  - intros k n Hk. destruct (Ha k n Hk) as (i & r & Hr & Hkr). exists i, r. split; [|exact Hkr].
    apply lookup_delete_Some. split; [|exact Hr]. intros ->. rewrite Hi in Hr. injection Hr as <-. cbn in Hkr. lia.
  - exact Hal.
  - exact Hpo.
Qed.
(** Overwriting an object by itself. *)
Lemma RB_same T w id t : RB T w -> T !! id = Some t -> RB T (TW (tw_heap w) (tw_al w) (<[id := ob t]> (tw_objs w))).
Proof.
  intros H Ht. pose proof (RB_goes _ _ _ _ _ _ _ H Ht (bgoes_refl _ _ _ _ (rb_wf _ _ H _ _ Ht))) as H2.
  rewrite insert_id in H2 by exact Ht. exact H2.
Qed.

(** A method call on one object. *)
Lemma on_at {X} T w id t (m : M (tst A) X) : RB T w -> T !! id = Some t ->
  on id m w = match m (TSt (tw_heap w) (tw_al w) (rootp t) (Z.of_nat (nodes t))) with
              | Ok (x, s) => Ok (x, TW (t_heap s) (t_al s) (<[id := (t_root s, t_size s)]> (tw_objs w)))
              | Abort => Abort | UB => UB | Diverge => Diverge end.
Proof. intros H Ht. unfold on. rewrite (RB_lookup _ _ _ _ H Ht). reflexivity. Qed.
Lemma on_goes {X} T w id t (m : M (tst A) X) o h' f' t' : RB T w -> T !! id = Some t ->
  m (TSt (tw_heap w) (tw_al w) (rootp t) (Z.of_nat (nodes t))) = Ok (o, TSt h' f' (rootp t') (Z.of_nat (nodes t'))) ->
  bgoes cmp (tw_heap w) (tw_al w) t h' f' t' ->
  exists w', on id m w = Ok (o, w') /\ RB (<[id := t']> T) w'.
Proof.
  intros H Ht E G. rewrite (on_at _ _ _ _ _ H Ht), E. eexists. split; [reflexivity|]. exact (RB_goes _ _ _ _ _ _ _ H Ht G).
Qed.
Lemma on_query {X} T w id t (m : M (tst A) X) o : RB T w -> T !! id = Some t ->
  (let s := TSt (tw_heap w) (tw_al w) (rootp t) (Z.of_nat (nodes t)) in m s = Ok (o, s)) ->
  exists w', on id m w = Ok (o, w') /\ RB T w'.
Proof.
  intros H Ht E. rewrite (on_at _ _ _ _ _ H Ht), E. eexists. split; [reflexivity|]. apply (RB_same _ _ _ _ H Ht).
Qed.
(** The calls. *)
Lemma w_new T w id : RB T w -> T !! id = None -> exists w', tw_new id w = Ok (tt, w') /\ RB (<[id := Lf]> T) w'.
Proof.
  intros H Hi. unfold tw_new. rewrite (RB_none _ _ _ H Hi). unfold on. cbn [tw_objs tw_heap tw_al]. rewrite lookup_insert.
  cbn. eexists. split; [reflexivity|]. rewrite insert_insert. apply RB_add; assumption.
Qed.
Lemma w_clear T w id t : RB T w -> T !! id = Some t -> exists w', on id bt_clear w = Ok (tt, w') /\ RB (<[id := Lf]> T) w'.
Proof.
  intros H Ht. destruct (bclear_goes _ _ (Z.of_nat (nodes t)) t (rb_wf _ _ H _ _ Ht)) as (h' & f' & E & G).
  exact (on_goes _ _ _ _ _ _ _ _ Lf H Ht E G).
Qed.
Lemma w_destroy T w id t : RB T w -> T !! id = Some t -> exists w', tw_destroy id w = Ok (tt, w') /\ RB (delete id T) w'.
Proof.
  intros H Ht. destruct (w_clear _ _ _ _ H Ht) as (w1 & E & H1). unfold tw_destroy.
  change bt_destroy with (@bt_clear A). rewrite (bind_ok _ _ _ _ _ E). eexists. split; [reflexivity|].
  pose proof (RB_del _ _ id H1 (lookup_insert _ _ _)) as H2. rewrite delete_insert_delete in H2. exact H2.
Qed.
Lemma nodes_ins x f t : nodes (insB cmp x f t) = S (nodes t).
Proof. induction t as [|l IHl a hh v r IHr]; [reflexivity|]. cbn [insB]. destruct (cmp x v); cbn [nodes]; lia. Qed.
Lemma w_push T w id t x : RB T w -> T !! id = Some t -> lookup_set cmp x (elems t) = None ->
  match al_pick (tw_al w) with
  | Some a => exists w', on id (bst_push cmp x) w = Ok (tt, w') /\ RB (<[id := insB cmp x a t]> T) w'
  | None => on id (bst_push cmp x) w = Abort
  end.
Proof.
  intros H Ht Hx. destruct (al_pick (tw_al w)) as [a|] eqn:Ep.
  - destruct (push_new cmp Hc _ _ a (Z.of_nat (nodes t)) _ x (rb_wf _ _ H _ _ Ht) Hx Ep) as (h' & E & G).
    replace (Z.of_nat (nodes t) + 1) with (Z.of_nat (nodes (insB cmp x a t))) in E by (rewrite nodes_ins; lia).
    exact (on_goes _ _ _ _ _ _ _ _ _ H Ht E G).
  - rewrite (on_at _ _ _ _ _ H Ht), (push_refused cmp Hc _ _ _ _ _ (rb_wf _ _ H _ _ Ht) Hx Ep). reflexivity.
Qed.
Lemma on_bind {X Y} T w id t (m : M (tst A) X) (k : X -> M (tst A) Y) e w1 : RB T w -> T !! id = Some t -> on id m w = Ok (e, w1) ->
  on id (bind m k) w = on id (k e) w1.
Proof.
  intros H Ht. rewrite !(on_at _ _ _ _ _ H Ht). unfold bind. destruct (m _) as [[x' [h f rt z]]| | |]; intros [= -> <-].
  unfold on. cbn [tw_objs tw_heap tw_al t_heap t_al t_root t_size]. rewrite lookup_insert.
  destruct (k e _) as [[y s]| | |]; [rewrite insert_insert|..]; reflexivity.
Qed.
Lemma flat_shape (L : list (nat * tree)) : (prod_map id shape <$> L) ≫= (fun p => inorder (snd p)) = ((fun p => (fst p, elems (snd p))) <$> L) ≫= snd.
Proof. induction L as [|[i t] L IH]; [reflexivity|]. cbn [fmap list_fmap mbind list_bind prod_map fst snd] in *. rewrite inorder_shape. f_equal. exact IH. Qed.
Lemma heap_count T w : RB T w -> size (tw_heap w) = btotal (shape <$> T).
Proof.
  intros [Ho Hw Hd Ha _ _]. unfold btotal. rewrite map_to_list_fmap.
  destruct (addrs_all (map_to_list T)) as [E1 E2].
  - apply NoDup_fst_map_to_list.
  - intros i t Ht. apply elem_of_map_to_list in Ht. apply (bwf_nd _ _ _ _ (Hw _ _ Ht)).
  - intros i j t r k Hij Ht Hr. apply elem_of_map_to_list in Ht, Hr. eapply (Hd i j); eauto.
  - rewrite <- size_dom. transitivity (length (map_to_list T ≫= fun p => addrs (snd p))).
    + rewrite <- (size_list_to_set (C := gset nat)) by exact E1. f_equal. apply set_eq. intros k.
      rewrite elem_of_dom, elem_of_list_to_set, elem_of_list_bind. split.
      * intros [n Hn]. destruct (Ha k n Hn) as (i & t & Ht & Hk). exists (i, t). split; [apply addrs_cnt, Hk|apply elem_of_map_to_list, Ht].
      * intros ([i t] & Hk & Ht). apply elem_of_map_to_list in Ht. apply addrs_cnt in Hk. exact (linked_in _ _ _ _ (bwf_linked _ _ _ _ (Hw _ _ Ht)) Hk).
    + rewrite E2. rewrite flat_shape. reflexivity.
Qed.

Lemma btotal_put (S : gmap nat (bt A)) id s : btotal (<[id := s]> S) = (length (inorder s) + btotal (delete id S))%nat.
Proof.
  unfold btotal. rewrite <- insert_delete_insert, map_to_list_insert by apply lookup_delete. cbn [mbind list_bind snd]. apply app_length.
Qed.
(** A refused request: the tree would have had one more node. *)
Lemma ins_refused T w id t s : RB T w -> T !! id = Some t -> al_pick (tw_al w) = None -> (length (elems t) < length (inorder s))%nat ->
  refuses pol (btotal (<[id := s]> (shape <$> T))).
Proof.
  intros H Ht Ep Hl. pose proof (alok_refuses _ _ (rb_al _ _ H) Ep) as Hr. rewrite (rb_pol _ _ H), (heap_count _ _ H) in Hr.
  eapply refuses_mono; [exact Hr|]. rewrite <- (insert_id (shape <$> T) id (shape t)) at 1 by (rewrite lookup_fmap, Ht; reflexivity).
  rewrite !btotal_put, inorder_shape. lia.
Qed.
Lemma length_bins x (t : bt A) : length (inorder (bins cmp x t)) = S (length (inorder t)).
Proof. induction t as [|l IHl v r IHr]; [reflexivity|]. cbn [bins]. destruct (cmp x v); cbn [inorder]; rewrite !app_length; cbn [length]; lia. Qed.
Lemma length_bins_all xs : forall t s : bt A, bins_all cmp xs t = Some s -> length (inorder s) = (length xs + length (inorder t))%nat.
Proof.
  induction xs as [|x xs IH]; intros t s; cbn [bins_all]; [intros [= <-]; reflexivity|].
  destruct (lookup_set cmp x (inorder t)); [discriminate|]. intros E. rewrite (IH _ _ E), length_bins. cbn [length]. lia.
Qed.
Lemma w_push_all xs : forall T w id t s, RB T w -> T !! id = Some t -> bins_all cmp xs (shape t) = Some s ->
  (exists w' t', on id (bst_push_all cmp xs) w = Ok (tt, w') /\ RB (<[id := t']> T) w' /\ shape t' = s) \/
  (on id (bst_push_all cmp xs) w = Abort /\ refuses pol (btotal (<[id := s]> (shape <$> T)))).
Proof.
  induction xs as [|x xs IH]; intros T w id t s H Ht; cbn [bst_push_all].
  - cbn [bins_all]. intros [= <-]. left. destruct (on_query T w id t (ret tt) tt H Ht eq_refl) as (w' & E & H'). exists w', t. rewrite (insert_id _ _ _ Ht). auto.
  - intros Hs. pose proof (length_bins_all _ _ _ Hs) as Hlen. cbn [bins_all length] in Hs, Hlen. rewrite inorder_shape in Hs, Hlen.
    destruct (lookup_set cmp x (elems t)) eqn:Ex; [discriminate|].
    pose proof (w_push _ _ _ _ x H Ht Ex) as P. destruct (al_pick (tw_al w)) as [a|] eqn:Ep.
    + destruct P as (w1 & E1 & H1). rewrite (on_bind _ _ _ _ _ _ _ _ H Ht E1).
      destruct (IH _ _ id _ s H1 (lookup_insert _ _ _)) as [(w2 & t2 & E2 & H2 & Hs2)|[E2 H2]]; [rewrite shape_ins; exact Hs| |].
      * left. exists w2, t2. rewrite insert_insert in H2. auto.
      * right. split; [exact E2|]. rewrite fmap_insert, insert_insert in H2. exact H2.
    + right. split; [|eapply ins_refused; [eassumption..|lia]].
      rewrite (on_at _ _ _ _ _ H Ht) in P. rewrite (on_at _ _ _ _ _ H Ht). destruct (bst_push cmp x _) as [[? ?]| | |] eqn:E; try discriminate. rewrite (bind_abort _ _ _ E). reflexivity.
Qed.
Lemma w_pop T w id t x s : RB T w -> T !! id = Some t -> bdel1 cmp x (shape t) = Some s ->
  exists w' t', on id (bst_pop cmp x) w = Ok (tt, w') /\ RB (<[id := t']> T) w' /\ shape t' = s.
Proof.
  intros H Ht Hs. pose proof (rb_wf _ _ H _ _ Ht) as W. destruct (del1_shape cmp x t s Hs) as (t' & Ed & <-).
  destruct (del1_elems cmp Hc x t t' (bwf_asc _ _ _ _ W) Hs) as [Ee [v Ev]].
  pose proof (length_remove cmp Hc _ _ _ (bwf_asc _ _ _ _ W) Ev) as Hlen.
  assert (Z.of_nat (nodes t) - 1 = Z.of_nat (nodes t')) as Ez by (rewrite !nodes_len, Ee; lia).
  pose proof (pop_nz cmp Hc _ (tw_al w) (Z.of_nat (nodes t)) t x (bwf_nd _ _ _ _ W) (bwf_linked _ _ _ _ W) ltac:(lia)) as P. rewrite Ed in P.
  destruct P as (h' & f' & E & L). rewrite Ez in E. assert (bgoes cmp (tw_heap w) (tw_al w) t h' f' t') as G.
  { eapply lost_goes; [exact W|exact L|]. rewrite Ee. apply remove_asc, (bwf_asc _ _ _ _ W). }
  destruct (on_goes _ _ _ _ _ _ _ _ _ H Ht E G) as (w' & E' & H'). eauto.
Qed.
Lemma w_find T w id t x : RB T w -> T !! id = Some t ->
  exists w', on id (p <- bt_find cmp x ;; deref p) w = Ok (lookup_set cmp x (elems t), w') /\ RB T w'.
Proof.
  intros H Ht. pose proof (rb_wf _ _ H _ _ Ht) as W. apply (on_query T w id t); [exact H|exact Ht|]. cbn zeta.
  rewrite (bind_ok _ _ _ _ _ (find_ok cmp x t _ _ _ (bwf_nd _ _ _ _ W) (bwf_linked _ _ _ _ W))).
  pose proof (atF_lookup cmp Hc x t _ _ (bwf_asc _ _ _ _ W) (bwf_linked _ _ _ _ W)) as P. unfold deref.
  destruct (lookup_set cmp x (elems t)) as [v|]; [|rewrite P; reflexivity].
  destruct P as (a & n & -> & Hn & <- & _). cbn [is_null]. rewrite (bind_ok _ _ _ _ _ (ld_val_ok _ _ _ _ _ _ Hn)). reflexivity.
Qed.
Lemma w_erase T w id t x s : RB T w -> T !! id = Some t -> bdel1 cmp x (shape t) = Some s ->
  exists w' t', on id (p <- bt_find cmp x ;; q <- bst_erase cmp InOrder p ;; deref q) w = Ok (next_set cmp x (elems t), w') /\
    RB (<[id := t']> T) w' /\ shape t' = s.
Proof.
  intros H Ht Hs. pose proof (rb_wf _ _ H _ _ Ht) as W. destruct (del1_zip cmp x t s Hs) as (C & l & a & hh & v & r & Et & He & Hlr & Hat & _ & Es).
  set (t' := plug C (match l with Lf => r | _ => l end)) in *. rewrite Es in Hs.
  destruct (del1_elems cmp Hc x t t' (bwf_asc _ _ _ _ W) Hs) as [Ee [v0 Ev]].
  pose proof (length_remove cmp Hc _ _ _ (bwf_asc _ _ _ _ W) Ev) as Hlen.
  assert (Z.of_nat (nodes t) - 1 = Z.of_nat (nodes t')) as Ez by (rewrite !nodes_len, Ee; lia).
  assert (tdelF (Br l a hh v r) = Some (match l with Lf => r | _ => l end)) as Etd by (destruct Hlr as [->| ->]; [reflexivity|destruct l; reflexivity]).
  assert (next_set cmp x (elems t) = head (elems r ++ elemsR C)) as En.
  { assert (elems t = (elemsL C ++ elems l) ++ v :: (elems r ++ elemsR C)) as Eel by (rewrite Et, elems_plug; cbn [elems]; rewrite <- !app_assoc; reflexivity).
    pose proof (bwf_asc _ _ _ _ W) as Ha. rewrite Eel in Ha |- *. apply (next_eq cmp Hc _ _ _ Ha _ He). }
  pose proof (erase_at cmp Hc C l a hh v r (tw_heap w) (tw_al w) (Z.of_nat (nodes t))) as P. cbn zeta in P. rewrite <- Et, Etd in P.
  destruct (P (bwf_nd _ _ _ _ W) (bwf_linked _ _ _ _ W)) as (h' & f' & E & L). fold t' in E, L. rewrite Ez in E.
  assert (bgoes cmp (tw_heap w) (tw_al w) t h' f' t') as G.
  { eapply lost_goes; [exact W|exact L|]. rewrite Ee. apply remove_asc, (bwf_asc _ _ _ _ W). }
  edestruct (on_goes T w id t (p <- bt_find cmp x ;; q <- bst_erase cmp InOrder p ;; deref q)) as (w' & E' & H');
    [exact H|exact Ht| |exact G|exists w', t'; split; [exact E'|split; [exact H'|auto]]].
  rewrite (bind_ok _ _ _ _ _ (find_ok cmp x t _ _ _ (bwf_nd _ _ _ _ W) (bwf_linked _ _ _ _ W))). rewrite Hat.
  rewrite (bind_ok _ _ _ _ _ E). rewrite En.
  replace (match l, r with Br _ _ _ _ _, Br _ _ _ _ _ => Some a | _, _ => next_pos C r end) with (next_pos C r) by (destruct Hlr as [->| ->]; [reflexivity|destruct l; reflexivity]).
  apply (next_after C l r h' f' _ _ Hlr (proj1 L)).
Qed.
Lemma w_iter T w id t : RB T w -> T !! id = Some t ->
  (t <> Lf -> exists w', on id (bt_iterate InOrder) w = Ok (elems t, w') /\ RB T w') /\
  exists w', on id (bt_iterate PreOrder) w = Ok (pre t, w') /\ RB T w'.
Proof.
  intros H Ht. pose proof (rb_wf _ _ H _ _ Ht) as W. split; [intros Hn|]; (apply (on_query T w id t); [exact H|exact Ht|]); cbn zeta.
  - apply (iterate_in_ok t); [exact Hn|apply (bwf_nd _ _ _ _ W)|apply (bwf_linked _ _ _ _ W)].
  - apply (iterate_pre_ok t); [apply (bwf_nd _ _ _ _ W)|apply (bwf_linked _ _ _ _ W)].
Qed.
Lemma w_traverse T w id t : RB T w -> T !! id = Some t -> exists w', on id (bt_traversal PreOrder) w = Ok (pre t, w') /\ RB T w'.
Proof.
  intros H Ht. pose proof (rb_wf _ _ H _ _ Ht) as W. apply (on_query T w id t); [exact H|exact Ht|]. cbn zeta.
  apply (traversal_ok PreOrder); [auto|apply (bwf_nd _ _ _ _ W)|apply (bwf_linked _ _ _ _ W)].
Qed.
(** Moving: the two objects change their trees. *)
Lemma RB_swap T w i j t : RB T w -> i <> j -> T !! i = Some Lf -> T !! j = Some t ->
  RB (<[i := t]> (<[j := Lf]> T)) (TW (tw_heap w) (tw_al w) (<[j := (None, 0)]> (<[i := ob t]> (tw_objs w)))).
Proof.
  intros [Ho Hw Hd Ha Hal Hpo] Hij Hi Hj.
  assert (forall k u, <[i := t]> (<[j := Lf]> T) !! k = Some u -> u = Lf \/ exists k', T !! k' = Some u /\ (k = i /\ k' = j \/ k <> i /\ k <> j /\ k' = k)) as Hwho.
  { intros k u. destruct (decide (k = i)) as [->|Hki]; [rewrite lookup_insert; intros [= <-]; right; exists j; auto|].
    rewrite lookup_insert_ne by congruence. destruct (decide (k = j)) as [->|Hkj]; [rewrite lookup_insert; intros [= <-]; left; reflexivity|].
    rewrite lookup_insert_ne by congruence. intros E. right. exists k. auto. }
  split; cbn [tw_objs tw_heap tw_al].
  - rewrite (insert_commute _ j i) by congruence. rewrite Ho, !fmap_insert. reflexivity.
  - intros k u Hu. destruct (Hwho k u Hu) as [->|(k' & Hk' & _)]; [apply (Hw i), Hi|apply (Hw k'), Hk'].
  - intros k1 k2 u1 u2 a Hk Hu1 Hu2 Hc1. destruct (Hwho _ _ Hu2) as [->|(k2' & Hk2 & Hk2')]; [reflexivity|].
    destruct (Hwho _ _ Hu1) as [->|(k1' & Hk1 & Hk1')]; [cbn in Hc1; lia|]. eapply (Hd k1' k2'); eauto. intuition congruence.
  - intros k n Hk. destruct (Ha k n Hk) as (m & u & Hm & Hc1). destruct (decide (m = j)) as [->|Hmj].
    + rewrite Hj in Hm. injection Hm as <-. exists i, t. rewrite lookup_insert. auto.
    + assert (m <> i) by (intros ->; rewrite Hi in Hm; injection Hm as <-; cbn in Hc1; lia).
      exists m, u. rewrite !lookup_insert_ne by congruence. auto.
  - exact Hal.
  - exact Hpo.
Qed.
Lemma w_move T w id src t0 t : RB T w -> T !! id = Some t0 -> T !! src = Some t ->
  exists w', bst_move id src w = Ok (tt, w') /\ RB (if Nat.eqb id src then T else <[id := t]> (<[src := Lf]> T)) w'.
Proof.
  intros H H0 Ht. unfold bst_move. erewrite bind_ok by (unfold tw_get; rewrite (RB_lookup _ _ _ _ H Ht); reflexivity).
  destruct (Nat.eqb_spec id src) as [->|Hne]; [exists w; auto|].
  destruct (w_clear _ _ _ _ H H0) as (w1 & E1 & H1). rewrite (bind_ok _ _ _ _ _ E1).
  assert (<[id := Lf]> T !! src = Some t) as Ht1 by (rewrite lookup_insert_ne by congruence; exact Ht).
  erewrite bind_ok by (unfold tw_get; rewrite (RB_lookup _ _ _ _ H1 Ht1); reflexivity).
  erewrite bind_ok by (unfold tw_put; rewrite (RB_lookup _ _ _ _ H1 (lookup_insert _ _ _)); reflexivity).
  unfold tw_put at 1. cbn [tw_objs tw_heap tw_al]. rewrite lookup_insert_ne by congruence. rewrite (RB_lookup _ _ _ _ H1 Ht1).
  eexists. split; [reflexivity|]. pose proof (RB_swap _ _ id src t H1 Hne (lookup_insert _ _ _) Ht1) as H2.
  rewrite (insert_commute _ src id) in H2 by congruence. rewrite insert_insert in H2. exact H2.
Qed.
Notation over := (fun s : gmap nat (bt A) => refuses pol (btotal s)).
Lemma b_step_or o s w : RWB s w -> magree_or RWB over (bs_step cmp o s) (b_step cmp o w).
Proof.
  intros (T & -> & H).
  assert (forall id X (k : bt A -> sres X) (Q : sres X -> Prop), Q SUnspec ->
    (forall t, T !! id = Some t -> Q (k (shape t))) -> Q (with_bt (shape <$> T) id k)) as HW.
  { intros id X k Q Q1 Q2. unfold with_bt. rewrite lookup_fmap. destruct (T !! id) as [t|]; cbn; auto. }
  assert (forall id X (k : sres X) (Q : sres X -> Prop), Q SUnspec ->
    (T !! id = None -> Q k) -> Q (no_bt (shape <$> T) id k)) as HN.
  { intros id X k Q Q1 Q2. unfold no_bt. rewrite lookup_fmap. destruct (T !! id) as [t|]; cbn; auto. }
  assert (forall (x : tout A) T2 w2 (c : res (tout A * tworld A)) s2, c = Ok (x, w2) -> RB T2 w2 -> s2 = shape <$> T2 ->
    magree_or RWB over (SVal (x, s2)) c) as HV.
  { intros x T2 w2 c s2 -> H2 ->. left. exists w2. split; [reflexivity|]. exists T2. auto. }
  destruct o; cbn [bs_step b_step]; try exact I.
  - apply HN; [exact I|]. intros Hi. destruct (w_new _ _ _ H Hi) as (w' & E & H').
    eapply HV; [rewrite (bind_ok _ _ _ _ _ E); reflexivity|exact H'|]. rewrite fmap_insert. reflexivity.
  - apply HN; [exact I|]. intros Hi. destruct (bins_all cmp xs BE) as [s|] eqn:Es; [|exact I].
    destruct (w_new _ _ _ H Hi) as (w1 & E & H1).
    destruct (w_push_all xs _ _ id Lf s H1 (lookup_insert _ _ _) Es) as [(w2 & t' & E2 & H2 & <-)|[E2 H2]].
    + rewrite insert_insert in H2.
      eapply HV; [rewrite (bind_ok _ _ _ _ _ E), (bind_ok _ _ _ _ _ E2); reflexivity|exact H2|]. rewrite fmap_insert. reflexivity.
    + right. split; [rewrite (bind_ok _ _ _ _ _ E); apply bind_abort, E2|]. rewrite fmap_insert, insert_insert in H2. exact H2.
  - apply HW; [exact I|]. intros t Ht. destruct (w_destroy _ _ _ _ H Ht) as (w' & E & H').
    eapply HV; [rewrite (bind_ok _ _ _ _ _ E); reflexivity|exact H'|]. rewrite fmap_delete. reflexivity.
  - apply HW; [exact I|]. intros t Ht. rewrite inorder_shape. destruct (lookup_set cmp x (elems t)) eqn:Ex; [exact I|].
    pose proof (w_push _ _ _ _ x H Ht Ex) as P. destruct (al_pick (tw_al w)) as [a|] eqn:Ep;
      [|right; split; [apply bind_abort, P|eapply ins_refused; [eassumption..|rewrite length_bins, inorder_shape; lia]]].
    destruct P as (w' & E & H').
    eapply HV; [rewrite (bind_ok _ _ _ _ _ E); reflexivity|exact H'|]. rewrite fmap_insert, shape_ins. reflexivity.
  - apply HW; [exact I|]. intros t Ht. destruct (shape t) as [|s1 y s2] eqn:Es.
    + destruct t; [|discriminate]. destruct (on_query T w id Lf (bst_pop cmp x) tt H Ht eq_refl) as (w' & E & H').
      eapply HV; [rewrite (bind_ok _ _ _ _ _ E); reflexivity|exact H'|reflexivity].
    + rewrite <- Es. clear Es s1 y s2. destruct (bdel1 cmp x (shape t)) as [s'|] eqn:Ed; [|exact I].
      destruct (w_pop _ _ _ _ x _ H Ht Ed) as (w' & t' & E & H' & <-).
      eapply HV; [rewrite (bind_ok _ _ _ _ _ E); reflexivity|exact H'|]. rewrite fmap_insert. reflexivity.
  - apply HW; [exact I|]. intros t Ht. destruct (w_find _ _ _ _ x H Ht) as (w' & E & H'). rewrite inorder_shape.
    eapply HV; [rewrite (bind_ok _ _ _ _ _ E); reflexivity|exact H'|reflexivity].
  - apply HW; [exact I|]. intros t Ht. destruct (bdel1 cmp x (shape t)) as [s'|] eqn:Ed; [|exact I]. rewrite inorder_shape.
    destruct (w_erase _ _ _ _ x _ H Ht Ed) as (w' & t' & E & H' & <-).
    eapply HV; [rewrite (bind_ok _ _ _ _ _ E); reflexivity|exact H'|]. rewrite fmap_insert. reflexivity.
  - apply HW; [exact I|]. intros t Ht. destruct (on_query _ _ _ _ bt_size _ H Ht eq_refl) as (w' & E & H').
    eapply HV; [rewrite (bind_ok _ _ _ _ _ E); cbn [t_size]; rewrite inorder_shape, nodes_len; reflexivity|exact H'|reflexivity].
  - apply HW; [exact I|]. intros t Ht. destruct (on_query _ _ _ _ bt_capacity _ H Ht eq_refl) as (w' & E & H').
    eapply HV; [rewrite (bind_ok _ _ _ _ _ E); cbn [t_size]; rewrite inorder_shape, nodes_len; reflexivity|exact H'|reflexivity].
  - apply HW; [exact I|]. intros t Ht. destruct (on_query _ _ _ _ bt_empty _ H Ht eq_refl) as (w' & E & H').
    assert ((Z.of_nat (nodes t) =? 0) = match shape t with BE => true | _ => false end) as Hz by (destruct t; [reflexivity|apply Z.eqb_neq; cbn [nodes]; lia]).
    eapply HV; [rewrite (bind_ok _ _ _ _ _ E); cbn [t_size]; rewrite Hz; reflexivity|exact H'|reflexivity].
  - apply HW; [exact I|]. intros t Ht. destruct (w_iter _ _ _ _ H Ht) as [Hin (wp & Ep & Hp)].
    destruct o; [|destruct (shape t) as [|s1 y s2] eqn:Es; [exact I|]|destruct (shape t); exact I].
    + rewrite preorder_shape. eapply HV; [rewrite (bind_ok _ _ _ _ _ Ep); reflexivity|exact Hp|reflexivity].
    + rewrite <- Es, inorder_shape. destruct Hin as (w' & E & H'); [intros ->; discriminate|].
      eapply HV; [rewrite (bind_ok _ _ _ _ _ E); reflexivity|exact H'|reflexivity].
  - apply HW; [exact I|]. intros t Ht. destruct (w_clear _ _ _ _ H Ht) as (w' & E & H').
    eapply HV; [rewrite (bind_ok _ _ _ _ _ E); reflexivity|exact H'|]. rewrite fmap_insert. reflexivity.
  - apply HW; [exact I|]. intros t Ht. destruct o; [|exact I|exact I]. destruct (w_traverse _ _ _ _ H Ht) as (w' & E & H').
    rewrite preorder_shape. eapply HV; [rewrite (bind_ok _ _ _ _ _ E); reflexivity|exact H'|reflexivity].
  - apply HN; [exact I|]. intros Hi. apply HW; [exact I|]. intros t Ht. assert (id <> src) as Hne by (intros ->; congruence).
    destruct (w_new _ _ _ H Hi) as (w1 & E1 & H1).
    destruct (w_move _ _ id src Lf t H1 (lookup_insert _ _ _)) as (w2 & E2 & H2); [rewrite lookup_insert_ne by congruence; exact Ht|].
    rewrite (proj2 (Nat.eqb_neq id src) Hne) in H2. rewrite (insert_commute _ src id) in H2 by congruence. rewrite insert_insert in H2.
    eapply HV; [rewrite (bind_ok _ _ _ _ _ E1), (bind_ok _ _ _ _ _ E2); reflexivity|exact H2|]. rewrite !fmap_insert. reflexivity.
  - apply HW; [exact I|]. intros t0 Ht0. apply HW; [exact I|]. intros t Ht. destruct (w_move _ _ id src t0 t H Ht0 Ht) as (w' & E & H').
    destruct (Nat.eqb id src).
    + eapply HV; [rewrite (bind_ok _ _ _ _ _ E); reflexivity|exact H'|reflexivity].
    + eapply HV; [rewrite (bind_ok _ _ _ _ _ E); reflexivity|exact H'|]. rewrite !fmap_insert. reflexivity.
Qed.

Lemma b_step_ok o s w : grants pol -> RWB s w -> magree RWB (bs_step cmp o s) (b_step cmp o w).
Proof. intros Hg H. apply (magree_or_no _ _ _ _ (fun s => grants_refuses pol (btotal s) Hg)), b_step_or, H. Qed.
Theorem b_history_or ops : sound pol -> match srun (bs_step cmp) ops ∅ with
  | SVal (rs, s) => (exists w, mrun (b_step cmp) ops (tw_init pol) = Ok (rs, w) /\ size (tw_heap w) = btotal s) \/
      (mrun (b_step cmp) ops (tw_init pol) = Abort /\
       exists ops1 ops2 rs1 s1, ops = ops1 ++ ops2 /\ srun (bs_step cmp) ops1 ∅ = SVal (rs1, s1) /\ refuses pol (btotal s1))
  | SAbort => mrun (b_step cmp) ops (tw_init pol) = Abort
  | SUnspec => True
  end.
Proof.
  intros Hp. pose proof (mrun_agree_or (b_step cmp) (bs_step cmp) RWB over b_step_or ops ∅ (tw_init pol) (RWB_init Hp)) as P.
  destruct (srun (bs_step cmp) ops ∅) as [[rs s]| |]; cbn in P; [|exact P|exact I].
  destruct P as [(w & E & T & -> & H)|P]; [left; exists w; split; [exact E|]; apply heap_count, H|right; exact P].
Qed.
Lemma b_after ops rs s : sound pol -> grants pol -> srun (bs_step cmp) ops ∅ = SVal (rs, s) ->
  exists w T, mrun (b_step cmp) ops (tw_init pol) = Ok (rs, w) /\ s = shape <$> T /\ RB T w.
Proof.
  intros Hp Hg E. pose proof (mrun_agree (b_step cmp) (bs_step cmp) RWB (fun o s w => b_step_ok o s w Hg) ops ∅ (tw_init pol) (RWB_init Hp)) as P.
  rewrite E in P. destruct P as (w & E' & T & -> & H). eauto.
Qed.
(** Answers and allocations. *)
Theorem b_history ops rs s : sound pol -> grants pol -> srun (bs_step cmp) ops ∅ = SVal (rs, s) ->
  exists w, mrun (b_step cmp) ops (tw_init pol) = Ok (rs, w) /\ size (tw_heap w) = btotal s.
Proof.
  intros Hp Hg E. destruct (b_after _ _ _ Hp Hg E) as (w & T & Ew & -> & H). exists w. split; [exact Ew|]. apply heap_count, H.
Qed.
End B.

Section Sets.
Context {A : Type} (cmp : A -> A -> bool) (Hc : swo cmp).
Notation tree := (atree A).
(** The specification trees are search trees holding the pushed keys. *)
Lemma b_sorted ops rs s id (t : bt A) : srun (bs_step cmp) ops ∅ = SVal (rs, s) -> s !! id = Some t -> ascending cmp (inorder t).
Proof.
  intros E Ht. destruct (b_after cmp Hc bump _ _ _ bump_sound bump_grants E) as (w & T & _ & -> & H). rewrite lookup_fmap in Ht. destruct (T !! id) as [u|] eqn:Eu; [|discriminate].
  injection Ht as <-. rewrite inorder_shape. apply (bwf_asc _ _ _ _ (rb_wf _ _ _ _ H _ _ Eu)).
Qed.
Fixpoint label (t : bt A) (f : nat) : tree * nat :=
  match t with BE => (Lf, f) | BN l x r => let '(l', f) := label l f in let '(r', f) := label r (S f) in (Br l' f 0 x r', S f) end.
Lemma shape_label (t : bt A) : forall f, shape (fst (label t f)) = t.
Proof.
  induction t as [|l IHl x r IHr]; intros f; [reflexivity|]. cbn [label]. specialize (IHl f).
  destruct (label l f) as [l' f1]. specialize (IHr (S f1)). destruct (label r (S f1)) as [r' f2]. cbn [fst shape] in *. congruence.
Qed.
Lemma inorder_bins x (t : bt A) : ascending cmp (inorder t) -> lookup_set cmp x (inorder t) = None -> inorder (bins cmp x t) = add_set cmp x (inorder t).
Proof.
  rewrite <- (shape_label t 0). set (u := fst (label t 0)). rewrite <- (shape_ins cmp x 0), !inorder_shape. apply (elems_insB cmp Hc).
Qed.
Lemma inorder_bdel x (t t' : bt A) : ascending cmp (inorder t) -> bdel1 cmp x t = Some t' -> inorder t' = remove_set cmp x (inorder t) /\ is_Some (lookup_set cmp x (inorder t)).
Proof.
  rewrite <- (shape_label t 0), <- (shape_label t' 0), !inorder_shape. intros Hs E. destruct (del1_elems cmp Hc _ _ _ Hs E) as [H [v Hv]]. rewrite Hv. eauto.
Qed.
Theorem b_sets ops rs s id (t : bt A) x : srun (bs_step cmp) ops ∅ = SVal (rs, s) -> s !! id = Some t ->
  ascending cmp (inorder t) /\
  (lookup_set cmp x (inorder t) = None -> inorder (bins cmp x t) = add_set cmp x (inorder t)) /\
  (forall t' : bt A, bdel1 cmp x t = Some t' -> inorder t' = remove_set cmp x (inorder t) /\ is_Some (lookup_set cmp x (inorder t))).
Proof.
  intros E Ht. pose proof (b_sorted _ _ _ _ _ E Ht) as Hs. split; [exact Hs|]. split; [apply inorder_bins, Hs|]. intros t'. apply inorder_bdel, Hs.
Qed.
End Sets.
