(** Every history over AVLTree objects does what the set specification says. *)
From Coq Require Import Sorted.
From Verif Require Import Base Alloc AllocProofs TreeAlloc VectorModel VectorSpec VecProg VectorProofs VectorWorld VectorExtra Adapter Hist.
From Verif Require Import TreeModel TreeSpec TreeBase TreeSets TreeRot TreeIns TreeZip TreeSwap TreeDel TreeErase TreeIter TreeObj TreeWorld TreeWSpec.
Open Scope Z_scope.

Section W.
Context {A : Type} (cmp : A -> A -> bool) (Hc : swo cmp) (pol : policy).
Notation tree := (atree A).
Implicit Types (h : gmap nat (node A)) (t l r : tree) (x : A) (w : tworld A) (T : gmap nat tree).

Definition ob t : option nat * Z := (rootp t, Z.of_nat (nodes t)).
(** The world holds the trees [T]: well formed, apart from each other, and
    nothing else is allocated; the allocator is [pol]. *)
Record RT T w : Prop := Rt {
  rt_objs : tw_objs w = ob <$> T;
  rt_wf : forall id t, T !! id = Some t -> wf cmp (tw_heap w) (tw_al w) t;
  rt_apart : forall i j t r k, i <> j -> T !! i = Some t -> T !! j = Some r -> (0 < cnt k t)%nat -> cnt k r = 0%nat;
  rt_all : forall k n, tw_heap w !! k = Some n -> exists i t, T !! i = Some t /\ (0 < cnt k t)%nat;
  rt_al : alok (tw_heap w) (tw_al w);
  rt_pol : al_pol (tw_al w) = pol }.
Definition RW (s : gmap nat (list A)) w : Prop := exists T, s = elems <$> T /\ RT T w.

Lemma RT_init : sound pol -> RT ∅ (tw_init pol).
Proof.
  intros Hp. split; cbn; [by rewrite fmap_empty|..|apply alok_init, Hp|reflexivity]; intros; exfalso; rewrite lookup_empty in *; discriminate.
Qed.
Lemma RW_init : sound pol -> RW ∅ (tw_init pol).
Proof. intros Hp. exists ∅. split; [by rewrite fmap_empty|apply RT_init, Hp]. Qed.

Lemma RT_lookup T w id t : RT T w -> T !! id = Some t -> tw_objs w !! id = Some (rootp t, Z.of_nat (nodes t)).
Proof. intros H E. rewrite (rt_objs _ _ H), lookup_fmap, E. reflexivity. Qed.
Lemma RT_none T w id : RT T w -> T !! id = None -> tw_objs w !! id = None.
Proof. intros H E. rewrite (rt_objs _ _ H), lookup_fmap, E. reflexivity. Qed.

(** One object moved on. *)
Lemma RT_goes T w id t h' f' t' : RT T w -> T !! id = Some t -> goes cmp (tw_heap w) (tw_al w) t h' f' t' ->
  RT (<[id := t']> T) (TW h' f' (<[id := ob t']> (tw_objs w))).
Proof.
  intros [Ho Hw Hd Ha Hal Hpo] Ht [Gw Gl Go Gi].
  assert (forall i r k, i <> id -> T !! i = Some r -> (0 < cnt k r)%nat -> cnt k t' = 0%nat) as Hdis.
  { intros i r k Hi Hr Hk. destruct (cnt k t') eqn:E0; [reflexivity|exfalso].
    destruct (Gi k ltac:(lia)) as [H|H].
    - specialize (Hd i id r t k Hi Hr Ht Hk). lia.
    - destruct (wf_some _ _ _ _ k (Hw i r Hr) Hk). congruence. }
  assert (forall i r k, i <> id -> T !! i = Some r -> (0 < cnt k r)%nat -> h' !! k = tw_heap w !! k) as Hsame.
  { intros i r k Hi Hr Hk. rewrite Go by (eapply Hdis; eauto). destruct (decide _) as [|Hn]; [reflexivity|].
    exfalso. apply Hn. eapply (Hd i id); eauto. }
  split; cbn [tw_objs tw_heap tw_al].
  - rewrite fmap_insert, Ho. reflexivity.
  - intros i r Hr. destruct (decide (i = id)) as [->|Hi]; [rewrite lookup_insert in Hr; injection Hr as <-; exact Gw|].
    rewrite lookup_insert_ne in Hr by congruence. specialize (Hw i r Hr) as W. destruct W as [W1 W2 W3 W4 W5]. split; auto.
    + apply (linked_same (tw_heap w)); [|exact W1]. intros k Hk. eapply Hsame; eauto. lia.
    + apply (wf_al _ _ _ _ Gw).
  - intros i j r r2 k Hij Hr Hr2 Hk. destruct (decide (i = id)) as [->|Hi].
    + rewrite lookup_insert in Hr. injection Hr as <-. rewrite lookup_insert_ne in Hr2 by congruence.
      destruct (cnt k r2) eqn:E0; [reflexivity|]. specialize (Hdis j r2 k ltac:(congruence) Hr2 ltac:(lia)). lia.
    + rewrite lookup_insert_ne in Hr by congruence. destruct (decide (j = id)) as [->|Hj].
      * rewrite lookup_insert in Hr2. injection Hr2 as <-. eapply Hdis; eauto.
      * rewrite lookup_insert_ne in Hr2 by congruence. eapply (Hd i j); eauto.
  - intros k n Hk. destruct (cnt k t') eqn:E0.
    + rewrite Go in Hk by exact E0. destruct (decide _) as [E1|]; [|discriminate].
      destruct (Ha k n Hk) as (i & r & Hr & Hkr). exists i, r. split; [|exact Hkr].
      rewrite lookup_insert_ne; [exact Hr|]. intros <-. rewrite Ht in Hr. injection Hr as <-. lia.
    + exists id, t'. rewrite lookup_insert. split; [reflexivity|lia].
  - apply (wf_al _ _ _ _ Gw).
  - congruence.
Qed.
(** An empty object added or removed. *)
Lemma RT_add T w id : RT T w -> T !! id = None -> RT (<[id := Lf]> T) (TW (tw_heap w) (tw_al w) (<[id := (None, 0)]> (tw_objs w))).
Proof.
  intros [Ho Hw Hd Ha Hal Hpo] Hi. split; cbn [tw_objs tw_heap tw_al].
  - rewrite fmap_insert, Ho. reflexivity.
  - intros i r Hr. destruct (decide (i = id)) as [->|Hn]; [|rewrite lookup_insert_ne in Hr by congruence; eauto].
    rewrite lookup_insert in Hr. injection Hr as <-. split; [exact I|intros k; cbn; lia|split; exact I|constructor|exact Hal].
  - intros i j r r2 k Hij Hr Hr2 Hk. destruct (decide (i = id)) as [->|Hn].
    + rewrite lookup_insert in Hr. injection Hr as <-. cbn in Hk. lia.
    + rewrite lookup_insert_ne in Hr by congruence. destruct (decide (j = id)) as [->|Hj].
      * rewrite lookup_insert in Hr2. injection Hr2 as <-. reflexivity.
      * rewrite lookup_insert_ne in Hr2 by congruence. eapply (Hd i j); eauto.
  - intros k n Hk. destruct (Ha k n Hk) as (i & r & Hr & Hkr). exists i, r. rewrite lookup_insert_ne by congruence. auto.
  - exact Hal.
  - exact Hpo.
Qed.
Lemma RT_del T w id : RT T w -> T !! id = Some Lf -> RT (delete id T) (TW (tw_heap w) (tw_al w) (delete id (tw_objs w))).
Proof.
  intros [Ho Hw Hd Ha Hal Hpo] Hi. split; cbn [tw_objs tw_heap tw_al].
  - rewrite fmap_delete, Ho. reflexivity.
  - intros i r Hr. apply lookup_delete_Some in Hr as [_ Hr]. eauto.
  - intros i j r r2 k Hij Hr Hr2. apply lookup_delete_Some in Hr as [_ Hr]. apply lookup_delete_Some in Hr2 as [_ Hr2]. eapply (Hd i j); eauto.
  - intros k n Hk. destruct (Ha k n Hk) as (i & r & Hr & Hkr). exists i, r. split; [|exact Hkr].
    apply lookup_delete_Some. split; [|exact Hr]. intros ->. rewrite Hi in Hr. injection Hr as <-. cbn in Hkr. lia.
  - exact Hal.
  - exact Hpo.
Qed.
(** Overwriting an object by itself. *)
Lemma RT_same T w id t : RT T w -> T !! id = Some t -> RT T (TW (tw_heap w) (tw_al w) (<[id := ob t]> (tw_objs w))).
Proof.
  intros H Ht. pose proof (RT_goes _ _ _ _ _ _ _ H Ht (goes_refl _ _ _ _ (rt_wf _ _ H _ _ Ht))) as H2.
  rewrite insert_id in H2 by exact Ht. exact H2.
Qed.

(** A method call on one object. *)
Lemma on_at {X} T w id t (m : M (tst A) X) : RT T w -> T !! id = Some t ->
  on id m w = match m (TSt (tw_heap w) (tw_al w) (rootp t) (Z.of_nat (nodes t))) with
              | Ok (x, s) => Ok (x, TW (t_heap s) (t_al s) (<[id := (t_root s, t_size s)]> (tw_objs w)))
              | Abort => Abort | UB => UB | Diverge => Diverge end.
Proof. intros H Ht. unfold on. rewrite (RT_lookup _ _ _ _ H Ht). reflexivity. Qed.
Lemma on_goes {X} T w id t (m : M (tst A) X) o h' f' t' : RT T w -> T !! id = Some t ->
  m (TSt (tw_heap w) (tw_al w) (rootp t) (Z.of_nat (nodes t))) = Ok (o, TSt h' f' (rootp t') (Z.of_nat (nodes t'))) ->
  goes cmp (tw_heap w) (tw_al w) t h' f' t' ->
  exists w', on id m w = Ok (o, w') /\ RT (<[id := t']> T) w'.
Proof.
  intros H Ht E G. rewrite (on_at _ _ _ _ _ H Ht), E. eexists. split; [reflexivity|]. exact (RT_goes _ _ _ _ _ _ _ H Ht G).
Qed.
Lemma on_query {X} T w id t (m : M (tst A) X) o : RT T w -> T !! id = Some t ->
  (let s := TSt (tw_heap w) (tw_al w) (rootp t) (Z.of_nat (nodes t)) in m s = Ok (o, s)) ->
  exists w', on id m w = Ok (o, w') /\ RT T w'.
Proof.
  intros H Ht E. rewrite (on_at _ _ _ _ _ H Ht), E. eexists. split; [reflexivity|]. apply (RT_same _ _ _ _ H Ht).
Qed.
Lemma nodes_len t : Z.of_nat (nodes t) = Z.of_nat (length (elems t)).
Proof. induction t as [|l IHl a hh x r IHr]; [reflexivity|]. cbn [nodes elems]. rewrite app_length. cbn [length]. lia. Qed.

(** The calls. *)
Lemma w_new T w id : RT T w -> T !! id = None -> exists w', tw_new id w = Ok (tt, w') /\ RT (<[id := Lf]> T) w'.
Proof.
  intros H Hi. unfold tw_new. rewrite (RT_none _ _ _ H Hi). unfold on. cbn [tw_objs tw_heap tw_al]. rewrite lookup_insert.
  cbn. eexists. split; [reflexivity|]. rewrite insert_insert. apply RT_add; assumption.
Qed.
Lemma w_clear T w id t : RT T w -> T !! id = Some t -> exists w', on id bt_clear w = Ok (tt, w') /\ RT (<[id := Lf]> T) w'.
Proof.
  intros H Ht. destruct (clear_goes cmp _ _ (Z.of_nat (nodes t)) t (rt_wf _ _ H _ _ Ht)) as (h' & f' & E & G).
  exact (on_goes _ _ _ _ _ _ _ _ Lf H Ht E G).
Qed.
Lemma w_destroy T w id t : RT T w -> T !! id = Some t -> exists w', tw_destroy id w = Ok (tt, w') /\ RT (delete id T) w'.
Proof.
  intros H Ht. destruct (w_clear _ _ _ _ H Ht) as (w1 & E & H1). unfold tw_destroy.
  change bt_destroy with (@bt_clear A). rewrite (bind_ok _ _ _ _ _ E). eexists. split; [reflexivity|].
  pose proof (RT_del _ _ id H1 (lookup_insert _ _ _)) as H2. rewrite delete_insert_delete in H2. exact H2.
Qed.
Lemma w_push T w id t x : RT T w -> T !! id = Some t ->
  match lookup_set cmp x (elems t), al_pick (tw_al w) with
  | None, Some _ => exists w' t', on id (avl_push cmp x) w = Ok (tt, w') /\ RT (<[id := t']> T) w' /\ elems t' = add_set cmp x (elems t)
  | _, _ => on id (avl_push cmp x) w = Abort
  end.
Proof.
  intros H Ht. pose proof (push_ok cmp Hc _ _ (Z.of_nat (nodes t)) _ x (rt_wf _ _ H _ _ Ht)) as P.
  destruct (lookup_set cmp x (elems t)); [rewrite (on_at _ _ _ _ _ H Ht), P; reflexivity|].
  destruct (al_pick (tw_al w)); [|rewrite (on_at _ _ _ _ _ H Ht), P; reflexivity].
  destruct P as (h' & t' & E & G & Ee).
  replace (Z.of_nat (nodes t) + 1) with (Z.of_nat (nodes t')) in E.
  - destruct (on_goes _ _ _ _ _ _ _ _ _ H Ht E G) as (w' & E' & H'). eauto.
  - rewrite !nodes_len, Ee, length_add. lia.
Qed.
Lemma w_pop T w id t x : RT T w -> T !! id = Some t ->
  match elems t, lookup_set cmp x (elems t) with
  | _ :: _, None => on id (avl_pop cmp x) w = UB
  | _, _ => exists w' t', on id (avl_pop cmp x) w = Ok (tt, w') /\ RT (<[id := t']> T) w' /\ elems t' = remove_set cmp x (elems t)
  end.
Proof.
  intros H Ht. destruct t as [|l0 a hh v r0] eqn:Et.
  - cbn [elems lookup_set List.find remove_set List.filter]. destruct (on_query T w id Lf (avl_pop cmp x) tt H Ht eq_refl) as (w' & E & H').
    exists w', Lf. rewrite (insert_id _ _ _ Ht). auto.
  - rewrite <- Et in *. assert (nodes t <> 0%nat) as Hz by (subst t; cbn; lia). clear Et l0 a hh v r0.
    pose proof (pop_ok cmp Hc _ _ (Z.of_nat (nodes t)) _ x (rt_wf _ _ H _ _ Ht) ltac:(lia)) as P.
    destruct (lookup_set cmp x (elems t)) as [y|] eqn:Ex.
    + destruct P as (h' & t' & b & E & G & Ee & _).
      assert (exists w' t', on id (avl_pop cmp x) w = Ok (tt, w') /\ RT (<[id := t']> T) w' /\ elems t' = remove_set cmp x (elems t)) as R.
      { replace (Z.of_nat (nodes t) - 1) with (Z.of_nat (nodes t')) in E.
        - destruct (on_goes _ _ _ _ _ _ _ _ _ H Ht E G) as (w' & E' & H'). eauto.
        - rewrite !nodes_len, Ee. pose proof (length_remove cmp Hc _ _ _ (wf_asc _ _ _ _ (rt_wf _ _ H _ _ Ht)) Ex). lia. }
      destruct (elems t); exact R.
    + destruct (elems t) as [|y l0] eqn:El; [pose proof (nodes_len t) as Hn; rewrite El in Hn; cbn in Hn; lia|].
      rewrite (on_at _ _ _ _ _ H Ht), P. reflexivity.
Qed.
Lemma deref_at h f t x : wf cmp h f t -> forall z rt,
  deref (atF cmp x t) (TSt h f rt z) = Ok (lookup_set cmp x (elems t), TSt h f rt z).
Proof.
  intros W z rt. pose proof (atF_lookup cmp Hc x t _ _ (wf_asc _ _ _ _ W) (wf_linked _ _ _ _ W)) as P. unfold deref.
  destruct (lookup_set cmp x (elems t)) as [v|]; [|rewrite P; reflexivity].
  destruct P as (a & n & -> & Hn & <- & _). cbn [is_null]. rewrite (bind_ok _ _ _ _ _ (ld_val_ok _ _ _ _ _ _ Hn)). reflexivity.
Qed.
Lemma w_find T w id t x : RT T w -> T !! id = Some t ->
  exists w', on id (p <- bt_find cmp x ;; deref p) w = Ok (lookup_set cmp x (elems t), w') /\ RT T w'.
Proof.
  intros H Ht. pose proof (rt_wf _ _ H _ _ Ht) as W. apply (on_query T w id t); [exact H|exact Ht|]. cbn zeta.
  rewrite (bind_ok _ _ _ _ _ (find_ok cmp x t _ _ _ (wf_nd _ _ _ _ W) (wf_linked _ _ _ _ W))). apply deref_at, W.
Qed.
Lemma big_root t a : avl t -> (3 <= length (elems t))%nat -> ~ root_small t a.
Proof.
  intros [_ Hb] Hl. destruct t as [|l b hh v r]; cbn in *; [lia|]. intros [_ Hlr]. destruct Hb as (Hb & Hbl & Hbr).
  assert (forall t, balanced t -> depth t <= 1 -> (length (elems t) <= 1)%nat) as Hs.
  { intros [|l0 b0 h0 v0 r0]; cbn; [lia|]. intros (_ & _ & _) Hd.
    assert (forall t, 0 <= depth t) as Hp by (induction t; cbn; lia).
    assert (forall t, depth t <= 0 -> t = Lf) as Hz.
    { intros [|l1 b1 h1 v1 r1] Hd1; [reflexivity|]. cbn in Hd1. pose proof (Hp l1). lia. }
    rewrite (Hz l0), (Hz r0) by lia. cbn. lia. }
  rewrite app_length in Hl. cbn in Hl. destruct Hlr as [-> | ->]; cbn in *; [pose proof (Hs r Hbr ltac:(lia))|pose proof (Hs l Hbl ltac:(lia))]; lia.
Qed.
Lemma next_in x y (ys : list A) : ascending cmp ys -> next_set cmp x ys = Some y -> lookup_set cmp y (remove_set cmp x ys) = Some y.
Proof.
  intros Hs E. destruct (find_some _ _ E) as [Hin Hlt].
  assert (In y (remove_set cmp x ys)) as Hin2.
  { apply filter_In. split; [exact Hin|]. assert (equivb cmp x y = false) as -> by (apply equivb_false; auto). reflexivity. }
  apply in_split in Hin2 as (l1 & l2 & E2). pose proof (remove_asc cmp x ys Hs) as Hs2. rewrite E2 in *.
  apply (lookup_eq cmp Hc _ _ _ Hs2). apply (equiv_refl cmp Hc).
Qed.
Lemma w_erase T w id t x a : RT T w -> T !! id = Some t -> atF cmp x t = Some a -> ~ root_small t a ->
  exists w' t', on id (p <- bt_find cmp x ;; q <- avl_erase cmp p ;; deref q) w = Ok (next_set cmp x (elems t), w') /\
    RT (<[id := t']> T) w' /\ elems t' = remove_set cmp x (elems t).
Proof.
  intros H Ht Hat Hrs. pose proof (rt_wf _ _ H _ _ Ht) as W.
  destruct (erase_ok cmp Hc _ _ (Z.of_nat (nodes t)) t x a W Hat Hrs) as (h' & t' & E & G & Ee & Hcn).
  pose proof (go_wf _ _ _ _ _ _ _ G) as W'.
  assert (lookup_set cmp x (elems t) <> None) as Hx.
  { intros E0. pose proof (atF_some cmp Hc x t (wf_asc _ _ _ _ W)) as P. rewrite E0 in P. congruence. }
  destruct (lookup_set cmp x (elems t)) as [v|] eqn:Ex; [|congruence].
  assert (Z.of_nat (nodes t) - 1 = Z.of_nat (nodes t')) as Ez.
  { rewrite !nodes_len, Ee. pose proof (length_remove cmp Hc _ _ _ (wf_asc _ _ _ _ W) Ex). lia. }
  rewrite Ez in E. edestruct (on_goes T w id t (p <- bt_find cmp x ;; q <- avl_erase cmp p ;; deref q)) as (w' & E' & H');
    [exact H|exact Ht| |exact G|exists w', t'; split; [exact E'|split; [exact H'|exact Ee]]].
  rewrite (bind_ok _ _ _ _ _ (find_ok cmp x t _ _ _ (wf_nd _ _ _ _ W) (wf_linked _ _ _ _ W))). rewrite Hat.
  rewrite (bind_ok _ _ _ _ _ E). destruct (next_set cmp x (elems t)) as [y|] eqn:En; [|reflexivity].
  rewrite (deref_at _ _ _ _ W'). rewrite Ee, (next_in _ _ _ (wf_asc _ _ _ _ W) En). reflexivity.
Qed.
Lemma w_erase_absent T w id t x : RT T w -> T !! id = Some t -> lookup_set cmp x (elems t) = None ->
  exists w', on id (p <- bt_find cmp x ;; q <- avl_erase cmp p ;; deref q) w = Ok (None, w') /\ RT T w'.
Proof.
  intros H Ht Ex. pose proof (rt_wf _ _ H _ _ Ht) as W. apply (on_query T w id t); [exact H|exact Ht|]. cbn zeta.
  rewrite (bind_ok _ _ _ _ _ (find_ok cmp x t _ _ _ (wf_nd _ _ _ _ W) (wf_linked _ _ _ _ W))).
  pose proof (atF_some cmp Hc x t (wf_asc _ _ _ _ W)) as P. rewrite Ex in P. rewrite P. reflexivity.
Qed.
Lemma w_iter T w id t : RT T w -> T !! id = Some t -> t <> Lf ->
  exists w', on id (avl_iterate InOrder) w = Ok (elems t, w') /\ RT T w'.
Proof.
  intros H Ht Hn. pose proof (rt_wf _ _ H _ _ Ht) as W. apply (on_query T w id t); [exact H|exact Ht|]. cbn zeta.
  apply (iterate_in_ok t); [exact Hn|apply (wf_nd _ _ _ _ W)|apply (wf_linked _ _ _ _ W)].
Qed.

(** The allocated nodes. *)
Fixpoint addrs t : list nat := match t with Lf => [] | Br l a _ _ r => addrs l ++ a :: addrs r end.
Lemma addrs_cnt k t : k ∈ addrs t <-> (0 < cnt k t)%nat.
Proof.
  induction t as [|l IHl a hh x r IHr]; cbn [addrs cnt]; [split; [intros H; inversion H|lia]|].
  rewrite elem_of_app, elem_of_cons, IHl, IHr. destruct (decide (k = a)) as [->|H]; [rewrite one_eq; lia|].
  rewrite one_ne by congruence. split; [intros [?|[?|?]]; [lia|contradiction|lia]|lia].
Qed.
Lemma addrs_nodup t : nd t -> NoDup (addrs t).
Proof.
  induction t as [|l IHl a hh x r IHr]; cbn [addrs]; intros H; [constructor|].
  assert (forall k, cnt k l + one k a + cnt k r <= 1)%nat as H1 by exact H.
  apply NoDup_app. split_and!.
  - apply IHl. intros k. specialize (H1 k). lia.
  - intros k Hk Hk2. apply addrs_cnt in Hk. apply elem_of_cons in Hk2 as [->|Hk2]; [specialize (H1 a); rewrite one_eq in H1; lia|].
    apply addrs_cnt in Hk2. specialize (H1 k). lia.
  - constructor; [intros Hk; apply addrs_cnt in Hk; specialize (H1 a); rewrite one_eq in H1; lia|].
    apply IHr. intros k. specialize (H1 k). lia.
Qed.
Lemma addrs_len t : length (addrs t) = length (elems t).
Proof. induction t as [|l IHl a hh x r IHr]; [reflexivity|]. cbn [addrs elems]. rewrite !app_length. cbn [length]. lia. Qed.
Lemma addrs_all (L : list (nat * tree)) : NoDup (L.*1) -> (forall i t, (i, t) ∈ L -> nd t) ->
  (forall i j t r k, i <> j -> (i, t) ∈ L -> (j, r) ∈ L -> (0 < cnt k t)%nat -> cnt k r = 0%nat) ->
  NoDup (L ≫= fun p => addrs (snd p)) /\ length (L ≫= fun p => addrs (snd p)) = length (((fun p => (fst p, elems (snd p))) <$> L) ≫= snd).
Proof.
  induction L as [|[i t] L IH]; intros Hn Hd Ha; [split; [constructor|reflexivity]|].
  cbn [mbind list_bind fst snd fmap list_fmap] in *. apply NoDup_cons in Hn as [Hi Hn].
  destruct IH as [IH1 IH2]; [exact Hn|intros; eapply Hd; right; eauto|intros i' j' t' r' k' ? ? ?; eapply (Ha i' j'); auto; right; assumption|].
  split; [apply NoDup_app; split_and!|].
  - apply addrs_nodup. eapply Hd. left.
  - intros k Hk Hk2. apply elem_of_list_bind in Hk2 as ([j r] & Hk2 & Hj). cbn [snd] in Hk2. apply addrs_cnt in Hk, Hk2.
    assert (i <> j) as Hij. { intros ->. apply Hi. apply elem_of_list_fmap. exists (j, r). auto. }
    rewrite (Ha i j t r k Hij) in Hk2; [lia|left|right; exact Hj|exact Hk].
  - exact IH1.
  - rewrite !app_length, addrs_len. f_equal. exact IH2.
Qed.
Lemma heap_count T w : RT T w -> size (tw_heap w) = total (elems <$> T).
Proof.
  intros [Ho Hw Hd Ha _ _]. unfold total. rewrite map_to_list_fmap.
  destruct (addrs_all (map_to_list T)) as [E1 E2].
  - apply NoDup_fst_map_to_list.
  - intros i t Ht. apply elem_of_map_to_list in Ht. apply (wf_nd _ _ _ _ (Hw _ _ Ht)).
  - intros i j t r k Hij Ht Hr. apply elem_of_map_to_list in Ht, Hr. eapply (Hd i j); eauto.
  - rewrite <- size_dom. transitivity (length (map_to_list T ≫= fun p => addrs (snd p))).
    + rewrite <- (size_list_to_set (C := gset nat)) by exact E1. f_equal. apply set_eq. intros k.
      rewrite elem_of_dom, elem_of_list_to_set, elem_of_list_bind. split.
      * intros [n Hn]. destruct (Ha k n Hn) as (i & t & Ht & Hk). exists (i, t). split; [apply addrs_cnt, Hk|apply elem_of_map_to_list, Ht].
      * intros ([i t] & Hk & Ht). apply elem_of_map_to_list in Ht. apply addrs_cnt in Hk. exact (linked_in _ _ _ _ (wf_linked _ _ _ _ (Hw _ _ Ht)) Hk).
    + rewrite E2. reflexivity.
Qed.

(** A refused request: the tree would have had one more node. *)
Lemma add_refused T w id t x : RT T w -> T !! id = Some t -> al_pick (tw_al w) = None -> refuses pol (total (<[id := add_set cmp x (elems t)]> (elems <$> T))).
Proof.
  intros H Ht Ep. pose proof (alok_refuses _ _ (rt_al _ _ H) Ep) as Hr. rewrite (rt_pol _ _ H), (heap_count _ _ H) in Hr.
  eapply refuses_mono; [exact Hr|]. unfold total.
  rewrite <- (insert_id (elems <$> T) id (elems t)) at 1 by (rewrite lookup_fmap, Ht; reflexivity).
  rewrite <- insert_delete_insert. rewrite <- (insert_delete_insert _ _ (add_set cmp x (elems t))).
  rewrite !map_to_list_insert by apply lookup_delete. cbn [mbind list_bind snd]. rewrite !app_length, length_add. lia.
Qed.

Lemma t_step_or o s w : RW s w -> magree_or RW (fun s => refuses pol (total s)) (ts_step cmp o s) (t_step cmp o w).
Proof.
  intros (T & -> & H).
  assert (forall id X (k : list A -> sres X) (Q : sres X -> Prop), Q SUnspec ->
    (forall t, T !! id = Some t -> Q (k (elems t))) -> Q (with_set (elems <$> T) id k)) as HW.
  { intros id X k Q Q1 Q2. unfold with_set. rewrite lookup_fmap. destruct (T !! id) as [t|]; cbn; auto. }
  assert (forall id X (k : sres X) (Q : sres X -> Prop), Q SUnspec ->
    (T !! id = None -> Q k) -> Q (no_set (elems <$> T) id k)) as HN.
  { intros id X k Q Q1 Q2. unfold no_set. rewrite lookup_fmap. destruct (T !! id) as [t|]; cbn; auto. }
  assert (forall (x : tout A) T2 w2 (c : res (tout A * tworld A)) s2, c = Ok (x, w2) -> RT T2 w2 -> s2 = elems <$> T2 ->
    magree_or RW (fun s => refuses pol (total s)) (SVal (x, s2)) c) as HV.
  { intros x T2 w2 c s2 -> H2 ->. left. exists w2. split; [reflexivity|]. exists T2. auto. }
  destruct o; cbn [ts_step t_step]; try exact I.
  - apply HN; [exact I|]. intros Hi. destruct (w_new _ _ _ H Hi) as (w' & E & H').
    eapply HV; [rewrite (bind_ok _ _ _ _ _ E); reflexivity|exact H'|]. rewrite fmap_insert. reflexivity.
  - apply HW; [exact I|]. intros t Ht. destruct (w_destroy _ _ _ _ H Ht) as (w' & E & H').
    eapply HV; [rewrite (bind_ok _ _ _ _ _ E); reflexivity|exact H'|]. rewrite fmap_delete. reflexivity.
  - apply HW; [exact I|]. intros t Ht. pose proof (w_push _ _ _ _ x H Ht) as P. destruct (lookup_set cmp x (elems t)).
    + apply bind_abort, P.
    + destruct (al_pick (tw_al w)) eqn:Ep; [|right; split; [apply bind_abort, P|eapply add_refused; eassumption]].
      destruct P as (w' & t' & E & H' & Ee). eapply HV; [rewrite (bind_ok _ _ _ _ _ E); reflexivity|exact H'|]. rewrite fmap_insert, Ee. reflexivity.
  - apply HW; [exact I|]. intros t Ht. pose proof (w_pop _ _ _ _ x H Ht) as P.
    destruct (elems t) as [|y l0] eqn:El; [|destruct (lookup_set cmp x (y :: l0)); [|exact I]];
      destruct P as (w' & t' & E & H' & Ee); (eapply HV; [rewrite (bind_ok _ _ _ _ _ E); reflexivity|exact H'|]; rewrite fmap_insert, Ee; reflexivity).
  - apply HW; [exact I|]. intros t Ht. destruct (w_find _ _ _ _ x H Ht) as (w' & E & H').
    eapply HV; [rewrite (bind_ok _ _ _ _ _ E); reflexivity|exact H'|reflexivity].
  - apply HW; [exact I|]. intros t Ht. destruct (lookup_set cmp x (elems t)) as [v|] eqn:Ex.
    + destruct (Nat.ltb_spec (length (elems t)) 3) as [|Hlen]; [exact I|].
      pose proof (rt_wf _ _ H _ _ Ht) as W. pose proof (atF_some cmp Hc x t (wf_asc _ _ _ _ W)) as P. rewrite Ex in P. destruct P as [a Ha].
      destruct (w_erase _ _ _ _ x a H Ht Ha (big_root t a (wf_avl _ _ _ _ W) Hlen)) as (w' & t' & E & H' & Ee).
      eapply HV; [rewrite (bind_ok _ _ _ _ _ E); reflexivity|exact H'|rewrite fmap_insert, Ee; reflexivity].
    + destruct (w_erase_absent _ _ _ _ x H Ht Ex) as (w' & E & H').
      eapply HV; [rewrite (bind_ok _ _ _ _ _ E); reflexivity|exact H'|reflexivity].
  - apply HW; [exact I|]. intros t Ht. destruct (on_query _ _ _ _ bt_size _ H Ht eq_refl) as (w' & E & H').
    eapply HV; [rewrite (bind_ok _ _ _ _ _ E); cbn [t_size]; rewrite nodes_len; reflexivity|exact H'|reflexivity].
  - apply HW; [exact I|]. intros t Ht. destruct (on_query _ _ _ _ bt_capacity _ H Ht eq_refl) as (w' & E & H').
    eapply HV; [rewrite (bind_ok _ _ _ _ _ E); cbn [t_size]; rewrite nodes_len; reflexivity|exact H'|reflexivity].
  - apply HW; [exact I|]. intros t Ht. destruct (on_query _ _ _ _ bt_empty _ H Ht eq_refl) as (w' & E & H').
    eapply HV; [rewrite (bind_ok _ _ _ _ _ E); cbn [t_size]; rewrite nodes_len; destruct (elems t); reflexivity|exact H'|reflexivity].
  - apply HW; [exact I|]. intros t Ht. destruct (elems t) as [|y l0] eqn:El; [exact I|].
    destruct (w_iter _ _ _ _ H Ht) as (w' & E & H'); [intros ->; discriminate|].
    eapply HV; [rewrite (bind_ok _ _ _ _ _ E), El; reflexivity|exact H'|reflexivity].
  - apply HW; [exact I|]. intros t Ht. destruct (w_clear _ _ _ _ H Ht) as (w' & E & H').
    eapply HV; [rewrite (bind_ok _ _ _ _ _ E); reflexivity|exact H'|]. rewrite fmap_insert. reflexivity.
  - apply HN; [exact I|]. intros Hi. apply HW; [exact I|]. intros t Ht.
    destruct t as [|t1 a hh v t2] eqn:Et; cbn [elems]; [|destruct (elems t1 ++ v :: elems t2) eqn:E0; [destruct (elems t1); discriminate|exact I]].
    eapply HV; [unfold tw_copy_new; rewrite (bind_ok _ _ _ tt (TW (tw_heap w) (tw_al w) (<[id := (None, 0)]> (tw_objs w)))); [reflexivity|]| |].
    + rewrite (RT_none _ _ _ H Hi), (RT_lookup _ _ _ _ H Ht). reflexivity.
    + apply RT_add; eauto.
    + rewrite fmap_insert. reflexivity.
  - apply HW; [exact I|]. intros t Ht. apply HW; [exact I|]. intros t' Ht'.
    assert (ob t = ob t' -> magree_or RW (fun s => refuses pol (total s)) (SVal (@OUnit A, elems <$> T)) ((tw_assign id src;;; ret OUnit) w)) as Hsame.
    { intros E. eapply HV; [unfold tw_assign; erewrite bind_ok; [reflexivity|]| |reflexivity].
      - rewrite (RT_lookup _ _ _ _ H Ht), (RT_lookup _ _ _ _ H Ht'). change (rootp t', Z.of_nat (nodes t')) with (ob t'). rewrite <- E. reflexivity.
      - apply (RT_same _ _ _ _ H Ht). }
    destruct (Nat.eqb_spec id src) as [->|Hne]; [apply Hsame; congruence|].
    destruct t as [|t1 a hh v t2] eqn:Et; cbn [elems]; [|destruct (elems t1 ++ v :: elems t2) eqn:E0; [destruct (elems t1); discriminate|exact I]].
    destruct t' as [|u1 b hb u u2] eqn:Eu; cbn [elems]; [|destruct (elems u1 ++ u :: elems u2) eqn:E0; [destruct (elems u1); discriminate|exact I]].
    apply Hsame. reflexivity.
Qed.

Lemma t_step_ok o s w : grants pol -> RW s w -> magree RW (ts_step cmp o s) (t_step cmp o w).
Proof. intros Hg H. apply (magree_or_no _ _ _ _ (fun s => grants_refuses pol (total s) Hg)), t_step_or, H. Qed.

Theorem t_history_or ops : sound pol -> match srun (ts_step cmp) ops ∅ with
  | SVal (rs, s) => (exists w, mrun (t_step cmp) ops (tw_init pol) = Ok (rs, w) /\ size (tw_heap w) = total s) \/
      (mrun (t_step cmp) ops (tw_init pol) = Abort /\
       exists ops1 ops2 rs1 s1, ops = ops1 ++ ops2 /\ srun (ts_step cmp) ops1 ∅ = SVal (rs1, s1) /\ refuses pol (total s1))
  | SAbort => mrun (t_step cmp) ops (tw_init pol) = Abort
  | SUnspec => True
  end.
Proof.
  intros Hp. pose proof (mrun_agree_or (t_step cmp) (ts_step cmp) RW (fun s => refuses pol (total s)) t_step_or ops ∅ (tw_init pol) (RW_init Hp)) as P.
  destruct (srun (ts_step cmp) ops ∅) as [[rs s]| |]; [|exact P|exact I].
  destruct P as [(w & E & T & -> & H)|P]; [left; exists w; split; [exact E|apply heap_count, H]|right; exact P].
Qed.
Theorem t_history ops : sound pol -> grants pol -> match srun (ts_step cmp) ops ∅ with
  | SVal (rs, s) => exists w, mrun (t_step cmp) ops (tw_init pol) = Ok (rs, w) /\ size (tw_heap w) = total s
  | SAbort => mrun (t_step cmp) ops (tw_init pol) = Abort
  | SUnspec => True
  end.
Proof.
  intros Hp Hg. pose proof (t_history_or ops Hp) as P.
  destruct (srun (ts_step cmp) ops ∅) as [[rs s]| |]; [|exact P|exact I].
  destruct P as [P|(_ & ops1 & ops2 & rs1 & s1 & _ & _ & Hr)]; [exact P|]. destruct (grants_refuses _ _ Hg Hr).
Qed.
End W.
