(** BinarySearchTree iterators keep their place. *)
From Coq Require Import Sorted.
From Verif Require Import Base Alloc AllocProofs VectorModel VectorSpec Adapter Hist ListSpec.
From Verif Require Import TreeModel TreeSpec TreeBase TreeSets TreeZip TreeDel TreeErase TreeIter TreeTag TreeObj TreeWorld TreeHist BstWorld BstSpec BstObj BstDel BstHist.
From Verif Require Import ListIterSpec ListIterProofs TreeIterModel TreeIterSpec TreeIterProofs BstIterModel BstIterSpec.
Open Scope Z_scope.

(** Numbers to addresses in trees. *)
Section Ren.
Context {A : Type} (cmp : A -> A -> bool).
Notation ntree := (bt (nat * A)).
Implicit Types (t l r : atree A) (u v : ntree) (x : A) (f g : nat -> nat) (s : gmap nat ntree).
Definition bren f u : ntree := bmap (fun nx => (f (fst nx), snd nx)) u.
Definition nums u : list nat := (inorder u).*1.
Definition bbelow (n : nat) s : Prop := forall id u m, s !! id = Some u -> m ∈ nums u -> (m < n)%nat.

Lemma inorder_bmap {X Y} (h : X -> Y) (w : bt X) : inorder (bmap h w) = h <$> inorder w.
Proof. induction w as [|l IHl y r IHr]; [reflexivity|]. cbn [bmap inorder]. rewrite fmap_app, IHl, IHr. reflexivity. Qed.
Lemma preorder_bmap {X Y} (h : X -> Y) (w : bt X) : preorder (bmap h w) = h <$> preorder w.
Proof. induction w as [|l IHl y r IHr]; [reflexivity|]. cbn [bmap preorder fmap list_fmap]. f_equal. rewrite IHl, IHr. symmetry. apply fmap_app. Qed.
Lemma inorder_bren f u : inorder (bren f u) = renl f (inorder u).
Proof. apply inorder_bmap. Qed.
Lemma preorder_bren f u : preorder (bren f u) = renl f (preorder u).
Proof. apply preorder_bmap. Qed.
Lemma walk_bren f o u : walk o (bren f u) = renl f (walk o u).
Proof. destruct o; [apply preorder_bren|apply inorder_bren|reflexivity]. Qed.
Lemma pre_perm {X} (w : bt X) : preorder w ≡ₚ inorder w.
Proof. induction w as [|l IHl y r IHr]; [reflexivity|]. cbn [preorder inorder]. rewrite IHl, IHr. apply Permutation_middle. Qed.
Lemma bren_ext f g u n : (forall m, m ∈ nums u -> (m < n)%nat) -> (forall m, (m < n)%nat -> g m = f m) -> bren g u = bren f u.
Proof.
  intros H E. induction u as [|l IHl [m y] r IHr]; [reflexivity|]. unfold bren, nums in *. cbn [bmap inorder fst snd] in *.
  rewrite fmap_app in H. rewrite IHl, IHr, E; [reflexivity|apply H, elem_of_app; right; left| |]; intros k Hk; apply H, elem_of_app; [right; right|left]; exact Hk.
Qed.
Lemma bren_all_ext f g s n : bbelow n s -> (forall m, (m < n)%nat -> g m = f m) -> bren g <$> s = bren f <$> s.
Proof. intros H E. apply map_fmap_ext. intros id u Hu. eapply bren_ext; [|exact E]. intros m. exact (H id u m Hu). Qed.
Lemma bbelow_insert n k s id u : bbelow n s -> (n <= k)%nat -> (forall m, m ∈ nums u -> (m < k)%nat) -> bbelow k (<[id := u]> s).
Proof. intros H Hk Hx i v m [[-> <-]|[_ E]]%lookup_insert_Some Hm; [apply Hx; exact Hm|]. specialize (H _ _ _ E Hm). lia. Qed.
Lemma bbelow_delete n s id : bbelow n s -> bbelow n (delete id s).
Proof. intros H i v m [_ E]%lookup_delete_Some. exact (H _ _ _ E). Qed.

(** Comparisons look at the values only. *)
Lemma bins_bren f n x u : bren f (bins (by_val cmp) (n, x) u) = bins (by_val cmp) (f n, x) (bren f u).
Proof.
  unfold bren. induction u as [|l IHl [m y] r IHr]; [reflexivity|]. cbn [bins bmap fst snd]. change (by_val cmp (n, x) (m, y)) with (cmp x y). change (by_val cmp (f n, x) (f m, y)) with (cmp x y).
  destruct (cmp x y); cbn [bmap fst snd]; [rewrite <- IHl|rewrite <- IHr]; reflexivity.
Qed.
Lemma bdel1_bren f n k x u : bdel1 (by_val cmp) (k, x) (bren f u) = bren f <$> bdel1 (by_val cmp) (n, x) u.
Proof.
  induction u as [|l IHl [m y] r IHr]; [reflexivity|]. cbn [bdel1 bren bmap fst snd].
  change (by_val cmp (n, x) (m, y)) with (cmp x y). change (by_val cmp (k, x) (f m, y)) with (cmp x y).
  change (by_val cmp (m, y) (n, x)) with (cmp y x). change (by_val cmp (f m, y) (k, x)) with (cmp y x). fold (bren f l). fold (bren f r).
  destruct (cmp x y); [rewrite IHl; destruct (bdel1 _ _ l); reflexivity|]. destruct (cmp y x); [rewrite IHr; destruct (bdel1 _ _ r); reflexivity|].
  destruct l as [|? [? ?] ?]; [reflexivity|]. destruct r as [|? [? ?] ?]; reflexivity.
Qed.
Lemma bins_all_snd xs : forall n u, bins_all cmp xs (bmap snd u) = bmap snd <$> bins_all (by_val cmp) (number n xs) u.
Proof.
  assert (E : forall n x u, bins cmp x (bmap snd u) = bmap snd (bins (by_val cmp) (n, x) u)).
  { intros n x u. induction u as [|l IHl [m y] r IHr]; [reflexivity|]. cbn [bins bmap snd]. change (by_val cmp (n, x) (m, y)) with (cmp x y).
    destruct (cmp x y); cbn [bmap snd]; congruence. }
  induction xs as [|x xs IH]; intros n u; [reflexivity|]. cbn [bins_all number]. rewrite inorder_bmap, <- (lookup_snd cmp n).
  change (tcmp cmp) with (by_val cmp). destruct (lookup_set _ (n, x) _); [reflexivity|]. cbn [fmap option_fmap option_map]. rewrite (E n), (IH (S n)). reflexivity.
Qed.
Lemma nums_bins n x u m : m ∈ nums (bins (by_val cmp) (n, x) u) -> m = n \/ m ∈ nums u.
Proof.
  unfold nums. induction u as [|l IHl [k y] r IHr]; cbn [bins inorder].
  - intros H. apply elem_of_list_singleton in H. auto.
  - destruct (by_val cmp _ _); cbn [inorder]; rewrite !fmap_app; cbn [fmap list_fmap fst]; intros [H|H]%elem_of_app.
    + destruct (IHl H); [auto|]. right. apply elem_of_app. auto.
    + right. apply elem_of_app. auto.
    + right. apply elem_of_app. auto.
    + apply elem_of_cons in H as [->|H]; [right; apply elem_of_app; right; left|]. destruct (IHr H); [auto|]. right. apply elem_of_app. right. right. assumption.
Qed.
Lemma in_bdel1 p u u' q : bdel1 (by_val cmp) p u = Some u' -> q ∈ inorder u' -> q ∈ inorder u.
Proof.
  revert u'. induction u as [|l IHl k r IHr]; intros u'; cbn [bdel1 inorder]; [discriminate|].
  destruct (by_val cmp p k); [|destruct (by_val cmp k p)].
  - destruct (bdel1 _ p l) as [l'|]; [|discriminate]. intros [= <-]. cbn [inorder]. intros [H|H]%elem_of_app; apply elem_of_app; [left; eauto|right; exact H].
  - destruct (bdel1 _ p r) as [r'|]; [|discriminate]. intros [= <-]. cbn [inorder]. intros [H|H]%elem_of_app; apply elem_of_app; [left; exact H|right].
    apply elem_of_cons in H as [->|H]; [left|right; eauto].
  - intros E H. apply elem_of_app. destruct l; [injection E as <-; right; right; exact H|]. destruct r; [injection E as <-; left; exact H|discriminate].
Qed.
Lemma nums_bdel p u u' m : bdel1 (by_val cmp) p u = Some u' -> m ∈ nums u' -> m ∈ nums u.
Proof. unfold nums. intros E (q & -> & Hq)%elem_of_list_fmap. apply elem_of_list_fmap. exists q. split; [reflexivity|]. eapply in_bdel1; eassumption. Qed.

(** Trees of nodes as trees of addresses and values. *)
Definition shp t : ntree := shape (tag t).
Lemma inorder_shp t : inorder (shp t) = pairs t.
Proof. apply inorder_shape. Qed.
Lemma shape_shp t : bmap snd (shp t) = shape t.
Proof. unfold shp. induction t as [|l IHl a hh x r IHr]; [reflexivity|]. cbn [tag shape bmap snd]. rewrite IHl, IHr. reflexivity. Qed.
Lemma bren_snd f u : bmap snd (bren f u) = bmap snd u.
Proof. unfold bren. induction u as [|l IHl [m y] r IHr]; [reflexivity|]. cbn [bmap snd]. rewrite IHl, IHr. reflexivity. Qed.
Lemma tag_insB x (b : nat) t : tag (insB cmp x b t) = insB (tcmp cmp) (b, x) b (tag t).
Proof. induction t as [|l IHl a hh v r IHr]; [reflexivity|]. cbn [insB tag]. change (tcmp cmp (b, x) (a, v)) with (cmp x v). destruct (cmp x v); cbn [tag]; congruence. Qed.
Lemma shp_ins x (b : nat) t : shp (insB cmp x b t) = bins (by_val cmp) (b, x) (shp t).
Proof. unfold shp. rewrite tag_insB. apply (shape_ins (tcmp cmp)). Qed.
Lemma del1_shp n x t u : bdel1 (by_val cmp) (n, x) (shp t) = Some u -> exists t', bdelF cmp x t = Some t' /\ shp t' = u.
Proof.
  revert u. unfold shp. induction t as [|l IHl a hh v r IHr]; intros u; cbn [tag shape bdel1 bdelF]; [discriminate|].
  change (by_val cmp (n, x) (a, v)) with (cmp x v). change (by_val cmp (a, v) (n, x)) with (cmp v x).
  destruct (cmp x v); [|destruct (cmp v x)].
  - destruct (bdel1 _ _ (shape (tag l))) as [s'|]; cbn [option_map]; [|discriminate]. intros [= <-].
    destruct (IHl _ eq_refl) as (l' & -> & <-). eexists. split; reflexivity.
  - destruct (bdel1 _ _ (shape (tag r))) as [s'|]; cbn [option_map]; [|discriminate]. intros [= <-].
    destruct (IHr _ eq_refl) as (r' & -> & <-). eexists. split; reflexivity.
  - cbn [tdelF]. destruct l; cbn [tag shape]; [intros [= <-]; eauto|]. destruct r; cbn [tag shape]; [intros [= <-]; eauto|discriminate].
Qed.
Lemma del1_snd n x u : bdel1 cmp x (bmap snd u) = bmap snd <$> bdel1 (by_val cmp) (n, x) u.
Proof.
  induction u as [|l IHl [m y] r IHr]; [reflexivity|]. cbn [bdel1 bmap snd].
  change (by_val cmp (n, x) (m, y)) with (cmp x y). change (by_val cmp (m, y) (n, x)) with (cmp y x).
  destruct (cmp x y); [rewrite IHl; destruct (bdel1 _ _ l); reflexivity|]. destruct (cmp y x); [rewrite IHr; destruct (bdel1 _ _ r); reflexivity|].
  destruct l as [|? [? ?] ?]; [reflexivity|]. destruct r as [|? [? ?] ?]; reflexivity.
Qed.
End Ren.

Section Trees.
Context {A : Type} (cmp : A -> A -> bool) (Hc : swo cmp) (pol : policy).
Notation tree := (atree A).
Notation ntree := (bt (nat * A)).
Implicit Types (t l r : tree) (u : ntree) (x v : A) (w : tworld A) (T : gmap nat tree) (s : gmap nat ntree) (C : list (frame A)).
Notation RB := (RB cmp pol).

Lemma bdel_one l a hh v r : l = Lf \/ r = Lf -> tdelF (Br l a hh v r) = Some (match l with Lf => r | _ => l end).
Proof. intros [->| ->]; [reflexivity|destruct l; reflexivity]. Qed.
(** pop of an element with at most one child. *)
Lemma j_pop T w id t x t' : RB T w -> T !! id = Some t -> bdelF cmp x t = Some t' -> bdel1 cmp x (shape t) = Some (shape t') ->
  exists w', on id (bst_pop cmp x) w = Ok (tt, w') /\ RB (<[id := t']> T) w'.
Proof.
  intros H Ht Ed Hs. pose proof (rb_wf _ _ _ _ H _ _ Ht) as W.
  destruct (del1_elems cmp Hc x t t' (bwf_asc _ _ _ _ W) Hs) as [Ee [v Ev]].
  pose proof (length_remove cmp Hc _ _ _ (bwf_asc _ _ _ _ W) Ev) as Hlen.
  assert (Z.of_nat (nodes t) - 1 = Z.of_nat (nodes t')) as Ez by (rewrite !nodes_len, Ee; lia).
  pose proof (pop_nz cmp Hc _ (tw_al w) (Z.of_nat (nodes t)) t x (bwf_nd _ _ _ _ W) (bwf_linked _ _ _ _ W) ltac:(lia)) as P. rewrite Ed in P.
  destruct P as (h' & f' & E & L). rewrite Ez in E. assert (bgoes cmp (tw_heap w) (tw_al w) t h' f' t') as G.
  { eapply lost_goes; [exact W|exact L|]. rewrite Ee. apply remove_asc, (bwf_asc _ _ _ _ W). }
  exact (on_goes _ _ _ _ _ _ _ _ _ _ _ H Ht E G).
Qed.
(** erase with any iterator, given where it would move on to. *)
Lemma erase_gen o nx C l a hh v r h (f : Alloc.alloc) z : let sub := Br l a hh v r in nd (plug C sub) -> linked h None (plug C sub) ->
  next_of o (Some a) (TSt h f (rootp (plug C sub)) z) = Ok (nx, TSt h f (rootp (plug C sub)) z) ->
  match tdelF sub with
  | None => bst_erase cmp o (Some a) (TSt h f (rootp (plug C sub)) z) = UB
  | Some t1 => exists h' f', bst_erase cmp o (Some a) (TSt h f (rootp (plug C sub)) z) =
      Ok (match l, r with Br _ _ _ _ _, Br _ _ _ _ _ => Some a | _, _ => nx end, TSt h' f' (rootp (plug C t1)) (z - 1)) /\
      lost h f None (plug C sub) h' f' (plug C t1)
  end.
Proof.
  intros sub Hn H Hnx. pose proof (linked_unplug _ _ _ H) as Hs. pose proof (nd_unplug _ _ Hn) as Hns. pose proof (plug_length _ _ _ Hn H) as Hsz.
  pose proof Hs as (Ha & _). unfold bst_erase. erewrite bind_ok by hacc. cbn [n_par].
  rewrite (bind_ok _ _ _ _ _ Hnx).
  unfold fuel2. rewrite bind_assoc. erewrite bind_ok by reflexivity. rewrite bind_ret. cbn [t_heap].
  pose proof (try_delete_ok cmp Hc sub (S (S (size h)) + S (S (size h))) h f (rootp (plug C sub)) z (hpar None C) ltac:(discriminate) Hns Hs ltac:(lia)) as P.
  change (rootp sub) with (Some a) in P. destruct (tdelF sub) as [t1|] eqn:Et; [|apply bind_ub, P].
  destruct P as (h1 & f1 & E1 & L1). rewrite (bind_ok _ _ _ _ _ E1).
  destruct (lost_plug _ _ _ _ _ _ _ Hn H L1) as [HC1 Hcn]. change (rootp sub) with (Some a) in HC1.
  pose proof L1 as (Hl1 & Fr & b & Hb & Hbn & Hbf).
  assert (rootp t1 = Some a /\ (match l, r with Br _ _ _ _ _, Br _ _ _ _ _ => True | _, _ => False end) \/
    cnt a t1 = 0%nat /\ (match l, r with Br _ _ _ _ _, Br _ _ _ _ _ => False | _, _ => True end)) as Hcase.
  { pose proof (Hns a) as Hna. unfold sub in Hna, Et. cbn [cnt] in Hna. rewrite one_eq in Hna. cbn [tdelF] in Et.
    destruct l as [|ll la lh lv lr]; [injection Et as <-; right; split; [cbn in Hna; lia|exact I]|].
    destruct r as [|rl rb rh rv rr]; [injection Et as <-; right; split; [lia|exact I]|]. left. split; [|exact I].
    destruct rl; [discriminate|]. destruct (tdelF _); [|discriminate]. injection Et as <-. reflexivity. }
  assert (forall h2, linked h2 None (plug C t1) -> (forall k, cntC k C = 0%nat -> h2 !! k = h1 !! k) -> lost h f None (plug C sub) h2 f1 (plug C t1)) as Hlost.
  { intros h2 H2 F2. split_and!; [exact H2| |].
    - intros k Hk. rewrite cnt_plug in Hk. rewrite F2 by lia. apply Fr. lia.
    - exists b. split; [intros k; rewrite !cnt_plug; specialize (Hb k); lia|]. split; [|exact Hbf]. rewrite F2; [exact Hbn|].
      specialize (Hn b). rewrite cnt_plug in Hn. specialize (Hb b). rewrite one_eq in Hb. lia. }
  destruct Hcase as [[Er Hlr]|[Er Hlr]].
  - rewrite Er, ptr_eqb_refl. cbn [negb]. exists h1, f1. split.
    + replace (rootp (plug C t1)) with (rootp (plug C sub)) by (rewrite !rootp_plug, Er; reflexivity).
      destruct l, r; try contradiction. reflexivity.
    + apply Hlost; [|auto]. apply linked_plug. rewrite Er. split; assumption.
  - replace (match l, r with Br _ _ _ _ _, Br _ _ _ _ _ => Some a | _, _ => nx end) with nx by (destruct l, r; (reflexivity || contradiction)).
    rewrite ptr_eqb_ne. 2:{ intros E. symmetry in E. apply rootp_cnt in E. lia. }
    cbn [negb]. destruct C as [|F C].
    + cbn [hpar is_null plug] in *. rewrite (bind_ok _ _ _ _ _ (update_root_ok _ _ _ _ _ Hl1)). exists h1, f1. split; [reflexivity|apply Hlost; auto].
    + cbn [hpar is_null] in *. cbn [linkedC] in HC1. destruct HC1 as [HF HC].
      assert (cntF a F = 0%nat) as Haf. { specialize (Hn a). rewrite cnt_plug in Hn. unfold sub in Hn. cbn [cntC cnt] in Hn. rewrite one_eq in Hn. lia. }
      destruct (set_child0 h1 f1 (rootp (plug (F :: C) sub)) (z - 1) (hpar None C) F a t1) as (h2 & E2 & H2 & F2); try assumption.
      { intros k. specialize (Hcn k). cbn [cntC] in Hcn. lia. }
      rewrite <- bind_assoc, (bind_ok _ _ _ _ _ E2). exists h2, f1. rewrite (rootp_plug_ne _ _ t1) by discriminate. split; [reflexivity|].
      apply Hlost.
      * cbn [plug]. apply linked_plug. rewrite rootp_fill1. split; [|exact H2].
        eapply linkedC_same; [|exact HC]. intros k Hk. apply F2. specialize (Hcn k). cbn [cntC] in Hcn. lia.
      * intros k Hk. cbn [cntC] in Hk. apply F2. lia.
Qed.
Lemma j_erase T w id t o nx C l a hh v r : RB T w -> T !! id = Some t -> t = plug C (Br l a hh v r) -> l = Lf \/ r = Lf ->
  (forall rt z, next_of o (Some a) (TSt (tw_heap w) (tw_al w) rt z) = Ok (nx, TSt (tw_heap w) (tw_al w) rt z)) ->
  exists w', on id (bst_erase cmp o (Some a)) w = Ok (nx, w') /\ RB (<[id := plug C (match l with Lf => r | _ => l end)]> T) w'.
Proof.
  intros H Ht Et Hlr Hnx. pose proof (rb_wf _ _ _ _ H _ _ Ht) as W.
  set (t' := plug C (match l with Lf => r | _ => l end)) in *.
  assert (elems t = (elemsL C ++ elems l) ++ v :: (elems r ++ elemsR C)) as Eel by (rewrite Et, elems_plug; cbn [elems]; rewrite <- !app_assoc; reflexivity).
  assert (elems t' = (elemsL C ++ elems l) ++ (elems r ++ elemsR C)) as Eel'.
  { unfold t'. rewrite elems_plug. destruct Hlr as [->| ->]; [cbn [elems]; rewrite app_nil_r; reflexivity|]. destruct l; cbn [elems app]; rewrite <- ?app_assoc; reflexivity. }
  assert (Z.of_nat (nodes t) - 1 = Z.of_nat (nodes t')) as Ez. { rewrite !nodes_len, Eel, Eel', !app_length; cbn [length]. rewrite ?app_length. lia. }
  pose proof (erase_gen o nx C l a hh v r (tw_heap w) (tw_al w) (Z.of_nat (nodes t))) as P. cbn zeta in P. rewrite <- Et, bdel_one in P by exact Hlr.
  destruct (P (bwf_nd _ _ _ _ W) (bwf_linked _ _ _ _ W) (Hnx _ _)) as (h' & f' & E & L). fold t' in E, L. rewrite Ez in E.
  assert (bgoes cmp (tw_heap w) (tw_al w) t h' f' t') as G.
  { eapply lost_goes; [exact W|exact L|]. pose proof (bwf_asc _ _ _ _ W) as Ha. rewrite Eel in Ha. rewrite Eel'.
    rewrite <- (remove_eq cmp Hc _ _ _ Ha v) by apply (equiv_refl _ Hc). apply remove_asc, Ha. }
  replace (match l, r with Br _ _ _ _ _, Br _ _ _ _ _ => Some a | _, _ => nx end) with nx in E by (destruct Hlr as [->| ->]; [reflexivity|destruct l; reflexivity]).
  exact (on_goes _ _ _ _ _ _ _ _ _ _ _ H Ht E G).
Qed.
(** erase at what find returned, then reading it. *)
Lemma w_erase_at T w id t x t' : RB T w -> T !! id = Some t -> bdelF cmp x t = Some t' -> bdel1 cmp x (shape t) = Some (shape t') ->
  exists w', on id (p <- bt_find cmp x ;; q <- bst_erase cmp InOrder p ;; deref q) w = Ok (next_set cmp x (elems t), w') /\ RB (<[id := t']> T) w'.
Proof.
  intros H Ht Ed Hs. pose proof (rb_wf _ _ _ _ H _ _ Ht) as W. destruct (del1_zip cmp x t _ Hs) as (C & l & a & hh & v & r & Et & He & Hlr & Hat & Ed' & _).
  assert (t' = plug C (match l with Lf => r | _ => l end)) as -> by congruence. set (t' := plug C (match l with Lf => r | _ => l end)) in *.
  destruct (del1_elems cmp Hc x t t' (bwf_asc _ _ _ _ W) Hs) as [Ee [v0 Ev]].
  pose proof (length_remove cmp Hc _ _ _ (bwf_asc _ _ _ _ W) Ev) as Hlen.
  assert (Z.of_nat (nodes t) - 1 = Z.of_nat (nodes t')) as Ez by (rewrite !nodes_len, Ee; lia).
  assert (next_set cmp x (elems t) = head (elems r ++ elemsR C)) as En.
  { assert (elems t = (elemsL C ++ elems l) ++ v :: (elems r ++ elemsR C)) as Eel by (rewrite Et, elems_plug; cbn [elems]; rewrite <- !app_assoc; reflexivity).
    pose proof (bwf_asc _ _ _ _ W) as Ha. rewrite Eel in Ha |- *. apply (next_eq cmp Hc _ _ _ Ha _ He). }
  pose proof (erase_at cmp Hc C l a hh v r (tw_heap w) (tw_al w) (Z.of_nat (nodes t))) as P. cbn zeta in P. rewrite <- Et, bdel_one in P by exact Hlr.
  destruct (P (bwf_nd _ _ _ _ W) (bwf_linked _ _ _ _ W)) as (h' & f' & E & L). fold t' in E, L. rewrite Ez in E.
  assert (bgoes cmp (tw_heap w) (tw_al w) t h' f' t') as G.
  { eapply lost_goes; [exact W|exact L|]. rewrite Ee. apply remove_asc, (bwf_asc _ _ _ _ W). }
  edestruct (on_goes cmp pol T w id t (p <- bt_find cmp x ;; q <- bst_erase cmp InOrder p ;; deref q)) as (w' & E' & H');
    [exact H|exact Ht| |exact G|exists w'; split; [exact E'|exact H']].
  rewrite (bind_ok _ _ _ _ _ (find_ok cmp x t _ _ _ (bwf_nd _ _ _ _ W) (bwf_linked _ _ _ _ W))). rewrite Hat.
  rewrite (bind_ok _ _ _ _ _ E). rewrite En.
  replace (match l, r with Br _ _ _ _ _, Br _ _ _ _ _ => Some a | _, _ => TreeIter.next_pos C r end) with (TreeIter.next_pos C r) by (destruct Hlr as [->| ->]; [reflexivity|destruct l; reflexivity]).
  apply (next_after C l r h' f' _ _ Hlr (proj1 L)).
Qed.
End Trees.
