(** What BinarySearchTree iterators do, over every history. *)
From Coq Require Import Sorted.
From Verif Require Import Base Alloc AllocProofs VectorModel VectorSpec Adapter Hist ListSpec.
From Verif Require Import TreeModel TreeSpec TreeBase TreeSets TreeZip TreeDel TreeErase TreeIter TreeTag TreeObj TreeWorld TreeHist BstWorld BstSpec BstObj BstDel BstHist.
From Verif Require Import ListIterSpec ListIterProofs TreeIterModel TreeIterSpec TreeIterProofs BstIterModel BstIterSpec BstIterProofs BstIterHist BstIterRun.
Open Scope Z_scope.

Theorem j_history_or : forall (A : Type) (cmp : A -> A -> bool), swo cmp -> forall pol, sound pol -> forall ops : list (jop A),
  match srun (js_step cmp) ops jspec0 with
  | SVal (rs, _) => (exists w, mrun (jt_step cmp) ops (tw_init pol, ∅) = Ok (rs, w)) \/
      (mrun (jt_step cmp) ops (tw_init pol, ∅) = Abort /\
       exists ops1 ops2 rs1 s1, ops = ops1 ++ ops2 /\ srun (js_step cmp) ops1 jspec0 = SVal (rs1, s1) /\ refuses pol (btotal (bstrip (j_trees s1))))
  | SAbort => mrun (jt_step cmp) ops (tw_init pol, ∅) = Abort
  | SUnspec => True
  end.
Proof.
  intros A cmp Hc pol Hs ops. pose proof (j_run cmp Hc pol ops Hs) as H. destruct (srun _ ops jspec0) as [[rs s]| |]; [|exact H|exact I].
  destruct H as [(w & R & _)|H]; eauto.
Qed.
Theorem j_history : forall (A : Type) (cmp : A -> A -> bool), swo cmp -> forall pol, sound pol -> grants pol -> forall ops : list (jop A),
  match srun (js_step cmp) ops jspec0 with
  | SVal (rs, _) => exists w, mrun (jt_step cmp) ops (tw_init pol, ∅) = Ok (rs, w)
  | SAbort => mrun (jt_step cmp) ops (tw_init pol, ∅) = Abort
  | SUnspec => True
  end.
Proof.
  intros A cmp Hc pol Hs Hg ops. pose proof (j_history_or A cmp Hc pol Hs ops) as H. destruct (srun _ ops jspec0) as [[rs s]| |]; [|exact H|exact I].
  destruct H as [H|(_ & ops1 & ops2 & rs1 & s1 & _ & _ & Hr)]; [exact H|]. destruct (grants_refuses _ _ Hg Hr).
Qed.

Lemma split_num {A} n (x x' : A) (vs vs' : list (nat * A)) : forall us us', us ++ (n, x) :: vs = us' ++ (n, x') :: vs' -> NoDup (us ++ (n, x) :: vs).*1 -> us = us' /\ x = x' /\ vs = vs'.
Proof.
  induction us as [|[m y] us IH]; intros [|[m' y'] us']; simpl; intros E Hnd.
  - injection E as -> ->. auto.
  - injection E as <- <- ->. exfalso. apply NoDup_cons in Hnd as [Hnd _]. apply Hnd. rewrite fmap_app. apply elem_of_app. right. left.
  - injection E as -> -> <-. exfalso. apply NoDup_cons in Hnd as [Hnd _]. apply Hnd. rewrite fmap_app. apply elem_of_app. right. left.
  - injection E as -> -> E. apply NoDup_cons in Hnd as [_ Hnd]. destruct (IH _ E Hnd) as (-> & -> & ->). auto.
Qed.

Section Top.
Context {A : Type} (cmp : A -> A -> bool) (Hc : swo cmp).
Notation ntree := (bt (nat * A)).
Implicit Types (u v : ntree) (x y : A) (us vs : list (nat * A)).

Lemma j_reach ops rs s : srun (js_step cmp) ops jspec0 = SVal (rs, s) -> exists f w, jRf cmp bump f s w.
Proof. intros E. destruct (j_after cmp Hc bump ops rs s bump_sound bump_grants E) as (w & _ & f & H). eauto. Qed.
Lemma nums_nodup ops rs s id u : srun (js_step cmp) ops jspec0 = SVal (rs, s) -> j_trees s !! id = Some u -> NoDup (nums u).
Proof.
  intros E Eu. destruct (j_reach _ _ _ E) as (f & w & H). pose proof (jR_lookup cmp bump f s w id H) as P. rewrite Eu in P. destruct P as (T & t & _ & _ & _ & Er & W).
  apply (NoDup_fmap_1 f). unfold nums. rewrite <- renl_fst, <- inorder_bren, Er, inorder_shp, pairs_addrs. apply addrs_nodup, (bwf_nd _ _ _ _ W).
Qed.
Lemma walk_nodup o u : NoDup (nums u) -> NoDup (walk o u).*1.
Proof. destruct o; cbn [walk]; intros H; [rewrite (fmap_Permutation fst _ _ (pre_perm u)); exact H|exact H|constructor]. Qed.

(** No two elements share a number. *)
Theorem j_unique1 : forall (ops : list (jop A)) rs s o id u us n x vs,
  srun (js_step cmp) ops jspec0 = SVal (rs, s) -> j_trees s !! id = Some u -> walk o u = us ++ (n, x) :: vs ->
  where_at o n (j_trees s) = Some (id, (us, x, vs)).
Proof.
  intros ops rs s o id u us n x vs E Hl Hw. destruct (j_reach _ _ _ E) as (f & w & HR).
  pose proof (at_nums _ _ _ _ _ _ Hw) as Hn.
  destruct (where_at o n (j_trees s)) as [[id' [[us' x'] vs']]|] eqn:Ew.
  - apply where_at_some in Ew as (u' & Hl' & Hw'). pose proof (at_nums _ _ _ _ _ _ Hw') as Hn'.
    destruct (jR_inj cmp bump f s w _ _ _ _ _ _ HR Hl' Hl Hn' Hn eq_refl) as [-> _]. rewrite Hl in Hl'. injection Hl' as <-.
    rewrite Hw in Hw'. destruct (split_num _ _ _ _ _ _ _ Hw') as (-> & -> & ->); [|reflexivity].
    rewrite <- Hw. apply walk_nodup. eapply nums_nodup; eassumption.
  - exfalso. unfold where_at in Ew. assert (Hx : (walk o <$> j_trees s) !! id = Some (us ++ (n, x) :: vs)) by (rewrite lookup_fmap, Hl; cbn; rewrite Hw; reflexivity).
    eapply where_is_none in Ew; [|exact Hx]. apply Ew. rewrite fmap_app. apply elem_of_app. right. left.
Qed.

(** Equivalent elements of a tree are the same. *)
Lemma same_elem ops rs s id u (p q r : nat * A) : srun (js_step cmp) ops jspec0 = SVal (rs, s) -> j_trees s !! id = Some u ->
  In q (inorder u) -> In r (inorder u) -> equivb (by_val cmp) p q = true -> equivb (by_val cmp) p r = true -> q = r.
Proof.
  intros E Eu Hq Hr Eq Er. destruct (j_reach _ _ _ E) as (f & w & (T & HT & HR & _)). pose proof (jlook f _ T id HR) as P. rewrite Eu in P.
  destruct P as (t & Ht & _ & _ & Hv). pose proof (bwf_asc _ _ _ _ (rb_wf _ _ _ _ HT _ _ Ht)) as Ha. rewrite <- Hv in Ha.
  apply (asc_snd cmp) in Ha. pose proof (tcmp_swo cmp Hc) as Hct.
  assert (G : forall q, In q (inorder u) -> equivb (by_val cmp) p q = true -> lookup_set (by_val cmp) p (inorder u) = Some q).
  { intros q0 Hq0 E0. apply in_split in Hq0 as (us & vs & Hs). rewrite Hs in Ha |- *. apply (lookup_eq _ Hct _ _ _ Ha). apply equivb_true, E0. }
  pose proof (G _ Hq Eq). pose proof (G _ Hr Er). congruence.
Qed.
Lemma bdel1_keep (p q : nat * A) u : forall u', bdel1 (by_val cmp) p u = Some u' -> In q (inorder u) -> equivb (by_val cmp) p q = false -> In q (inorder u').
Proof.
  induction u as [|l IHl k r IHr]; intros u'; cbn [bdel1 inorder]; [discriminate|].
  destruct (by_val cmp p k) eqn:E1; [|destruct (by_val cmp k p) eqn:E2].
  - destruct (bdel1 _ p l) as [l'|]; [|discriminate]. intros [= <-] [H|H]%in_app_or Hq; cbn [inorder]; apply in_or_app; [left; eauto|right; exact H].
  - destruct (bdel1 _ p r) as [r'|]; [|discriminate]. intros [= <-] [H|[->|H]]%in_app_or Hq; cbn [inorder]; apply in_or_app; [left; exact H|right; left; reflexivity|right; right; eauto].
  - intros E H Hq. assert (k <> q) by (intros ->; unfold equivb in Hq; rewrite E1, E2 in Hq; discriminate).
    apply in_app_or in H as [H|[H|H]]; [|congruence|].
    + destruct l; [destruct H|]. destruct r; [|discriminate]. injection E as <-. exact H.
    + destruct l; [injection E as <-; exact H|]. destruct r; [destruct H|discriminate].
Qed.
Lemma in_bins (p q : nat * A) u : In q (inorder u) -> In q (inorder (bins (by_val cmp) p u)).
Proof.
  induction u as [|l IHl k r IHr]; cbn [bins inorder]; [intros []|]. destruct (by_val cmp p k); cbn [inorder]; intros [H|[H|H]]%in_app_or; apply in_or_app; cbn [In]; auto.
Qed.

(** An element lives until a step removes it. *)
Theorem j_kept1 : forall (ops : list (jop A)) rs s o id us n x vs op r s',
  srun (js_step cmp) ops jspec0 = SVal (rs, s) -> where_at o n (j_trees s) = Some (id, (us, x, vs)) ->
  js_step cmp op s = SVal (r, s') -> jremoves cmp op s id n x = false ->
  exists us' vs', where_at o n (j_trees s') = Some (home op id, (us', x, vs')).
Proof.
  intros ops rs s ord id us n x vs o r s' E Hw Ho Hr.
  assert (E' : srun (js_step cmp) (ops ++ [o]) jspec0 = SVal (rs ++ [r], s')).
  { rewrite srun_app, E. cbn [srun]. rewrite Ho. reflexivity. }
  apply where_at_some in Hw as (u & Hu & Hw). assert (Hord : ord <> PostOrder) by (intros ->; destruct us; discriminate).
  assert (Hin : In (n, x) (inorder u)).
  { apply elem_of_list_In, (in_walk ord). rewrite Hw. apply elem_of_app. right. left. }
  assert (G : exists v, j_trees s' !! home o id = Some v /\ In (n, x) (inorder v)).
  2: { destruct G as (v & G & Gin). assert (Gw : In (n, x) (walk ord v)).
       { destruct ord; [|exact Gin|congruence]. cbn [walk]. apply elem_of_list_In. rewrite pre_perm. apply elem_of_list_In, Gin. }
       apply in_split in Gw as (us' & vs' & Gw). exists us', vs'. eapply j_unique1; eassumption. }
  assert (same : exists v, j_trees s !! id = Some v /\ In (n, x) (inorder v)) by eauto.
  assert (put : forall i ps, (i = id -> In (n, x) (inorder ps)) -> exists l, <[i := ps]> (j_trees s) !! id = Some l /\ In (n, x) (inorder l)).
  { intros i ps Hi. destruct (decide (i = id)) as [->|Hne]; [rewrite lookup_insert; eauto|rewrite lookup_insert_ne by exact Hne; exact same]. }
  assert (Hdel : forall i y ps ps', j_trees s !! i = Some ps -> bdel1 (by_val cmp) (j_next s, y) ps = Some ps' -> (i =? id)%nat && equivb cmp y x = false -> i = id -> In (n, x) (inorder ps')).
  { intros i y ps ps' Ei Ed Hq ->. rewrite Nat.eqb_refl in Hq. cbn [andb] in Hq. eapply bdel1_keep; [exact Ed|congruence|exact Hq]. }
  destruct o as [o|k i o|k i o|k i y|k i j|k j|k|k j|k|k j|k j]; cbn [js_step jremoves home] in *; unfold with_bt, with_jt, move_jt in Ho;
    repeat match type of Ho with
    | context [match j_its s !! ?k with _ => _ end] => destruct (j_its s !! k) as [?|] eqn:?; [|discriminate]
    end.
  - unfold btrees_step in Ho.
    destruct o as [i|i xs|i|i y|i y|i y|i y|i|i|i|i o|i|i o|i src|i src]; cbn [bop_num bs_step jremoves home] in *; unfold no_bt, with_bt in Ho;
      (destruct (j_trees s !! i) as [ps|] eqn:Ei; try discriminate).
    + injection Ho as <- <-. apply put. congruence.
    + destruct (bins_all _ _ _); [|discriminate]. injection Ho as <- <-. apply put. congruence.
    + injection Ho as <- <-. cbn [j_trees]. rewrite lookup_delete_ne by (apply Nat.eqb_neq, Hr). exact same.
    + destruct (lookup_set _ _ _); [discriminate|]. injection Ho as <- <-. apply put. intros ->. apply in_bins. congruence.
    + destruct ps as [|p1 p2 p3] eqn:Ep; [injection Ho as <- <-; exact same|]. rewrite <- Ep in *. destruct (bdel1 _ _ ps) as [ps'|] eqn:Ed; [|discriminate].
      injection Ho as <- <-. apply put. eapply Hdel; eassumption.
    + injection Ho as <- <-. exact same.
    + destruct (bdel1 _ _ ps) as [ps'|] eqn:Ed; [|discriminate]. injection Ho as <- <-. apply put. eapply Hdel; eassumption.
    + injection Ho as <- <-. exact same.
    + injection Ho as <- <-. exact same.
    + injection Ho as <- <-. exact same.
    + destruct o; [injection Ho as <- <-; exact same|destruct ps; [discriminate|injection Ho as <- <-; exact same]|destruct ps; discriminate].
    + injection Ho as <- <-. apply put. intros ->. rewrite Nat.eqb_refl in Hr. discriminate.
    + destruct o; try discriminate. injection Ho as <- <-. exact same.
    + destruct (j_trees s !! src) as [ps|] eqn:Es; [|discriminate]. injection Ho as <- <-. cbn [j_trees].
      destruct (Nat.eqb_spec src id) as [->|Hne]; [rewrite lookup_insert; exists ps; split; [reflexivity|congruence]|].
      rewrite lookup_insert_ne by congruence. rewrite lookup_insert_ne by exact Hne. exact same.
    + destruct (j_trees s !! src) as [ps2|] eqn:Es; [|discriminate]. destruct (Nat.eqb_spec i src) as [->|Hd].
      * injection Ho as <- <-. cbn [j_trees]. destruct (Nat.eqb_spec src id) as [->|]; exact same.
      * injection Ho as <- <-. cbn [j_trees negb] in *. rewrite andb_true_r in Hr. apply Nat.eqb_neq in Hr.
        destruct (Nat.eqb_spec src id) as [->|Hne]; [rewrite lookup_insert; exists ps2; split; [reflexivity|congruence]|].
        rewrite lookup_insert_ne by congruence. rewrite lookup_insert_ne by exact Hne. exact same.
  - destruct (j_trees s !! i) as [ps|]; try discriminate. destruct o, ps; try discriminate; injection Ho as <- <-; exact same.
  - destruct (j_trees s !! i) as [ps|]; try discriminate. injection Ho as <- <-. exact same.
  - destruct (j_trees s !! i) as [ps|]; try discriminate. injection Ho as <- <-. exact same.
  - destruct (j_trees s !! i) as [ps|] eqn:Ei; try discriminate. destruct p as [o [m|]]; [|discriminate].
    destruct (where_at o m (j_trees s)) as [[i' [[us2 x2] vs2]]|] eqn:Em; [|discriminate].
    destruct (Nat.eqb_spec i' i) as [->|]; [|discriminate]. destruct (bdel1 _ _ ps) as [ps'|] eqn:Ed; [|discriminate]. injection Ho as <- <-. cbn [put_jt j_trees].
    apply put. intros ->. apply Nat.eqb_neq in Hr. apply where_at_some in Em as (u2 & Hu2 & Hw2).
    assert (u2 = u) as -> by congruence. assert (ps = u) as -> by congruence.
    eapply bdel1_keep; [exact Ed|exact Hin|]. destruct (equivb (by_val cmp) (m, x2) (n, x)) eqn:Eq; [|reflexivity].
    assert (Hm : In (m, x2) (inorder u)) by (apply elem_of_list_In, (in_walk o); rewrite Hw2; apply elem_of_app; right; left).
    assert ((n, x) = (m, x2)); [|congruence]. apply (same_elem _ _ _ _ _ (m, x2) _ _ E Hu Hin Hm Eq). unfold equivb. change (by_val cmp (m, x2) (m, x2)) with (cmp x2 x2). rewrite (c_irr cmp Hc). reflexivity.
  - injection Ho as <- <-. exact same.
  - destruct (next_at _ _); [|discriminate]. injection Ho as <- <-. exact same.
  - destruct (next_at _ _); [|discriminate]. injection Ho as <- <-. exact same.
  - destruct (snd p) as [m|]; [|discriminate]. destruct (where_at InOrder m (j_trees s)) as [[i' [[us2 x2] vs2]]|] eqn:Em; [|discriminate]. injection Ho as <- <-. exact same.
  - destruct (_ && _); [|discriminate]. injection Ho as <- <-. exact same.
  - destruct (_ && _); [|discriminate]. injection Ho as <- <-. exact same.
Qed.

(** Without the numbers the trees are those of [bs_step]. *)
Theorem j_trees_strip1 : forall (o : bop A) (s : jspec),
  bs_step cmp o (bstrip (j_trees s)) =
  match btrees_step cmp o s with SVal (r, s') => SVal (r, bstrip (j_trees s')) | SAbort => SAbort | SUnspec => SUnspec end.
Proof.
  intros o [l nxt its]. unfold btrees_step.
  assert (Hk : forall k, bstrip l !! k = bmap snd <$> l !! k) by (intros k; apply lookup_fmap).
  assert (Hlk : forall n x ps, lookup_set cmp x (ps.*2 : list A) = snd <$> lookup_set (by_val cmp) (n, x) ps) by (intros; symmetry; apply (lookup_snd cmp)).
  assert (Hnx : forall n x ps, next_set cmp x (ps.*2 : list A) = snd <$> next_set (by_val cmp) (n, x) ps) by (intros; symmetry; apply (next_snd cmp)).
  assert (Hins : forall id u, bstrip (<[id := u]> l) = <[id := bmap snd u]> (bstrip l)) by (intros; apply fmap_insert).
  assert (Hbins : forall n x u, bins cmp x (bmap snd u) = bmap snd (bins (by_val cmp) (n, x) u)).
  { intros n x u. induction u as [|a IHl [m y] b IHr]; [reflexivity|]. cbn [bins bmap snd]. change (by_val cmp (n, x) (m, y)) with (cmp x y). destruct (cmp x y); cbn [bmap snd]; congruence. }
  destruct o; cbn [bop_num bs_step j_trees j_next]; unfold no_bt, with_bt; rewrite ?Hk;
    try (destruct (l !! id) as [u|] eqn:E); try (destruct (l !! src) as [v|] eqn:E2); cbn [fmap option_fmap option_map]; try reflexivity;
    rewrite ?inorder_bmap, ?preorder_bmap.
  - cbn [j_trees]. rewrite Hins. reflexivity.
  - change (@BE A) with (bmap snd (@BE (nat * A))). rewrite (bins_all_snd cmp xs nxt). destruct (bins_all _ _ _); [|reflexivity]. cbn [fmap option_fmap option_map j_trees]. rewrite Hins. reflexivity.
  - cbn [j_trees]. unfold bstrip. rewrite fmap_delete. reflexivity.
  - rewrite (Hlk nxt). destruct (lookup_set (by_val cmp) _ _); [reflexivity|]. cbn [fmap option_fmap option_map j_trees]. rewrite Hins, (Hbins nxt). reflexivity.
  - destruct u as [|u1 p u2] eqn:Eu; [reflexivity|]. rewrite <- Eu. assert (Hm : forall X (a b : X), match bmap snd u with BE => a | BN _ _ _ => b end = b) by (rewrite Eu; reflexivity).
    rewrite Hm, (del1_snd cmp nxt).
    destruct (bdel1 (by_val cmp) _ u); [|reflexivity]. cbn [fmap option_fmap option_map j_trees]. rewrite Hins. reflexivity.
  - rewrite (Hlk nxt). reflexivity.
  - rewrite (del1_snd cmp nxt), (Hnx nxt). destruct (bdel1 (by_val cmp) _ u); [|reflexivity]. cbn [fmap option_fmap option_map j_trees tout_map]. rewrite Hins. reflexivity.
  - rewrite fmap_length. reflexivity.
  - rewrite fmap_length. reflexivity.
  - destruct u; reflexivity.
  - destruct o, u; reflexivity.
  - cbn [j_trees]. rewrite Hins. reflexivity.
  - destruct o; reflexivity.
  - cbn [j_trees]. unfold bstrip. rewrite !fmap_insert. reflexivity.
  - destruct (Nat.eqb id src); [reflexivity|]. cbn [j_trees]. unfold bstrip. rewrite !fmap_insert. reflexivity.
Qed.

(** erase at a node with two children. *)
Lemma below_zip f n (v : ntree) u : forall t, bren f u = shp t -> below_num n u = Some v -> exists C t', t = plug C t' /\ bren f v = shp t'.
Proof.
  induction u as [|l IHl [m y] r IHr]; intros t Er; cbn [below_num]; [discriminate|]. destruct (Nat.eqb m n).
  - intros [= <-]. exists [], t. auto.
  - destruct t as [|tl a hh z tr]; [discriminate|]. unfold bren, shp in Er. cbn [bmap tag shape fst snd] in Er. injection Er as El <- <- Er.
    destruct (below_num n l) as [w|].
    + intros [= ->]. destruct (IHl tl El eq_refl) as (C & t' & -> & Et). exists (C ++ [FL (f m) hh y tr]), t'. rewrite plug_app. auto.
    + intros Ew. destruct (IHr tr Er Ew) as (C & t' & -> & Et). exists (C ++ [FR tl (f m) hh y]), t'. rewrite plug_app. auto.
Qed.
Lemma below_in n v u q : below_num n u = Some v -> In q (inorder v) -> In q (inorder u).
Proof.
  induction u as [|l IHl [m y] r IHr]; cbn [below_num]; [discriminate|]. destruct (Nat.eqb m n); [intros [= <-]; auto|].
  cbn [inorder]. intros E H. apply in_or_app. destruct (below_num n l); [left; apply IHl; assumption|right; right; auto].
Qed.

Theorem j_two_children1 : forall (pol : policy), sound pol -> grants pol -> forall (ops : list (jop A)) rs s i id j k o ok n m x y u a p b c d,
  srun (js_step cmp) ops jspec0 = SVal (rs, s) -> j_its s !! j = Some (o, Some n) -> o <> PostOrder -> j_trees s !! id = Some u ->
  below_num n u = Some (BN (BN a p b) (n, x) (BN c (m, y) d)) -> j_its s !! k = Some (ok, Some m) -> k <> i ->
  mrun (jt_step cmp) (ops ++ [JErase i id j; JRead k]) (tw_init pol, ∅) = UB \/
  exists z w, mrun (jt_step cmp) (ops ++ [JErase i id j; JRead k]) (tw_init pol, ∅) = Ok (rs ++ [OUnit; OOpt (Some z)], w) /\ cmp y z = true.
Proof.
  intros pol Hs Hg ops rs s i id j k o ok n m x y u a p b c d E Ej Ho Eu Eb Ek Hki.
  destruct (j_after cmp Hc pol ops rs s Hs Hg E) as (w & R & f & H).
  rewrite (mrun_app _ _ _ _ _ _ R). cbn [mrun jt_step].
  assert (Hin : In (n, x) (inorder u)) by (eapply below_in; [exact Eb|]; cbn [inorder]; apply in_or_app; right; left; reflexivity).
  assert (exists us vs, walk o u = us ++ (n, x) :: vs) as (us & vs & Hw).
  { apply in_split. destruct o; [|exact Hin|congruence]. cbn [walk]. apply elem_of_list_In. rewrite pre_perm. apply elem_of_list_In, Hin. }
  pose proof (j_unique1 _ _ _ _ _ _ _ _ _ _ E Eu Hw) as Ew.
  destruct (jR_at cmp pol _ _ _ _ _ _ _ _ _ H Ew) as (T & u0 & t & _ & _ & _ & _ & HT & HR & Eu0 & Ht & Er & W & _ & _ & Hnx).
  assert (u0 = u) as -> by congruence.
  destruct (below_zip _ _ _ _ _ Er Eb) as (C & t' & Et & Et').
  destruct t' as [|tl a1 hh v [|rl b1 hb v2 rr]]; [discriminate|discriminate|]. unfold bren, shp in Et'. cbn [bmap tag shape fst snd] in Et'.
  destruct tl as [|tll a2 h2 v3 tlr]; [discriminate|]. injection Et' as _ _ _ _ <- <- _ <- <- _.
  pose proof (erase_gen cmp Hc o (f <$> first_num vs) C (Br tll a2 h2 v3 tlr) (f n) hh x (Br rl (f m) hb y rr) (tw_heap (fst w)) (tw_al (fst w)) (Z.of_nat (nodes t))) as P.
  cbn zeta in P. rewrite <- Et in P. specialize (P (bwf_nd _ _ _ _ W) (bwf_linked _ _ _ _ W) (Hnx _ _)).
  assert (Hget : forall w' : jworld A, snd w' = snd w \/ (exists q, snd w' = <[i := q]> (snd w)) -> get_jt k w' = Ok ((ok, Some (f m)), w')).
  { intros w' Hw'. unfold get_jt. destruct H as (_ & _ & _ & _ & _ & Hits). assert (snd w' !! k = snd w !! k) as -> by (destruct Hw' as [->|[q ->]]; [reflexivity|apply lookup_insert_ne; congruence]).
    rewrite Hits, lookup_fmap, Ek. reflexivity. }
  assert (Hend : forall q (h' : gmap nat (node A)) f' rt, bst_erase cmp o (Some (f n)) (TSt (tw_heap (fst w)) (tw_al (fst w)) (rootp t) (Z.of_nat (nodes t))) =
      Ok (q, TSt h' f' (rt) (Z.of_nat (nodes t) - 1)) ->
    exists w', (p <- get_jt j ;; q <- jt_erase cmp id p ;; set_jt i q ;;; ret (@OUnit A)) w = Ok (OUnit, w') /\ tw_heap (fst w') = h' /\ tw_al (fst w') = f' /\ exists q, snd w' = <[i := q]> (snd w)).
  { intros q h' f' rt E2. rewrite (bind_ok _ _ _ _ _ (get_jt_ok cmp pol _ _ _ _ _ H Ej)). unfold jt_erase. rewrite bind_assoc.
    cbn [place_of fst snd fmap option_fmap option_map].
    erewrite bind_ok by (apply on_bst_ok; rewrite (on_at cmp pol _ _ _ _ _ HT Ht), E2; reflexivity).
    eexists. split; [reflexivity|]. cbn. eauto. }
  assert (Hub : bst_erase cmp o (Some (f n)) (TSt (tw_heap (fst w)) (tw_al (fst w)) (rootp t) (Z.of_nat (nodes t))) = UB ->
    (p <- get_jt j ;; q <- jt_erase cmp id p ;; set_jt i q ;;; ret (@OUnit A)) w = UB).
  { intros E2. rewrite (bind_ok _ _ _ _ _ (get_jt_ok cmp pol _ _ _ _ _ H Ej)). unfold jt_erase. rewrite bind_assoc. apply bind_ub.
    cbn [place_of fst snd fmap option_fmap option_map]. unfold on_bst. rewrite (on_at cmp pol _ _ _ _ _ HT Ht), E2. reflexivity. }
  set (sub := Br (Br tll a2 h2 v3 tlr) (f n) hh x (Br rl (f m) hb y rr)) in *.
  pose proof (bwf_nd _ _ _ _ W) as Hnd. pose proof (bwf_asc _ _ _ _ W) as Hasc. rewrite Et in Hnd, Hasc. apply nd_unplug in Hnd as Hnd2. unfold sub in Hnd2.
  destruct rl as [|rll rb rh rv rlr] eqn:Erl; [left; cbn [tdelF sub] in P; rewrite (bind_ub _ _ _ (Hub P)); reflexivity|]. rewrite <- Erl in *.
  destruct rr as [|[|xl xb xh xv xr] cb ch z rr2] eqn:Err.
  - left. replace (tdelF sub) with (Some (Br (Br tll a2 h2 v3 tlr) (f n) hh y rl)) in P by (unfold sub; rewrite Erl; reflexivity).
    destruct P as (h' & f' & E2 & _ & _ & b0 & Hb & Hb0 & _). destruct (Hend _ _ _ _ E2) as (w' & E3 & Hh & _ & Hsn). rewrite (bind_ok _ _ _ _ _ E3).
    assert (b0 = f m) as ->.
    { specialize (Hb (f m)). specialize (Hnd2 (f m)). rewrite Et, !cnt_plug in Hb. unfold sub in Hb. cbn [cnt] in Hb, Hnd2. rewrite one_eq in Hb, Hnd2.
      destruct (decide (b0 = f m)) as [|Hne]; [assumption|]. rewrite (one_ne (f m) b0) in Hb by congruence. lia. }
    rewrite !bind_assoc, (bind_ok _ _ _ _ _ (Hget _ (or_intror Hsn))). unfold on_bst, on_nodes. cbn [snd]. unfold ld_val, ldn, bind. cbn [t_heap]. rewrite Hh, Hb0. reflexivity.
  - left. assert (Hd : tdelF sub = None) by (unfold sub; rewrite ?Err, ?Erl; reflexivity). rewrite Hd in P. rewrite (bind_ub _ _ _ (Hub P)). reflexivity.
  - rewrite <- Err in *. assert (Hd : tdelF sub = option_map (Br (Br tll a2 h2 v3 tlr) (f n) hh y) (option_map (Br rl (f m) hb z) (tdelF rr))) by (unfold sub; rewrite Erl, Err; reflexivity). rewrite Hd in P.
    destruct (tdelF rr) as [t2|]; cbn [option_map] in P; [right|left; rewrite (bind_ub _ _ _ (Hub P)); reflexivity].
    destruct P as (h' & f' & E2 & Hl & _). destruct (Hend _ _ _ _ E2) as (w' & E3 & Hh & _ & Hsn). rewrite (bind_ok _ _ _ _ _ E3).
    rewrite !bind_assoc, (bind_ok _ _ _ _ _ (Hget _ (or_intror Hsn))).
    apply linked_plug in Hl as [_ (_ & _ & Hl)]. destruct Hl as (Hl & _).
    exists z, w'. split.
    + rewrite ?bind_assoc. erewrite bind_ok by (apply on_bst_same; cbn zeta; cbn [snd]; apply ld_val_ok; rewrite Hh; exact Hl). reflexivity.
    + rewrite elems_plug in Hasc. unfold sub in Hasc. set (L := Br tll a2 h2 v3 tlr) in *. rewrite <- Err, <- Erl in Hasc. change (elems (Br L (f n) hh x (Br rl (f m) hb y rr))) with (elems L ++ x :: elems rl ++ y :: elems rr) in Hasc.
      assert (G : forall l1 l2, ascending cmp (l1 ++ y :: l2) -> In z l2 -> cmp y z = true).
      { clear. intros l1. induction l1 as [|q l1 IH]; intros l2 Ha Hz; apply StronglySorted_inv in Ha as [Ha Hf]; [|eauto]. rewrite List.Forall_forall in Hf. auto. }
      apply (G (elemsL C ++ elems L ++ x :: elems rl) (elems rr ++ elemsR C)).
      * repeat (rewrite <- app_assoc; cbn [app]). repeat (rewrite <- app_assoc in Hasc; cbn [app] in Hasc). exact Hasc.
      * apply in_or_app. left. rewrite Err. cbn [elems]. apply in_or_app. right. left. reflexivity.
Qed.
End Top.

Definition j_unique A cmp Hc := @j_unique1 A cmp Hc.
Definition j_kept A cmp Hc := @j_kept1 A cmp Hc.
Definition j_trees_strip A cmp := @j_trees_strip1 A cmp.
Definition j_two_children A cmp Hc := @j_two_children1 A cmp Hc.
