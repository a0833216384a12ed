(** Every history over BinarySearchTree objects and iterators. *)
From Coq Require Import Sorted.
From Verif Require Import Base Alloc AllocProofs VectorModel VectorSpec Adapter Hist ListSpec.
From Verif Require Import TreeModel TreeSpec TreeBase TreeSets TreeZip TreeDel TreeErase TreeIter TreeTag TreeObj TreeWorld TreeHist BstWorld BstSpec BstObj BstDel BstHist.
From Verif Require Import ListIterSpec ListIterProofs TreeIterModel TreeIterSpec TreeIterProofs BstIterModel BstIterSpec BstIterProofs.
Open Scope Z_scope.

Section Trees.
Context {A : Type} (cmp : A -> A -> bool) (Hc : swo cmp) (pol : policy).
Notation tree := (atree A).
Notation ntree := (bt (nat * A)).
Implicit Types (t l r : tree) (u : ntree) (x v : A) (w : tworld A) (T : gmap nat tree) (s : gmap nat ntree) (C : list (frame A)) (f g : nat -> nat).
Notation RB := (RB cmp pol).

Lemma jlook f s T id : bren f <$> s = shp <$> T ->
  match s !! id with Some u => exists t, T !! id = Some t /\ bren f u = shp t /\ bmap snd u = shape t /\ (inorder u).*2 = elems t | None => T !! id = None end.
Proof.
  intros E. assert ((bren f <$> s) !! id = (shp <$> T) !! id) as El by (rewrite E; reflexivity). rewrite !lookup_fmap in El.
  destruct (s !! id) as [u|], (T !! id) as [t|]; try discriminate; [|reflexivity]. injection El as El.
  assert (bmap snd u = shape t) as Es by (rewrite <- (bren_snd f), El; apply shape_shp).
  exists t. split_and!; [reflexivity|exact El|exact Es|]. rewrite <- inorder_bmap, Es. apply inorder_shape.
Qed.
Lemma jstrip f s T : bren f <$> s = shp <$> T -> bstrip s = shape <$> T.
Proof.
  intros E. apply map_eq. intros id. pose proof (jlook f s T id E) as P. unfold bstrip. rewrite !lookup_fmap.
  destruct (s !! id) as [u|]; [destruct P as (t & -> & _ & Hv & _); cbn; rewrite Hv; reflexivity|rewrite P; reflexivity].
Qed.
Lemma j_push_all xs : forall T w id t n f u u', RB T w -> T !! id = Some t -> bren f u = shp t -> (forall m, m ∈ nums u -> (m < n)%nat) ->
  bins_all (by_val cmp) (number n xs) u = Some u' ->
  (exists w' t' g, on id (bst_push_all cmp xs) w = Ok (tt, w') /\ RB (<[id := t']> T) w' /\ bren g u' = shp t' /\
     (forall m, (m < n)%nat -> g m = f m) /\ forall m, m ∈ nums u' -> (m < n + length xs)%nat) \/
  (on id (bst_push_all cmp xs) w = Abort /\ refuses pol (btotal (<[id := bmap snd u']> (shape <$> T)))).
Proof.
  induction xs as [|x xs IH]; intros T w id t n f u u' H Ht Hu Hb; cbn [bst_push_all].
  - cbn [bins_all number]. intros [= <-]. left. destruct (on_query cmp pol T w id t (ret tt) tt H Ht eq_refl) as (w' & E & H').
    exists w', t, f. rewrite (insert_id _ _ _ Ht). split_and!; try assumption; [reflexivity|]. intros m Hm. specialize (Hb m Hm). lia.
  - intros Hs. pose proof Hs as Hs0.
    assert (bmap snd u = shape t) as Es by (rewrite <- (bren_snd f), Hu; apply shape_shp).
    assert ((inorder u).*2 = elems t) as Ee by (rewrite <- inorder_bmap, Es; apply inorder_shape).
    cbn [bins_all number] in Hs. pose proof (lookup_snd cmp n x (inorder u)) as Ex. rewrite Ee in Ex. change (tcmp cmp) with (by_val cmp) in Ex.
    destruct (lookup_set (by_val cmp) (n, x) (inorder u)) eqn:El; [discriminate|]. symmetry in Ex.
    pose proof (w_push cmp Hc pol _ _ _ _ x H Ht Ex) as P. destruct (al_pick (tw_al w)) as [a|] eqn:Ep.
    + destruct P as (w1 & E1 & H1). rewrite (on_bind cmp pol _ _ _ _ _ _ _ _ H Ht E1).
      destruct (ren_new1 a f n) as (g & Hg & Eg).
      destruct (IH _ _ id _ (S n) g (bins (by_val cmp) (n, x) u) u' H1 (lookup_insert _ _ _)) as [(w2 & t2 & g2 & E2 & H2 & Hu2 & Hg2 & Hb2)|[E2 H2]].
      * rewrite bins_bren, Eg, (bren_ext f g u n Hb Hg), Hu, shp_ins. reflexivity.
      * intros m [->|Hm]%nums_bins; [lia|]. specialize (Hb m Hm). lia.
      * exact Hs.
      * left. exists w2, t2, g2. rewrite insert_insert in H2. split_and!; try assumption.
        -- intros m Hm. rewrite Hg2 by lia. apply Hg, Hm.
        -- cbn [length]. intros m Hm. specialize (Hb2 m Hm). lia.
      * right. split; [exact E2|]. rewrite fmap_insert, insert_insert in H2. exact H2.
    + right. split.
      * rewrite (on_at cmp pol _ _ _ _ _ H Ht) in P. rewrite (on_at cmp pol _ _ _ _ _ H Ht).
        destruct (bst_push cmp x _) as [[? ?]| | |] eqn:E; try discriminate. rewrite (bind_abort _ _ _ E). reflexivity.
      * eapply (ins_refused cmp pol); [eassumption..|].
        pose proof (bins_all_snd cmp (x :: xs) n u) as Eb. cbn [number] in Eb. cbn [number] in Hs0. rewrite Hs0, Es in Eb.
        rewrite (length_bins_all cmp (x :: xs) _ _ Eb), inorder_shape. cbn [length]. lia.
Qed.

Definition jagree (n : nat) f (its : gmap nat (ttype * option nat)) (r : sres (tout A * jspec)) (c : res (tout A * tworld A)) : Prop :=
  match r with
  | SVal (x, s') => (exists w' T g, c = Ok (x, w') /\ RB T w' /\ bren g <$> j_trees s' = shp <$> T /\ bbelow (j_next s') (j_trees s') /\
      (n <= j_next s')%nat /\ (forall m, (m < n)%nat -> g m = f m) /\ j_its s' = its) \/ (c = Abort /\ refuses pol (btotal (bstrip (j_trees s'))))
  | SAbort => c = Abort
  | SUnspec => True
  end.
Lemma nums_in u m : m ∈ nums u <-> m ∈ (inorder u).*1.
Proof. reflexivity. Qed.

Lemma j_trees_ok o T w s n f its : RB T w -> bren f <$> s = shp <$> T -> bbelow n s -> jagree n f its (btrees_step cmp o (JSpec s n its)) (b_step cmp o w).
Proof.
  intros H HR Hb. unfold btrees_step. cbn [j_trees j_next j_its].
  assert (forall n x t u, (inorder u).*2 = elems t -> snd <$> lookup_set (by_val cmp) (n, x) (inorder u) = lookup_set cmp x (elems t)) as Hlk.
  { intros n' x t u <-. apply (lookup_snd cmp). }
  assert (forall n x t u, (inorder u).*2 = elems t -> snd <$> next_set (by_val cmp) (n, x) (inorder u) = next_set cmp x (elems t)) as Hnx.
  { intros n' x t u <-. apply (next_snd cmp). }
  assert (forall t u, (inorder u).*2 = elems t -> length (inorder u) = length (elems t)) as Hlen.
  { intros t u <-. symmetry. apply fmap_length. }
  assert (forall t, BE = shp t -> t = Lf) as Hnil by (intros [|? ? ? ? ?]; [reflexivity|discriminate]).
  assert (Hold : forall (x : tout A) T2 w2 (c : res (tout A * tworld A)) s2 k, c = Ok (x, w2) -> RB T2 w2 -> bren f <$> s2 = shp <$> T2 -> bbelow n s2 -> k = 0%nat ->
    jagree n f its (SVal (x, JSpec s2 (n + k) its)) c).
  { intros x T2 w2 c s2 k -> H2 E2 B2 ->. left. exists w2, T2, f. cbn [j_trees j_next j_its]. rewrite Nat.add_0_r. split_and!; auto. }
  assert (Hone : forall (x : tout A) T2 w2 (c : res (tout A * tworld A)) k, c = Ok (x, w2) -> RB T2 w2 -> T2 = T -> k = 0%nat -> jagree n f its (SVal (x, JSpec s (n + k) its)) c).
  { intros x T2 w2 c k Ec H2 -> ->. eapply Hold; (eassumption || reflexivity). }
  assert (Hput : forall u t' id, bren f u = shp t' -> bren f <$> <[id := u]> s = shp <$> <[id := t']> T).
  { intros u t' id E. rewrite !fmap_insert, HR, E. reflexivity. }
  assert (Hbel : forall u id, (forall m, m ∈ nums u -> (m < n)%nat) -> bbelow n (<[id := u]> s)).
  { intros u id Hp. eapply bbelow_insert; [exact Hb|reflexivity|exact Hp]. }
  assert (Hno : forall m, m ∈ nums (@BE (nat * A)) -> (m < n)%nat) by (intros m Hm; inversion Hm).
  assert (Hmv : forall id src u t, s !! src = Some u -> bren f u = shp t -> bren f <$> <[id := u]> (<[src := BE]> s) = shp <$> <[id := t]> (<[src := Lf]> T)).
  { intros id src u t _ E. rewrite !fmap_insert, HR, E. reflexivity. }
  assert (Hmb : forall id src u, s !! src = Some u -> bbelow n (<[id := u]> (<[src := BE]> s))).
  { intros id src u E. eapply bbelow_insert; [apply Hbel, Hno|reflexivity|]. intros m. exact (Hb _ _ m E). }
  destruct o; cbn [bs_step bop_num b_step news]; unfold with_bt, no_bt; try exact I; pose proof (jlook f s T id HR) as Hi;
    (destruct (s !! id) as [u|] eqn:El; [destruct Hi as (t & Ht & Hr & Hsh & Hv)|]; try exact I).
  - destruct (w_new cmp pol _ _ _ H Hi) as (w' & E & H').
    eapply Hold; [rewrite (bind_ok _ _ _ _ _ E); reflexivity|exact H'|apply Hput; reflexivity|apply Hbel, Hno|reflexivity].
  - destruct (bins_all (by_val cmp) (number n xs) BE) as [u|] eqn:Eu; [|exact I].
    destruct (w_new cmp pol _ _ _ H Hi) as (w1 & E & H1). cbn [tout_map].
    destruct (j_push_all xs _ _ id Lf n f BE u H1 (lookup_insert _ _ _) eq_refl Hno Eu) as [(w2 & t' & g & E2 & H2 & Hu & Hg & Hbu)|[E2 H2]].
    + rewrite insert_insert in H2. left. exists w2, (<[id := t']> T), g. cbn [j_trees j_next j_its].
      split_and!; [rewrite (bind_ok _ _ _ _ _ E), (bind_ok _ _ _ _ _ E2); reflexivity|exact H2| | |lia|exact Hg|reflexivity].
      * rewrite !fmap_insert, (bren_all_ext f g s n Hb Hg), HR, Hu. reflexivity.
      * eapply bbelow_insert; [exact Hb|lia|exact Hbu].
    + right. split; [rewrite (bind_ok _ _ _ _ _ E); apply bind_abort, E2|]. cbn [j_trees]. unfold bstrip. rewrite fmap_insert.
      change (bmap snd <$> s) with (bstrip s). rewrite (jstrip _ _ _ HR). rewrite fmap_insert, insert_insert in H2. exact H2.
  - destruct (w_destroy cmp pol _ _ _ _ H Ht) as (w' & E & H').
    eapply Hold; [rewrite (bind_ok _ _ _ _ _ E); reflexivity|exact H'|rewrite !fmap_delete; f_equal; exact HR|apply bbelow_delete, Hb|reflexivity].
  - pose proof (Hlk n x t u Hv) as Ex. destruct (lookup_set (by_val cmp) (n, x) (inorder u)) eqn:Elk; [exact I|]. symmetry in Ex.
    pose proof (w_push cmp Hc pol _ _ _ _ x H Ht Ex) as P. destruct (al_pick (tw_al w)) as [a|] eqn:Ep.
    + destruct P as (w' & E & H'). destruct (ren_new1 a f n) as (g & Hg & Eg). left. exists w', (<[id := insB cmp x a t]> T), g. cbn [j_trees j_next j_its].
      split_and!; [rewrite (bind_ok _ _ _ _ _ E); reflexivity|exact H'| | |lia|exact Hg|reflexivity].
      * rewrite !fmap_insert, (bren_all_ext f g s n Hb Hg), HR, bins_bren, Eg, (bren_ext f g u n (fun m => Hb _ _ m El) Hg), Hr, shp_ins. reflexivity.
      * eapply bbelow_insert; [exact Hb|lia|]. intros m [->|Hm]%nums_bins; [lia|]. pose proof (Hb _ _ _ El Hm). lia.
    + right. split; [apply bind_abort, P|]. cbn [j_trees]. unfold bstrip. rewrite fmap_insert. change (bmap snd <$> s) with (bstrip s). rewrite (jstrip _ _ _ HR).
      eapply (ins_refused cmp pol); [eassumption..|]. rewrite inorder_bmap, fmap_length, length_bins, (Hlen _ _ Hv). lia.
  - destruct u as [|u1 p u2] eqn:Eu.
    + apply Hnil in Hr. subst t. destruct (on_query cmp pol T w id Lf (bst_pop cmp x) tt H Ht eq_refl) as (w' & E & H').
      eapply Hone; [rewrite (bind_ok _ _ _ _ _ E); reflexivity|exact H'|reflexivity|reflexivity].
    + rewrite <- Eu in *. clear Eu u1 p u2. destruct (bdel1 (by_val cmp) (n, x) u) as [u'|] eqn:Ed; [|exact I].
      pose proof (bdel1_bren cmp f n n x u) as E1. rewrite Ed, Hr in E1. destruct (del1_shp cmp n x t _ E1) as (t' & Et & Es').
      pose proof (del1_snd cmp n x u) as E2. rewrite Ed, Hsh in E2. cbn [fmap option_fmap option_map] in E2. rewrite <- (bren_snd f), <- Es', shape_shp in E2.
      destruct (j_pop cmp Hc pol _ _ _ _ x t' H Ht Et E2) as (w' & E & H').
      eapply Hold; [rewrite (bind_ok _ _ _ _ _ E); reflexivity|exact H'|apply Hput; symmetry; exact Es'| |reflexivity].
      apply Hbel. intros m Hm. apply (Hb _ _ m El). eapply nums_bdel; eassumption.
  - destruct (w_find cmp Hc pol _ _ _ _ x H Ht) as (w' & E & H'). cbn [tout_map].
    eapply Hone; [rewrite (bind_ok _ _ _ _ _ E), (Hlk _ _ _ _ Hv); reflexivity|exact H'|reflexivity|reflexivity].
  - destruct (bdel1 (by_val cmp) (n, x) u) as [u'|] eqn:Ed; [|exact I]. cbn [tout_map]. rewrite (Hnx _ _ _ _ Hv).
    pose proof (bdel1_bren cmp f n n x u) as E1. rewrite Ed, Hr in E1. destruct (del1_shp cmp n x t _ E1) as (t' & Et & Es').
    pose proof (del1_snd cmp n x u) as E2. rewrite Ed, Hsh in E2. cbn [fmap option_fmap option_map] in E2. rewrite <- (bren_snd f), <- Es', shape_shp in E2.
    destruct (w_erase_at cmp Hc pol _ _ _ _ x t' H Ht Et E2) as (w' & E & H').
    eapply Hold; [rewrite (bind_ok _ _ _ _ _ E); reflexivity|exact H'|apply Hput; symmetry; exact Es'| |reflexivity].
    apply Hbel. intros m Hm. apply (Hb _ _ m El). eapply nums_bdel; eassumption.
  - rewrite (Hlen _ _ Hv), <- nodes_len. destruct (on_query cmp pol _ _ _ _ bt_size _ H Ht eq_refl) as (w' & E & H').
    eapply Hone; [rewrite (bind_ok _ _ _ _ _ E); reflexivity|exact H'|reflexivity|reflexivity].
  - rewrite (Hlen _ _ Hv), <- nodes_len. destruct (on_query cmp pol _ _ _ _ bt_capacity _ H Ht eq_refl) as (w' & E & H').
    eapply Hone; [rewrite (bind_ok _ _ _ _ _ E); reflexivity|exact H'|reflexivity|reflexivity].
  - destruct (on_query cmp pol _ _ _ _ bt_empty _ H Ht eq_refl) as (w' & E & H').
    eapply Hone; [rewrite (bind_ok _ _ _ _ _ E)|exact H'|reflexivity|reflexivity].
    assert ((Z.of_nat (nodes t) =? 0) = match u with BE => true | _ => false end) as Hz by (destruct u, t; try discriminate; try reflexivity; apply Z.eqb_neq; cbn [nodes]; lia).
    cbn [t_size tout_map]. rewrite Hz. reflexivity.
  - destruct (w_iter cmp pol _ _ _ _ H Ht) as [Hin (wp & Ep & Hp)].
    destruct o; [|destruct u as [|u1 p u2] eqn:Eu; [exact I|]|destruct u; exact I].
    + cbn [tout_map]. rewrite <- preorder_bmap, Hsh, preorder_shape. eapply Hone; [rewrite (bind_ok _ _ _ _ _ Ep); reflexivity|exact Hp|reflexivity|reflexivity].
    + rewrite <- Eu in *. cbn [tout_map]. rewrite Hv. destruct Hin as (w' & E & H'); [intros ->; rewrite Eu in Hr; discriminate|].
      eapply Hone; [rewrite (bind_ok _ _ _ _ _ E); reflexivity|exact H'|reflexivity|reflexivity].
  - destruct (w_clear cmp pol _ _ _ _ H Ht) as (w' & E & H').
    eapply Hold; [rewrite (bind_ok _ _ _ _ _ E); reflexivity|exact H'|apply Hput; reflexivity|apply Hbel, Hno|reflexivity].
  - destruct o; [|exact I|exact I]. destruct (w_traverse cmp pol _ _ _ _ H Ht) as (w' & E & H').
    cbn [tout_map]. rewrite <- preorder_bmap, Hsh, preorder_shape. eapply Hone; [rewrite (bind_ok _ _ _ _ _ E); reflexivity|exact H'|reflexivity|reflexivity].
  - pose proof (jlook f s T src HR) as Hs. destruct (s !! src) as [u|] eqn:Es; [|exact I]. destruct Hs as (t & Ht & Hr & _).
    assert (id <> src) as Hne by (intros ->; congruence).
    destruct (w_new cmp pol _ _ _ H Hi) as (w1 & E1 & H1).
    destruct (w_move cmp pol _ _ id src Lf t H1 (lookup_insert _ _ _)) as (w2 & E2 & H2); [rewrite lookup_insert_ne by congruence; exact Ht|].
    rewrite (proj2 (Nat.eqb_neq id src) Hne) in H2. rewrite (insert_commute _ src id) in H2 by congruence. rewrite insert_insert in H2.
    eapply Hold; [rewrite (bind_ok _ _ _ _ _ E1), (bind_ok _ _ _ _ _ E2); reflexivity|exact H2|eapply Hmv; eassumption|eapply Hmb; exact Es|reflexivity].
  - pose proof (jlook f s T src HR) as Hs. destruct (s !! src) as [u2|] eqn:Es; [|exact I]. destruct Hs as (t2 & Ht2 & Hr2 & _).
    destruct (w_move cmp pol _ _ id src t t2 H Ht Ht2) as (w' & E & H'). destruct (Nat.eqb id src).
    + eapply Hone; [rewrite (bind_ok _ _ _ _ _ E); reflexivity|exact H'|reflexivity|reflexivity].
    + eapply Hold; [rewrite (bind_ok _ _ _ _ _ E); reflexivity|exact H'|eapply Hmv; eassumption|eapply Hmb; exact Es|reflexivity].
Qed.
End Trees.
