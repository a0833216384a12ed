(** AVLTree iterators keep their place. *)
From Coq Require Import Sorted.
From Verif Require Import Base Alloc AllocProofs VectorModel VectorSpec Adapter Hist.
From Verif Require Import TreeModel TreeSpec TreeBase TreeSets TreeRot TreeIns TreeZip TreeSwap TreeDel TreeErase TreeIter TreeTag TreeObj TreeWorld TreeWSpec TreeHist.
From Verif Require Import ListIterSpec ListIterProofs TreeIterModel TreeIterSpec.
Open Scope Z_scope.

Section Trees.
Context {A : Type} (cmp : A -> A -> bool) (Hc : swo cmp) (pol : policy).
Notation tree := (atree A).
Implicit Types (t l r : tree) (x : A) (w : tworld A) (T : gmap nat tree).
Notation RT := (RT cmp pol).

Lemma on_goes_f {X} T w id t (m : M (tst A) X) o h' f' t' : RT T w -> T !! id = Some t ->
  m (TSt (tw_heap w) (tw_al w) (rootp t) (Z.of_nat (nodes t))) = Ok (o, TSt h' f' (rootp t') (Z.of_nat (nodes t'))) ->
  goes cmp (tw_heap w) (tw_al w) t h' f' t' ->
  exists w', on id m w = Ok (o, w') /\ RT (<[id := t']> T) w'.
Proof.
  intros H Ht E G. rewrite (on_at cmp pol _ _ _ _ _ H Ht), E. eexists. split; [reflexivity|]. exact (RT_goes cmp pol _ _ _ _ _ _ _ H Ht G).
Qed.
Lemma f_push T w id t x : RT T w -> T !! id = Some t ->
  match lookup_set cmp x (elems t), al_pick (tw_al w) with
  | None, Some a => exists w' t', on id (avl_push cmp x) w = Ok (tt, w') /\ RT (<[id := t']> T) w' /\
      pairs t' = add_set (by_val cmp) (a, x) (pairs t)
  | _, _ => on id (avl_push cmp x) w = Abort
  end.
Proof.
  intros H Ht. pose proof (push_full cmp Hc _ _ (Z.of_nat (nodes t)) _ x (rt_wf _ _ _ _ H _ _ Ht)) as P.
  destruct (lookup_set cmp x (elems t)); [|destruct (al_pick (tw_al w))].
  - rewrite (on_at cmp pol _ _ _ _ _ H Ht), P. reflexivity.
  - destruct P as (h' & t' & E & G & Ee & Ep).
    replace (Z.of_nat (nodes t) + 1) with (Z.of_nat (nodes t')) in E.
    + destruct (on_goes_f _ _ _ _ _ _ _ _ _ H Ht E G) as (w' & E' & H'). exists w', t'. auto.
    + rewrite !nodes_len, Ee, length_add. lia.
  - rewrite (on_at cmp pol _ _ _ _ _ H Ht), P. reflexivity.
Qed.
Lemma f_pop T w id t x y0 n : RT T w -> T !! id = Some t -> lookup_set cmp x (elems t) = Some y0 ->
  exists w' t', on id (avl_pop cmp x) w = Ok (tt, w') /\ RT (<[id := t']> T) w' /\
    pairs t' = remove_set (by_val cmp) (n, x) (pairs t).
Proof.
  intros H Ht Ex. assert (nodes t <> 0%nat) as Hz by (destruct t; [discriminate|cbn; lia]).
  pose proof (pop_full cmp Hc _ _ (Z.of_nat (nodes t)) _ x (rt_wf _ _ _ _ H _ _ Ht) ltac:(lia)) as P. rewrite Ex in P.
  destruct P as (h' & t' & b & E & G & Ee & _ & Ep).
  replace (Z.of_nat (nodes t) - 1) with (Z.of_nat (nodes t')) in E.
  - destruct (on_goes_f _ _ _ _ _ _ _ _ _ H Ht E G) as (w' & E' & H'). exists w', t'. auto.
  - rewrite !nodes_len, Ee. pose proof (length_remove cmp Hc _ _ _ (wf_asc _ _ _ _ (rt_wf _ _ _ _ H _ _ Ht)) Ex). lia.
Qed.
Lemma f_erase T w id t x a n : RT T w -> T !! id = Some t -> atF cmp x t = Some a -> ~ root_small t a ->
  exists w' t', on id (avl_erase cmp (Some a)) w = Ok (match next_set cmp x (elems t) with Some y => atF cmp y t' | None => None end, w') /\
    RT (<[id := t']> T) w' /\ pairs t' = remove_set (by_val cmp) (n, x) (pairs t).
Proof.
  intros H Ht Hat Hrs. pose proof (rt_wf _ _ _ _ H _ _ Ht) as W.
  destruct (erase_full cmp Hc _ _ (Z.of_nat (nodes t)) t x a W Hat Hrs) as (h' & t' & E & G & Ee & Hcn & Ep).
  assert (exists v, lookup_set cmp x (elems t) = Some v) as [v Ex].
  { pose proof (atF_some cmp Hc x t (wf_asc _ _ _ _ W)) as P. destruct (lookup_set cmp x (elems t)); [eauto|congruence]. }
  replace (Z.of_nat (nodes t) - 1) with (Z.of_nat (nodes t')) in E.
  - destruct (on_goes_f _ _ _ _ _ _ _ _ _ H Ht E G) as (w' & E' & H'). exists w', t'. auto.
  - rewrite !nodes_len, Ee. pose proof (length_remove cmp Hc _ _ _ (wf_asc _ _ _ _ W) Ex). lia.
Qed.
(** erase, then *it. *)
Lemma f_erase_val T w id t x a n : RT T w -> T !! id = Some t -> atF cmp x t = Some a -> ~ root_small t a ->
  exists w' t', on id (p <- bt_find cmp x ;; q <- avl_erase cmp p ;; deref q) w = Ok (next_set cmp x (elems t), w') /\
    RT (<[id := t']> T) w' /\ pairs t' = remove_set (by_val cmp) (n, x) (pairs t).
Proof.
  intros H Ht Hat Hrs. pose proof (rt_wf _ _ _ _ H _ _ Ht) as W.
  destruct (erase_full cmp Hc _ _ (Z.of_nat (nodes t)) t x a W Hat Hrs) as (h' & t' & E & G & Ee & Hcn & Ep).
  pose proof (go_wf _ _ _ _ _ _ _ G) as W'.
  assert (exists v, lookup_set cmp x (elems t) = Some v) as [v Ex].
  { pose proof (atF_some cmp Hc x t (wf_asc _ _ _ _ W)) as P. destruct (lookup_set cmp x (elems t)); [eauto|congruence]. }
  assert (Z.of_nat (nodes t) - 1 = Z.of_nat (nodes t')) as Ez.
  { rewrite !nodes_len, Ee. pose proof (length_remove cmp Hc _ _ _ (wf_asc _ _ _ _ W) Ex). lia. }
  rewrite Ez in E. edestruct (on_goes_f T w id t (p <- bt_find cmp x ;; q <- avl_erase cmp p ;; deref q)) as (w' & E' & H');
    [exact H|exact Ht| |exact G|exists w', t'; split; [exact E'|auto]].
  rewrite (bind_ok _ _ _ _ _ (find_ok cmp x t _ _ _ (wf_nd _ _ _ _ W) (wf_linked _ _ _ _ W))). rewrite Hat.
  rewrite (bind_ok _ _ _ _ _ E). destruct (next_set cmp x (elems t)) as [y|] eqn:En; [|reflexivity].
  rewrite (deref_at cmp Hc _ _ _ _ W'). rewrite Ee, (next_in cmp Hc _ _ _ (wf_asc _ _ _ _ W) En). reflexivity.
Qed.

(** Numbers to addresses, in sets ordered by value. *)
Implicit Types (f g : nat -> nat) (ps : list (nat * A)).
Lemma add_ren f n x ps : renl f (add_set (by_val cmp) (n, x) ps) = add_set (by_val cmp) (f n, x) (renl f ps).
Proof.
  induction ps as [|[m y] ps IH]; [reflexivity|]. cbn [add_set]. rewrite renl_cons. cbn [add_set]. unfold by_val at 1 3. cbn [snd].
  destruct (cmp x y); [reflexivity|]. rewrite renl_cons, IH. reflexivity.
Qed.
Lemma remove_ren f n n' x ps : renl f (remove_set (by_val cmp) (n, x) ps) = remove_set (by_val cmp) (n', x) (renl f ps).
Proof.
  induction ps as [|[m y] ps IH]; [reflexivity|]. unfold remove_set in *. rewrite renl_cons. cbn [List.filter].
  change (equivb (by_val cmp) (n, x) (m, y)) with (equivb cmp x y). change (equivb (by_val cmp) (n', x) (f m, y)) with (equivb cmp x y).
  destruct (negb (equivb cmp x y)); [rewrite renl_cons, IH; reflexivity|exact IH].
Qed.
Lemma find_ren f n x ps : fst <$> lookup_set (by_val cmp) (n, x) (renl f ps) = f <$> (fst <$> List.find (fun p => equivb cmp x (snd p)) ps).
Proof.
  induction ps as [|[m y] ps IH]; [reflexivity|]. unfold lookup_set in *. rewrite renl_cons. cbn [List.find snd].
  change (equivb (by_val cmp) (n, x) (f m, y)) with (equivb cmp x y). destruct (equivb cmp x y); [reflexivity|exact IH].
Qed.
Lemma add_nums n x ps k : (forall m, m ∈ ps.*1 -> (m < k)%nat) -> (n < k)%nat -> forall m, m ∈ (add_set (by_val cmp) (n, x) ps).*1 -> (m < k)%nat.
Proof.
  intros H Hn m ((m' & y) & -> & Hm)%elem_of_list_fmap. apply elem_of_list_In, in_add in Hm as [[= -> ->]|Hm]; [exact Hn|].
  apply H, elem_of_list_fmap. exists (m', y). split; [reflexivity|]. apply elem_of_list_In, Hm.
Qed.
Lemma remove_nums n x ps k : (forall m, m ∈ ps.*1 -> (m < k)%nat) -> forall m, m ∈ (remove_set (by_val cmp) (n, x) ps).*1 -> (m < k)%nat.
Proof.
  intros H m ((m' & y) & -> & Hm)%elem_of_list_fmap. apply elem_of_list_In, filter_In in Hm as [Hm _].
  apply H, elem_of_list_fmap. exists (m', y). split; [reflexivity|]. apply elem_of_list_In, Hm.
Qed.
Lemma ren_look f (l : gmap nat (list (nat * A))) T id : ren f l = pairs <$> T ->
  match l !! id with Some ps => exists t, T !! id = Some t /\ renl f ps = pairs t /\ ps.*2 = elems t | None => T !! id = None end.
Proof.
  intros E. assert (ren f l !! id = (pairs <$> T) !! id) as El by (rewrite E; reflexivity). unfold ren in El. rewrite !lookup_fmap in El.
  destruct (l !! id) as [ps|], (T !! id) as [t|]; try discriminate; [|reflexivity]. injection El as El. exists t. split_and!; [reflexivity|exact El|].
  rewrite <- (renl_snd f), El. apply pairs_snd.
Qed.
Lemma ren_strip f (l : gmap nat (list (nat * A))) T : ren f l = pairs <$> T -> strip l = elems <$> T.
Proof.
  intros E. apply map_eq. intros id. pose proof (ren_look f l T id E) as P. unfold strip. rewrite !lookup_fmap.
  destruct (l !! id) as [ps|]; [destruct P as (t & -> & _ & Hv); cbn; rewrite Hv; reflexivity|rewrite P; reflexivity].
Qed.

Definition tagree (n : nat) f (its : gmap nat (option nat)) (r : sres (tout A * kspec)) (c : res (tout A * tworld A)) : Prop :=
  match r with
  | SVal (x, s') => (exists w' T g, c = Ok (x, w') /\ RT T w' /\ ren g (k_sets s') = pairs <$> T /\ below (k_next s') (k_sets s') /\
      (n <= k_next s')%nat /\ (forall m, (m < n)%nat -> g m = f m) /\ k_its s' = its) \/ (c = Abort /\ refuses pol (total (strip (k_sets s'))))
  | SAbort => c = Abort
  | SUnspec => True
  end.

Lemma k_trees o T w (l : gmap nat (list (nat * A))) n f its : RT T w -> ren f l = pairs <$> T -> below n l -> tagree n f its (trees_step cmp o (KSpec l n its)) (t_step cmp o w).
Proof.
  intros H HR Hb. unfold trees_step. cbn [k_sets k_next k_its].
  assert (forall n x t ps, ps.*2 = elems t -> snd <$> lookup_set (by_val cmp) (n, x) ps = lookup_set cmp x (elems t)) as Hlk.
  { intros n' x t ps <-. apply (lookup_snd cmp). }
  assert (forall n x t ps, ps.*2 = elems t -> snd <$> next_set (by_val cmp) (n, x) ps = next_set cmp x (elems t)) as Hnx.
  { intros n' x t ps <-. apply (next_snd cmp). }
  assert (forall t ps, ps.*2 = elems t -> length ps = length (elems t)) as Hlen.
  { intros t ps <-. symmetry. apply fmap_length. }
  assert (forall t, [] = pairs t -> t = Lf) as Hnil.
  { intros [|l' a hh v r]; [reflexivity|]. rewrite pairs_Br. destruct (pairs l'); discriminate. }
  assert (Hold : forall (x : tout A) T2 w2 (c : res (tout A * tworld A)) (l2 : gmap nat (list (nat * A))), c = Ok (x, w2) -> RT T2 w2 -> ren f l2 = pairs <$> T2 -> below n l2 ->
    tagree n f its (SVal (x, KSpec l2 n its)) c).
  { intros x T2 w2 c l2 -> H2 E2 B2. left. exists w2, T2, f. split_and!; auto. }
  assert (Hone : forall (x : tout A) T2 w2 (c : res (tout A * tworld A)), c = Ok (x, w2) -> RT T2 w2 -> T2 = T -> tagree n f its (SVal (x, KSpec l n its)) c).
  { intros x T2 w2 c Ec H2 ->. eapply Hold; eassumption. }
  assert (Hput : forall ps t' id, renl f ps = pairs t' -> ren f (<[id := ps]> l) = pairs <$> <[id := t']> T).
  { intros ps t' id E. rewrite ren_insert, fmap_insert, HR, E. reflexivity. }
  assert (Hbel : forall ps id, (forall m, m ∈ ps.*1 -> (m < n)%nat) -> below n (<[id := ps]> l)).
  { intros ps id Hp. eapply below_insert; [exact Hb|reflexivity|exact Hp]. }
  assert (Hno : forall m, m ∈ (@nil (nat * A)).*1 -> (m < n)%nat) by (intros m Hm; inversion Hm).
  destruct o; cbn [ts_step top_map t_step]; unfold with_set, no_set; try exact I; pose proof (ren_look f l T id HR) as Hi;
    (destruct (l !! id) as [ps|] eqn:El; [destruct Hi as (t & Ht & Hr & Hv)|]; try exact I).
  - destruct (w_new cmp pol _ _ _ H Hi) as (w' & E & H').
    eapply Hold; [rewrite (bind_ok _ _ _ _ _ E); reflexivity|exact H'|apply Hput; reflexivity|apply Hbel, Hno].
  - destruct (w_destroy cmp pol _ _ _ _ H Ht) as (w' & E & H').
    eapply Hold; [rewrite (bind_ok _ _ _ _ _ E); reflexivity|exact H'|unfold ren; rewrite !fmap_delete; f_equal; exact HR|apply below_delete, Hb].
  - pose proof (f_push _ _ _ _ x H Ht) as P. rewrite <- (Hlk n x t ps Hv) in P.
    pose proof (add_refused cmp pol _ _ _ _ x H Ht) as Q. rewrite <- Hv, <- (add_snd cmp n x), <- (ren_strip _ _ _ HR) in Q.
    destruct (lookup_set (by_val cmp) _ _); cbn [fmap option_fmap option_map] in P.
    + apply bind_abort, P.
    + destruct (al_pick (tw_al w)) as [a|] eqn:Ea.
      * destruct P as (w' & t' & E & H' & Ep). destruct (ren_new1 a f n) as (g & Hg & Eg). left. exists w', (<[id := t']> T), g. cbn [k_sets k_next k_its].
        split_and!; [rewrite (bind_ok _ _ _ _ _ E); reflexivity|exact H'| | |lia|exact Hg|reflexivity].
        -- rewrite ren_insert, fmap_insert, (ren_ext f g _ n Hb Hg), HR, Ep, add_ren, Eg, (renl_ext f g ps n (below_look _ _ _ _ Hb El) Hg), Hr. reflexivity.
        -- eapply below_insert; [exact Hb|lia|]. apply add_nums; [|lia]. intros m Hm. pose proof (Hb _ _ _ El Hm). lia.
      * right. split; [apply bind_abort, P|]. cbn [k_sets]. unfold strip. rewrite fmap_insert. apply Q. reflexivity.
  - destruct ps as [|p ps].
    + apply Hnil in Hr. subst t. cbn [lookup_set List.find remove_set List.filter].
      destruct (on_query cmp pol T w id Lf (avl_pop cmp x) tt H Ht eq_refl) as (w' & E & H').
      eapply Hold; [rewrite (bind_ok _ _ _ _ _ E); reflexivity|exact H'| |].
      * rewrite insert_id by exact El. exact HR.
      * apply Hbel, Hno.
    + destruct (lookup_set (by_val cmp) (n, x) (p :: ps)) as [q|] eqn:Eq; [|exact I].
      pose proof (Hlk n x t _ Hv) as Ex. rewrite Eq in Ex. cbn [fmap option_fmap option_map] in Ex. symmetry in Ex.
      destruct (f_pop _ _ _ _ x _ n H Ht Ex) as (w' & t' & E & H' & Ep).
      eapply Hold; [rewrite (bind_ok _ _ _ _ _ E); reflexivity|exact H'| |].
      * apply Hput. rewrite (remove_ren f n n), Hr, Ep. reflexivity.
      * apply Hbel, remove_nums. exact (below_look _ _ _ _ Hb El).
  - cbn [tout_map].
    pose proof (rt_wf _ _ _ _ H _ _ Ht) as W. destruct (on_query cmp pol T w id t (p <- bt_find cmp x ;; deref p) (lookup_set cmp x (elems t)) H Ht) as (w' & E & H').
    { cbn zeta. rewrite (bind_ok _ _ _ _ _ (find_ok cmp x t _ _ _ (wf_nd _ _ _ _ W) (wf_linked _ _ _ _ W))). apply (deref_at cmp Hc), W. }
    eapply Hone; [rewrite (bind_ok _ _ _ _ _ E), (Hlk _ _ _ _ Hv); reflexivity|exact H'|reflexivity].
  - pose proof (rt_wf _ _ _ _ H _ _ Ht) as W. pose proof (Hlk n x t _ Hv) as Ex.
    destruct (lookup_set (by_val cmp) (n, x) ps) as [q|]; cbn [fmap option_fmap option_map] in Ex; symmetry in Ex.
    + rewrite (Hlen _ _ Hv). destruct (Nat.ltb_spec (length (elems t)) 3) as [|H3]; [exact I|].
      pose proof (atF_some cmp Hc x t (wf_asc _ _ _ _ W)) as P. rewrite Ex in P. destruct P as [a Ha].
      destruct (f_erase_val _ _ _ _ x a n H Ht Ha (big_root t a (wf_avl _ _ _ _ W) H3)) as (w' & t' & E & H' & Ep).
      cbn [tout_map]. eapply Hold; [rewrite (bind_ok _ _ _ _ _ E), (Hnx _ _ _ _ Hv); reflexivity|exact H'| |].
      * apply Hput. rewrite (remove_ren f n n), Hr, Ep. reflexivity.
      * apply Hbel, remove_nums. exact (below_look _ _ _ _ Hb El).
    + destruct (on_query cmp pol T w id t (p <- bt_find cmp x ;; q <- avl_erase cmp p ;; deref q) None H Ht) as (w' & E & H').
      { cbn zeta. rewrite (bind_ok _ _ _ _ _ (find_ok cmp x t _ _ _ (wf_nd _ _ _ _ W) (wf_linked _ _ _ _ W))).
        pose proof (atF_some cmp Hc x t (wf_asc _ _ _ _ W)) as P. rewrite Ex in P. rewrite P. reflexivity. }
      eapply Hone; [rewrite (bind_ok _ _ _ _ _ E); reflexivity|exact H'|reflexivity].
  - rewrite (Hlen _ _ Hv), <- nodes_len.
    destruct (on_query cmp pol _ _ _ _ bt_size _ H Ht eq_refl) as (w' & E & H'). eapply Hone; [rewrite (bind_ok _ _ _ _ _ E); reflexivity|exact H'|reflexivity].
  - rewrite (Hlen _ _ Hv), <- nodes_len.
    destruct (on_query cmp pol _ _ _ _ bt_capacity _ H Ht eq_refl) as (w' & E & H'). eapply Hone; [rewrite (bind_ok _ _ _ _ _ E); reflexivity|exact H'|reflexivity].
  - destruct (on_query cmp pol _ _ _ _ bt_empty _ H Ht eq_refl) as (w' & E & H').
    eapply Hone; [rewrite (bind_ok _ _ _ _ _ E)|exact H'|reflexivity].
    cbn [t_size tout_map]. rewrite nodes_len, <- (Hlen _ _ Hv). destruct ps; reflexivity.
  - pose proof (rt_wf _ _ _ _ H _ _ Ht) as W.
    destruct ps as [|p ps]; [exact I|]. destruct (on_query cmp pol T w id t (avl_iterate InOrder) (elems t) H Ht) as (w' & E & H').
    { cbn zeta. apply (iterate_in_ok t); [intros ->; discriminate|apply (wf_nd _ _ _ _ W)|apply (wf_linked _ _ _ _ W)]. }
    eapply Hone; [rewrite (bind_ok _ _ _ _ _ E); cbn [tout_map]; rewrite Hv; reflexivity|exact H'|reflexivity].
  - destruct (w_clear cmp pol _ _ _ _ H Ht) as (w' & E & H').
    eapply Hold; [rewrite (bind_ok _ _ _ _ _ E); reflexivity|exact H'|apply Hput; reflexivity|apply Hbel, Hno].
  - pose proof (ren_look f l T src HR) as Hs. destruct (l !! src) as [ps|]; [|exact I]. destruct Hs as (t & Ht & Hr & Hv).
    destruct ps as [|p ps]; [|exact I]. apply Hnil in Hr. subst t. cbn [tout_map].
    eapply (Hold _ (<[id := Lf]> T) (TW (tw_heap w) (tw_al w) (<[id := (None, 0)]> (tw_objs w)))).
    + unfold tw_copy_new. erewrite bind_ok; [reflexivity|]. rewrite (RT_none cmp pol _ _ _ H Hi), (RT_lookup cmp pol _ _ _ _ H Ht). reflexivity.
    + apply (RT_add cmp); assumption.
    + apply Hput. reflexivity.
    + apply Hbel, Hno.
  - pose proof (ren_look f l T src HR) as Hs. destruct (l !! src) as [ps'|] eqn:Es; [|exact I]. destruct Hs as (t' & Ht' & Hr' & Hv').
    assert (ob t = ob t' -> tagree n f its (SVal (@OUnit A, KSpec l n its)) ((tw_assign id src;;; ret OUnit) w)) as Hsame.
    { intros E. eapply (Hone _ T (TW (tw_heap w) (tw_al w) (<[id := ob t]> (tw_objs w)))); [| |reflexivity].
      - unfold tw_assign. erewrite bind_ok; [reflexivity|].
        rewrite (RT_lookup cmp pol _ _ _ _ H Ht), (RT_lookup cmp pol _ _ _ _ H Ht'). change (rootp t', Z.of_nat (nodes t')) with (ob t'). rewrite <- E. reflexivity.
      - apply (RT_same cmp pol _ _ _ _ H Ht). }
    destruct (Nat.eqb_spec id src) as [->|Hne]; [apply Hsame; congruence|].
    destruct ps as [|p ps]; [|exact I]. destruct ps' as [|p ps]; [|exact I].
    apply Hsame. apply Hnil in Hr, Hr'. subst. reflexivity.
Qed.
End Trees.

Section Iters.
Context {A : Type} (cmp : A -> A -> bool) (Hc : swo cmp) (pol : policy).
Notation tree := (atree A).
Implicit Types (t l r : tree) (x : A) (w : kworld A) (T : gmap nat tree) (C : list (frame A)) (us vs ps : list (nat * A)).
Notation RT := (RT cmp pol).

Lemma app_split {X} (l1 : list X) (p : X) (l2 us vs : list X) (q : X) : l1 ++ p :: l2 = us ++ q :: vs ->
  (exists m, l1 = us ++ q :: m /\ vs = m ++ p :: l2) \/ (l1 = us /\ p = q /\ l2 = vs) \/ (exists m, us = l1 ++ p :: m /\ l2 = m ++ q :: vs).
Proof.
  revert us. induction l1 as [|a l1 IH]; intros [|b us]; simpl.
  - intros [= <- <-]. auto.
  - intros [= <- ->]. right. right. exists us. auto.
  - intros [= -> <-]. left. exists l1. auto.
  - intros [= -> E]. destruct (IH _ E) as [(m & -> & ->)|[(-> & -> & ->)|(m & -> & ->)]]; eauto 10.
Qed.
(** An element's position in the tree. *)
Lemma pairs_zip n x t : forall us vs, pairs t = us ++ (n, x) :: vs -> exists C l hh r,
  t = plug C (Br l n hh x r) /\ us = pairsL C ++ pairs l /\ vs = pairs r ++ pairsR C.
Proof.
  induction t as [|l IHl a hh v r IHr]; intros us vs; [destruct us; discriminate|]. rewrite pairs_Br.
  intros E. apply app_split in E as [(m & El & ->)|[(<- & [= -> ->] & <-)|(m & -> & Er)]].
  - destruct (IHl _ _ El) as (C & l2 & h2 & r2 & -> & -> & ->). exists (C ++ [FL a hh v r]), l2, h2, r2.
    split; [rewrite plug_app; reflexivity|]. rewrite pairsL_app, pairsR_app. split; [reflexivity|].
    rewrite <- app_assoc. f_equal. f_equal. unfold pairsR, pairs. simpl. rewrite app_nil_r. reflexivity.
  - exists [], l, hh, r. split; [reflexivity|]. split; [reflexivity|]. unfold pairsR. simpl. rewrite app_nil_r. reflexivity.
  - destruct (IHr _ _ Er) as (C & l2 & h2 & r2 & -> & -> & ->). exists (C ++ [FR l a hh v]), l2, h2, r2.
    split; [rewrite plug_app; reflexivity|]. rewrite pairsL_app, pairsR_app. split.
    + unfold pairsL, pairs. simpl. rewrite <- !app_assoc. simpl. reflexivity.
    + unfold pairsR. simpl. rewrite app_nil_r. reflexivity.
Qed.
Lemma min_first t : first_num (pairs t) = fst <$> minA t.
Proof.
  induction t as [|l IHl a hh v r _]; [reflexivity|]. rewrite pairs_Br. destruct (lf_dec l) as [->|Hl]; [reflexivity|].
  rewrite minA_Br by exact Hl. rewrite <- IHl. unfold first_num. destruct (pairs l) eqn:E; [|reflexivity].
  exfalso. destruct l; [congruence|]. rewrite pairs_Br in E. destruct (pairs l1); discriminate.
Qed.
Lemma up_first C : upres C = first_num (pairsR C).
Proof. induction C as [|F C IH]; [reflexivity|]. destruct F; [reflexivity|exact IH]. Qed.
Lemma next_first C r : TreeIter.next_pos C r = first_num (pairs r ++ pairsR C).
Proof.
  unfold TreeIter.next_pos. pose proof (min_first r) as H. destruct (minA r) as [[b y]|]; cbn [fmap option_fmap option_map fst] in H.
  - unfold first_num in *. destruct (pairs r); [discriminate|exact (eq_sym H)].
  - unfold first_num in H. destruct (pairs r); [apply up_first|discriminate].
Qed.
Lemma at_first x t n : ascending cmp (elems t) -> atF cmp x t = fst <$> lookup_set (tcmp cmp) (n, x) (pairs t).
Proof.
  pose proof (tcmp_swo cmp Hc) as Ht. intros Ha. apply pairs_asc in Ha. revert Ha.
  induction t as [|l IHl a hh v r IHr]; [reflexivity|]. rewrite pairs_Br. intros Ha. pose proof (proj1 (asc_mid _ Ht _ _ _) Ha) as (H1 & H2 & _).
  cbn [atF]. destruct (cmp x v) eqn:E1; [|destruct (cmp v x) eqn:E2].
  - rewrite (lookup_lt _ Ht _ _ _ Ha (n, x) E1). apply IHl, H1.
  - rewrite (lookup_gt _ Ht _ _ _ Ha (n, x) E2). apply IHr, H2.
  - rewrite (lookup_eq _ Ht _ _ _ Ha (n, x)); [reflexivity|]. split; assumption.
Qed.

Implicit Types (f g : nat -> nat).
Lemma first_ren f ps : first_num (renl f ps) = f <$> first_num ps.
Proof. destruct ps as [|[n x] ps]; reflexivity. Qed.
Lemma pairs_addrs t : (pairs t).*1 = addrs t.
Proof.
  induction t as [|l IHl a hh x r IHr]; [reflexivity|]. rewrite pairs_Br, fmap_app. cbn [fmap list_fmap fst addrs]. rewrite IHl. f_equal. f_equal. exact IHr.
Qed.
Lemma fmap_inj_in {X Y} (h : X -> Y) (l : list X) a b : NoDup (h <$> l) -> a ∈ l -> b ∈ l -> h a = h b -> a = b.
Proof.
  intros Hd [i Hi]%elem_of_list_lookup [j Hj]%elem_of_list_lookup E.
  assert (i = j) as <-; [|congruence]. eapply NoDup_lookup; [exact Hd|rewrite list_lookup_fmap, Hi; reflexivity|rewrite list_lookup_fmap, Hj, E; reflexivity].
Qed.

Definition nbelow (n : nat) (p : option nat) : Prop := match p with Some m => (m < n)%nat | None => True end.
(** [f] says where the elements are. *)
Definition kRf f (s : kspec) w : Prop :=
  exists T, RT T (fst w) /\ ren f (k_sets s) = pairs <$> T /\ below (k_next s) (k_sets s) /\
    (forall k p, k_its s !! k = Some p -> nbelow (k_next s) p) /\ snd w = (fun p : option nat => f <$> p) <$> k_its s.
Definition kR s w : Prop := exists f, kRf f s w.

Lemma kR_set f s w k p : kRf f s w -> nbelow (k_next s) p -> kRf f (put_kt s k p) (fst w, <[k := f <$> p]> (snd w)).
Proof.
  intros (T & H1 & H2 & H3 & H4 & H5) Hp. exists T. split_and!; try assumption; cbn [put_kt k_its k_next fst snd].
  - intros j q [[-> <-]|[_ Ej]]%lookup_insert_Some; [exact Hp|exact (H4 _ _ Ej)].
  - rewrite H5, fmap_insert. reflexivity.
Qed.
Lemma kR_lookup f s w id : kRf f s w -> match k_sets s !! id with
  | Some ps => exists T t, RT T (fst w) /\ ren f (k_sets s) = pairs <$> T /\ T !! id = Some t /\ renl f ps = pairs t /\ wf cmp (tw_heap (fst w)) (tw_al (fst w)) t
  | None => True end.
Proof.
  intros (T & H1 & H2 & _). pose proof (ren_look f _ T id H2) as P. destruct (k_sets s !! id) as [ps|]; [|exact I]. destruct P as (t & Ht & Hr & _).
  exists T, t. split_and!; try reflexivity; try assumption. apply (rt_wf _ _ _ _ H1 _ _ Ht).
Qed.
Lemma kR_again f s w T' (w' : tworld A) k p : kRf f s w -> RT T' w' -> ren f (k_sets s) = pairs <$> T' -> nbelow (k_next s) p -> kRf f (put_kt s k p) (w', <[k := f <$> p]> (snd w)).
Proof. intros (T & _ & _ & H3 & H4 & H5) H1 H2 Hp. apply (kR_set f s (w', snd w)); [|exact Hp]. exists T'. split_and!; assumption. Qed.
Lemma first_below f s w id us vs : kRf f s w -> k_sets s !! id = Some (us ++ vs) -> nbelow (k_next s) (first_num vs).
Proof.
  intros (T & _ & _ & H3 & _) E. destruct vs as [|[n x] vs]; [exact I|]. apply (H3 _ _ _ E). rewrite fmap_app. apply elem_of_app. right. left.
Qed.
Lemma on_trees_ok {X} (m : M (tworld A) X) w y (w' : tworld A) : m (fst w) = Ok (y, w') -> on_trees m w = Ok (y, (w', snd w)).
Proof. unfold on_trees. intros ->. reflexivity. Qed.
Lemma on_nodes_same {X} (m : M (tst A) X) w y : (let s := TSt (tw_heap (fst w)) (tw_al (fst w)) None 0 in m s = Ok (y, s)) -> on_trees (on_nodes m) w = Ok (y, w).
Proof. intros E. unfold on_trees, on_nodes. cbn zeta in E. rewrite E. destruct w as [[] ]; reflexivity. Qed.
Lemma get_kt_ok f s w k p : kRf f s w -> k_its s !! k = Some p -> get_kt k w = Ok (f <$> p, w).
Proof. intros (T & _ & _ & _ & _ & E) H. unfold get_kt. rewrite E, lookup_fmap, H. reflexivity. Qed.
Lemma kt_below f s w k p : kRf f s w -> k_its s !! k = Some p -> nbelow (k_next s) p.
Proof. intros (T & _ & _ & _ & H & _) E. exact (H _ _ E). Qed.

(** Where a numbered element is. *)
Lemma kR_at f s w n id us x vs : kRf f s w -> where_is n (k_sets s) = Some (id, (us, x, vs)) ->
  exists T t C l hh r, RT T (fst w) /\ ren f (k_sets s) = pairs <$> T /\ T !! id = Some t /\ wf cmp (tw_heap (fst w)) (tw_al (fst w)) t /\
    t = plug C (Br l (f n) hh x r) /\ renl f vs = pairs r ++ pairsR C /\ pairs t = renl f us ++ (f n, x) :: renl f vs.
Proof.
  intros H E. apply where_is_some in E. pose proof (kR_lookup f s w id H) as P. rewrite E in P.
  destruct P as (T & t & H1 & H2 & Ht & Ep & W). symmetry in Ep. rewrite renl_app, renl_cons in Ep. destruct (pairs_zip _ _ _ _ _ Ep) as (C & l & hh & r & E1 & E2 & E3).
  exists T, t, C, l, hh, r. split_and!; assumption.
Qed.
Lemma kt_next_ok f s w p q : kRf f s w -> next_num (k_sets s) p = Some q -> kt_next (f <$> p) w = Ok (f <$> q, w) /\ nbelow (k_next s) q.
Proof.
  intros H. unfold kt_next. destruct p as [n|]; cbn [next_num].
  - destruct (where_is n (k_sets s)) as [[id [[us x] vs]]|] eqn:E; [|discriminate]. intros [= <-]. split.
    + destruct (kR_at _ _ _ _ _ _ _ _ H E) as (T & t & C & l & hh & r & H1 & _ & Ht & W & Et & Ev & _).
      apply on_nodes_same. cbn zeta. rewrite <- first_ren, Ev, <- next_first. subst t. apply (next_inorder_ok C _ _ _ _ l (f n) hh x r); [apply (wf_nd _ _ _ _ W)|apply (wf_linked _ _ _ _ W)].
    + apply where_is_some in E. apply (first_below f s w id (us ++ [(n, x)]) vs H). rewrite <- app_assoc. exact E.
  - intros [= <-]. split; [apply on_nodes_same; reflexivity|exact I].
Qed.

(** Different elements are at different addresses. *)
Lemma kR_inj f s w i j ps qs n m : kRf f s w -> k_sets s !! i = Some ps -> k_sets s !! j = Some qs -> n ∈ ps.*1 -> m ∈ qs.*1 -> f n = f m -> i = j /\ n = m.
Proof.
  intros (T & HT & HR & _) Ei Ej Hn Hm E. pose proof (ren_look f _ T i HR) as Pi. pose proof (ren_look f _ T j HR) as Pj. rewrite Ei in Pi. rewrite Ej in Pj.
  destruct Pi as (t & Ht & Hr & _), Pj as (t' & Ht' & Hr' & _).
  assert (Ha : f <$> ps.*1 = addrs t) by (rewrite <- renl_fst, Hr; apply pairs_addrs).
  assert (Ha' : f <$> qs.*1 = addrs t') by (rewrite <- renl_fst, Hr'; apply pairs_addrs).
  assert (i = j) as <-.
  { destruct (decide (i = j)) as [|Hne]; [assumption|exfalso].
    assert (f n ∈ addrs t) as Hin by (rewrite <- Ha; apply elem_of_list_fmap_1, Hn).
    assert (f n ∈ addrs t') as Hin' by (rewrite <- Ha', E; apply elem_of_list_fmap_1, Hm).
    apply addrs_cnt in Hin, Hin'. rewrite (rt_apart _ _ _ _ HT i j t t' (f n) Hne Ht Ht' Hin) in Hin'. lia. }
  split; [reflexivity|]. rewrite Ei in Ej. injection Ej as <-. eapply (fmap_inj_in f ps.*1); try eassumption.
  rewrite Ha. apply addrs_nodup, (wf_nd _ _ _ _ (rt_wf _ _ _ _ HT _ _ Ht)).
Qed.
Lemma same_place f s w p q : kRf f s w -> valid_num (k_sets s) p = true -> valid_num (k_sets s) q = true -> bool_decide (f <$> p = f <$> q) = bool_decide (p = q).
Proof.
  intros H Vp Vq. apply bool_decide_ext. split; [|congruence].
  destruct p as [n|], q as [m|]; cbn [fmap option_fmap option_map valid_num] in *; try congruence. intros [= E].
  destruct (where_is n (k_sets s)) as [[i [[us x] vs]]|] eqn:En; [|discriminate]. destruct (where_is m (k_sets s)) as [[j [[us' x'] vs']]|] eqn:Em; [|discriminate].
  apply where_is_some in En, Em. f_equal. refine (proj2 (kR_inj f s w i j _ _ n m H En Em _ _ E)); rewrite fmap_app; apply elem_of_app; right; left.
Qed.

Notation F := (fun s : kspec => refuses pol (total (strip (k_sets s)))).
Theorem kt_step_or o s w : kR s w -> magree_or kR F (ks_step cmp o s) (kt_step cmp o w).
Proof.
  intros (f & H). destruct o; cbn [ks_step kt_step]; unfold with_set, with_kt, move_kt.
  - destruct H as (T & H1 & H2 & H3 & H4 & H5). destruct s as [sets nxt its]. cbn [k_sets k_next k_its] in *.
    pose proof (k_trees cmp Hc pol o T (fst w) sets nxt f its H1 H2 H3) as L.
    destruct (trees_step cmp o _) as [[r s']| |]; cbn [tagree magree_or] in L |- *; [|unfold on_trees; rewrite L; reflexivity|exact I].
    destruct L as [(w' & T' & g & R & Hi & Hs & Hb & Hn & Hg & Hits)|[R HF]]; [|right; split; [unfold on_trees; rewrite R; reflexivity|exact HF]].
    left. exists (w', snd w). split; [apply on_trees_ok; exact R|].
    exists g, T'. rewrite Hits. split_and!; try assumption.
    + intros k p Ek. specialize (H4 _ _ Ek). destruct p; cbn in *; [lia|exact I].
    + cbn [snd]. rewrite H5. apply map_fmap_ext. intros k p Ek. specialize (H4 _ _ Ek). destruct p; cbn in *; [rewrite Hg by exact H4|]; reflexivity.
  - pose proof (kR_lookup _ _ _ id H) as P. destruct (k_sets s !! id) as [ps|] eqn:Es; [|exact I]. destruct P as (T & t & H1 & H2 & Ht & Er & W).
    destruct ps as [|p ps0]; [exact I|]. set (ps := p :: ps0) in *.
    assert (t <> Lf) as Hn by (intros ->; discriminate). destruct (minA_some t Hn) as (b & y & Hm).
    destruct (on_query cmp pol T (fst w) id t (avl_begin InOrder) (Some b) H1 Ht) as (w' & E & H').
    { cbn zeta. unfold avl_begin, bt_begin. erewrite bind_ok by reflexivity. cbn [t_root].
      eapply first_node_ok; [exact Hn|apply (wf_nd _ _ _ _ W)|apply (wf_linked _ _ _ _ W)|exact Hm]. }
    assert (f <$> first_num ps = Some b) as Ef by (rewrite <- first_ren, Er, min_first, Hm; reflexivity).
    left. exists (w', <[k := f <$> first_num ps]> (snd w)). split.
    + unfold kt_begin. erewrite bind_ok by (apply on_trees_ok; exact E). rewrite Ef. reflexivity.
    + exists f. eapply kR_again; [exact H|exact H'|exact H2|]. eapply (first_below f s w id []); [exact H|exact Es].
  - pose proof (kR_lookup _ _ _ id H) as P. destruct (k_sets s !! id) as [ps|]; [|exact I]. destruct P as (T & t & H1 & H2 & Ht & Er & W).
    destruct (on_query cmp pol T (fst w) id t (ret (@None nat)) None H1 Ht eq_refl) as (w' & E & H').
    left. exists (w', <[k := None]> (snd w)). split.
    + unfold kt_end. erewrite bind_ok by (apply on_trees_ok; exact E). reflexivity.
    + exists f. apply (kR_again f s w T w' k None H H' H2 I).
  - pose proof (kR_lookup _ _ _ id H) as P. destruct (k_sets s !! id) as [ps|] eqn:Es; [|exact I]. destruct P as (T & t & H1 & H2 & Ht & Er & W).
    destruct (on_query cmp pol T (fst w) id t (bt_find cmp x) _ H1 Ht (find_ok cmp x t _ _ _ (wf_nd _ _ _ _ W) (wf_linked _ _ _ _ W))) as (w' & E & H').
    assert (atF cmp x t = f <$> (fst <$> List.find (fun p => equivb cmp x (snd p)) ps)) as Ea.
    { rewrite (at_first x t 0 (wf_asc _ _ _ _ W)), <- Er. apply (find_ren cmp). }
    left. exists (w', <[k := f <$> (fst <$> List.find (fun p => equivb cmp x (snd p)) ps)]> (snd w)). split.
    + unfold kt_find. erewrite bind_ok by (apply on_trees_ok; exact E). rewrite Ea. reflexivity.
    + exists f. eapply kR_again; [exact H|exact H'|exact H2|]. destruct (List.find _ ps) as [[m y]|] eqn:Ef; [|exact I]. apply find_some in Ef as [Ef _].
      destruct H as (_ & _ & _ & H3 & _). apply (H3 _ _ _ Es). apply elem_of_list_fmap. exists (m, y). split; [reflexivity|]. apply elem_of_list_In, Ef.
  - destruct (k_its s !! j) as [p|] eqn:Ej; [|exact I]. destruct (k_sets s !! id) as [ps|] eqn:Es; [|exact I].
    pose proof (kR_lookup _ _ _ id H) as P. rewrite Es in P. destruct P as (T0 & t0 & H1 & H2 & Ht & Er & W0).
    rewrite (bind_ok _ _ _ _ _ (get_kt_ok _ _ _ _ _ H Ej)). destruct p as [n|].
    + destruct (where_is n (k_sets s)) as [[i [[us x] vs]]|] eqn:E; [|exact I].
      destruct (Nat.eqb_spec i id) as [->|]; [|exact I]. destruct (Nat.ltb_spec (length ps) 3) as [|H3]; [exact I|]. cbn [andb negb].
      destruct (kR_at _ _ _ _ _ _ _ _ H E) as (T & t & C & l & hh & r & HT & Hs & Ht' & W & Et & _ & Ep).
      assert (length (elems t) = length ps) as Hlen.
      { apply where_is_some in E. rewrite Es in E. injection E as ->. rewrite <- pairs_snd, fmap_length, Ep, <- renl_cons, <- renl_app. apply fmap_length. }
      pose proof (tcmp_swo cmp Hc) as Hct.
      pose proof (pairs_asc cmp _ (wf_asc _ _ _ _ W)) as Hpa. rewrite Ep in Hpa.
      assert (atF cmp x t = Some (f n)) as Hat.
      { rewrite (at_first x t (f n) (wf_asc _ _ _ _ W)), Ep, (lookup_eq _ Hct _ _ _ Hpa); [reflexivity|]. apply (equiv_refl _ Hct). }
      destruct (f_erase cmp Hc pol T (fst w) id t x (f n) (f n) HT Ht' Hat (big_root t (f n) (wf_avl _ _ _ _ W) ltac:(lia))) as (w' & t' & R & HT' & Ep').
      change (by_val cmp) with (tcmp cmp) in Ep'. rewrite Ep, (remove_eq _ Hct _ _ _ Hpa) in Ep' by apply (equiv_refl _ Hct).
      assert (match next_set cmp x (elems t) with Some y => atF cmp y t' | None => None end = f <$> first_num vs) as En.
      { pose proof (next_snd cmp (f n) x (pairs t)) as Hn. rewrite pairs_snd in Hn. rewrite <- Hn, Ep, (next_eq _ Hct _ _ _ Hpa) by apply (equiv_refl _ Hct).
        destruct vs as [|[m y] vs]; [reflexivity|]. cbn [head fmap option_fmap option_map snd list_fmap renl].
        pose proof (rt_wf _ _ _ _ HT' id t' (lookup_insert _ _ _)) as W'. rewrite (at_first y t' (f m) (wf_asc _ _ _ _ W')), Ep'.
        pose proof (pairs_asc cmp _ (wf_asc _ _ _ _ W')) as Hpa'. rewrite Ep', renl_cons in Hpa'. rewrite renl_cons.
        rewrite (lookup_eq _ Hct _ _ _ Hpa'); [reflexivity|]. apply (equiv_refl _ Hct). }
      rewrite En in R. left. exists (w', <[k := f <$> first_num vs]> (snd w)). split.
      * unfold kt_erase. erewrite bind_ok by (apply on_trees_ok; exact R). reflexivity.
      * apply where_is_some in E. assert (Hfb : nbelow (k_next s) (first_num vs)) by (apply (first_below f s w id (us ++ [(n, x)]) vs H); rewrite <- app_assoc; exact E).
        destruct H as (_ & _ & _ & Hb & Hit & Hw). exists f. apply (kR_set f (KSpec (<[id := us ++ vs]> (k_sets s)) (k_next s) (k_its s)) (w', snd w)); [|exact Hfb].
        exists (<[id := t']> T). cbn [k_sets k_next k_its]. split_and!; [exact HT'| | |exact Hit|exact Hw].
        -- rewrite ren_insert, fmap_insert, Ep', Hs, renl_app. reflexivity.
        -- eapply below_insert; [exact Hb|reflexivity|]. intros m Hm. apply (Hb _ _ _ E). rewrite fmap_app in Hm |- *. cbn [fmap list_fmap].
           apply elem_of_app in Hm as [Hm|Hm]; apply elem_of_app; [left; exact Hm|right; right; exact Hm].
    + destruct (on_query cmp pol T0 (fst w) id t0 (avl_erase cmp None) None H1 Ht eq_refl) as (w' & E & H').
      left. exists (w', <[k := None]> (snd w)). split.
      * unfold kt_erase. erewrite bind_ok by (apply on_trees_ok; exact E). reflexivity.
      * exists f. apply (kR_again f s w T0 w' k None H H' H2 I).
  - destruct (k_its s !! j) as [p|] eqn:E; [|exact I]. cbn [magree_or].
    rewrite (bind_ok _ _ _ _ _ (get_kt_ok _ _ _ _ _ H E)). left. eexists. split; [reflexivity|]. exists f. apply kR_set; [exact H|eapply kt_below; eassumption].
  - destruct (k_its s !! k) as [p|] eqn:E; [|exact I]. destruct (next_num (k_sets s) p) as [q|] eqn:Eq; [|exact I]. cbn [magree_or].
    destruct (kt_next_ok _ _ _ _ _ H Eq) as [R Hb]. rewrite (bind_ok _ _ _ _ _ (get_kt_ok _ _ _ _ _ H E)), (bind_ok _ _ _ _ _ R).
    left. eexists. split; [reflexivity|]. exists f. apply kR_set; assumption.
  - destruct (k_its s !! j) as [p|] eqn:E; [|exact I]. destruct (next_num (k_sets s) p) as [q|] eqn:Eq; [|exact I]. cbn [magree_or].
    destruct (kt_next_ok _ _ _ _ _ H Eq) as [R Hb]. rewrite (bind_ok _ _ _ _ _ (get_kt_ok _ _ _ _ _ H E)), (bind_ok _ _ _ _ _ R).
    left. eexists. split; [reflexivity|]. exists f. apply (kR_set _ _ _ _ _ (kR_set _ _ _ _ _ H Hb)). exact (kt_below _ _ _ _ _ H E).
  - destruct (k_its s !! k) as [[n|]|] eqn:E; [|exact I|exact I].
    destruct (where_is n (k_sets s)) as [[id [[us x] vs]]|] eqn:Ew; [|exact I]. cbn [magree_or].
    rewrite (bind_ok _ _ _ _ _ (get_kt_ok _ _ _ _ _ H E)). left. exists w. split; [|exists f; exact H].
    destruct (kR_at _ _ _ _ _ _ _ _ H Ew) as (T & t & C & l & hh & r & H1 & _ & Ht & W & Et & _).
    pose proof (wf_linked _ _ _ _ W) as Hl. rewrite Et in Hl. destruct (linked_lookup _ _ _ _ _ _ _ _ Hl) as (nn & Hn & Hv & _).
    erewrite bind_ok by (apply on_nodes_same; cbn zeta; apply ld_val_ok; exact Hn). rewrite Hv. reflexivity.
  - destruct (k_its s !! k) as [p|] eqn:E; [|exact I]. destruct (k_its s !! j) as [q|] eqn:E2; [|exact I].
    destruct (valid_num _ p) eqn:Vp; [|exact I]. destruct (valid_num _ q) eqn:Vq; [|exact I]. cbn [andb magree_or]. left. exists w. split; [|exists f; exact H].
    rewrite (bind_ok _ _ _ _ _ (get_kt_ok _ _ _ _ _ H E)), (bind_ok _ _ _ _ _ (get_kt_ok _ _ _ _ _ H E2)), (same_place _ _ _ _ _ H Vp Vq). reflexivity.
  - destruct (k_its s !! k) as [p|] eqn:E; [|exact I]. destruct (k_its s !! j) as [q|] eqn:E2; [|exact I].
    destruct (valid_num _ p) eqn:Vp; [|exact I]. destruct (valid_num _ q) eqn:Vq; [|exact I]. cbn [andb magree_or]. left. exists w. split; [|exists f; exact H].
    rewrite (bind_ok _ _ _ _ _ (get_kt_ok _ _ _ _ _ H E)), (bind_ok _ _ _ _ _ (get_kt_ok _ _ _ _ _ H E2)), (same_place _ _ _ _ _ H Vp Vq). reflexivity.
Qed.

Lemma kR_init : sound pol -> kR kspec0 (tw_init pol, ∅).
Proof.
  intros Hs. exists (fun n => n), ∅. cbn [k_sets k_next k_its kspec0 fst snd]. split_and!.
  - apply (RT_init cmp), Hs.
  - unfold ren. rewrite !fmap_empty. reflexivity.
  - intros id xs m E. rewrite lookup_empty in E. discriminate.
  - intros k p E. rewrite lookup_empty in E. discriminate.
  - rewrite fmap_empty. reflexivity.
Qed.
Lemma k_run ops : sound pol ->
  match srun (ks_step cmp) ops kspec0 with
  | SVal (rs, s) => (exists w, mrun (kt_step cmp) ops (tw_init pol, ∅) = Ok (rs, w) /\ kR s w) \/
      (mrun (kt_step cmp) ops (tw_init pol, ∅) = Abort /\
       exists ops1 ops2 rs1 s1, ops = ops1 ++ ops2 /\ srun (ks_step cmp) ops1 kspec0 = SVal (rs1, s1) /\ F s1)
  | SAbort => mrun (kt_step cmp) ops (tw_init pol, ∅) = Abort
  | SUnspec => True
  end.
Proof. intros Hs. exact (mrun_agree_or (kt_step cmp) (ks_step cmp) kR F kt_step_or ops kspec0 (tw_init pol, ∅) (kR_init Hs)). Qed.
End Iters.

Theorem k_history_or : forall (A : Type) (cmp : A -> A -> bool), swo cmp -> forall pol, sound pol -> forall ops : list (kop A),
  match srun (ks_step cmp) ops kspec0 with
  | SVal (rs, _) => (exists w, mrun (kt_step cmp) ops (tw_init pol, ∅) = Ok (rs, w)) \/
      (mrun (kt_step cmp) ops (tw_init pol, ∅) = Abort /\
       exists ops1 ops2 rs1 s1, ops = ops1 ++ ops2 /\ srun (ks_step cmp) ops1 kspec0 = SVal (rs1, s1) /\ refuses pol (total (strip (k_sets s1))))
  | SAbort => mrun (kt_step cmp) ops (tw_init pol, ∅) = Abort
  | SUnspec => True
  end.
Proof.
  intros A cmp Hc pol Hs ops. pose proof (k_run cmp Hc pol ops Hs) as H. destruct (srun _ ops kspec0) as [[rs s]| |]; [|exact H|exact I].
  destruct H as [(w & R & _)|H]; eauto.
Qed.
Theorem k_history : forall (A : Type) (cmp : A -> A -> bool), swo cmp -> forall pol, sound pol -> grants pol -> forall ops : list (kop A),
  match srun (ks_step cmp) ops kspec0 with
  | SVal (rs, _) => exists w, mrun (kt_step cmp) ops (tw_init pol, ∅) = Ok (rs, w)
  | SAbort => mrun (kt_step cmp) ops (tw_init pol, ∅) = Abort
  | SUnspec => True
  end.
Proof.
  intros A cmp Hc pol Hs Hg ops. pose proof (k_history_or A cmp Hc pol Hs ops) as H. destruct (srun _ ops kspec0) as [[rs s]| |]; [|exact H|exact I].
  destruct H as [H|(_ & ops1 & ops2 & rs1 & s1 & _ & _ & Hr)]; [exact H|]. destruct (grants_refuses _ _ Hg Hr).
Qed.

(** No two elements share a number. *)
Theorem k_unique : forall (A : Type) (cmp : A -> A -> bool), swo cmp -> forall (ops : list (kop A)) rs s id us n x vs,
  srun (ks_step cmp) ops kspec0 = SVal (rs, s) -> k_sets s !! id = Some (us ++ (n, x) :: vs) ->
  where_is n (k_sets s) = Some (id, (us, x, vs)).
Proof.
  intros A cmp Hc ops rs s id us n x vs E Hl. pose proof (k_run cmp Hc bump ops bump_sound) as H. rewrite E in H.
  destruct H as [(w & _ & f & HR)|(_ & ops1 & ops2 & rs1 & s1 & _ & _ & Hr)]; [|destruct (grants_refuses _ _ bump_grants Hr)].
  assert (Hn : n ∈ (us ++ (n, x) :: vs).*1) by (rewrite fmap_app; apply elem_of_app; right; left).
  destruct (where_is n (k_sets s)) as [[id' [[us' x'] vs']]|] eqn:Ew; [|exfalso; eapply where_is_none; eassumption].
  apply where_is_some in Ew.
  assert (Hn' : n ∈ (us' ++ (n, x') :: vs').*1) by (rewrite fmap_app; apply elem_of_app; right; left).
  destruct (kR_inj cmp bump f s w _ _ _ _ _ _ HR Ew Hl Hn' Hn eq_refl) as [-> _].
  assert (Hnd : NoDup (us ++ (n, x) :: vs).*1).
  { destruct HR as (T & HT & Hs & _). pose proof (ren_look f _ T id Hs) as P. rewrite Hl in P. destruct P as (t & Ht & Hr & _).
    apply (NoDup_fmap_1 f). rewrite <- renl_fst, Hr, pairs_addrs. apply addrs_nodup, (wf_nd _ _ _ _ (rt_wf _ _ _ _ HT _ _ Ht)). }
  rewrite Hl in Ew. injection Ew as Ew. clear - Ew Hnd.
  assert (G : forall us us', us ++ (n, x) :: vs = us' ++ (n, x') :: vs' -> NoDup (us ++ (n, x) :: vs).*1 -> us = us' /\ x = x' /\ vs = vs').
  { clear. induction us as [|[m y] us IH]; intros [|[m' y'] us']; simpl; intros E Hnd.
    - injection E as -> ->. auto.
    - injection E as <- <- ->. exfalso. apply NoDup_cons in Hnd as [Hnd _]. apply Hnd. rewrite fmap_app. apply elem_of_app. right. left.
    - injection E as -> -> <-. exfalso. apply NoDup_cons in Hnd as [Hnd _]. apply Hnd. rewrite fmap_app. apply elem_of_app. right. left.
    - injection E as -> -> E. apply NoDup_cons in Hnd as [_ Hnd]. destruct (IH _ E Hnd) as (-> & -> & ->). auto. }
  destruct (G _ _ Ew Hnd) as (-> & -> & ->). reflexivity.
Qed.

(** Without the numbers the sets are those of [ts_step]. *)
Lemma strip_ins {A} id (xs : list (nat * A)) l : strip (<[id := xs]> l) = <[id := xs.*2]> (strip l).
Proof. apply fmap_insert. Qed.
Theorem k_trees_strip : forall (A : Type) (cmp : A -> A -> bool) (o : top A) (s : kspec),
  ts_step cmp o (strip (k_sets s)) =
  match trees_step cmp o s with SVal (r, s') => SVal (r, strip (k_sets s')) | SAbort => SAbort | SUnspec => SUnspec end.
Proof.
  intros A cmp o [l nxt its]. unfold trees_step.
  assert (Hk : forall k, strip l !! k = (fun xs => xs.*2) <$> l !! k) by (intros k; apply lookup_fmap).
  assert (Hlk : forall n x ps, lookup_set cmp x (ps.*2 : list A) = snd <$> lookup_set (by_val cmp) (n, x) ps) by (intros; symmetry; apply (lookup_snd cmp)).
  assert (Hnx : forall n x ps, next_set cmp x (ps.*2 : list A) = snd <$> next_set (by_val cmp) (n, x) ps) by (intros; symmetry; apply (next_snd cmp)).
  assert (Hrm : forall n x ps, remove_set cmp x (ps.*2 : list A) = (remove_set (by_val cmp) (n, x) ps).*2) by (intros; symmetry; apply (remove_snd cmp)).
  assert (Had : forall n x ps, add_set cmp x (ps.*2 : list A) = (add_set (by_val cmp) (n, x) ps).*2) by (intros; symmetry; apply (add_snd cmp)).
  destruct o; cbn [top_map ts_step k_sets k_next]; unfold no_set, with_set; rewrite ?Hk;
    try (destruct (l !! id) as [xs|] eqn:E); try (destruct (l !! src) as [ys|] eqn:E2); cbn [fmap option_fmap option_map]; try reflexivity.
  - cbn [k_sets]. rewrite strip_ins. reflexivity.
  - cbn [k_sets]. unfold strip. rewrite fmap_delete. reflexivity.
  - change (list_fmap (nat * A)%type A snd xs) with xs.*2. rewrite (Hlk nxt). destruct (lookup_set (by_val cmp) _ xs); [reflexivity|]. cbn [fmap option_fmap option_map].
    cbn [k_sets]. rewrite strip_ins, (Had nxt). reflexivity.
  - change (list_fmap (nat * A)%type A snd xs) with xs.*2. rewrite (Hrm nxt).
    destruct xs as [|p xs]; [cbn [k_sets]; rewrite strip_ins; reflexivity|].
    change ((p :: xs).*2) with (snd p :: xs.*2) at 1. cbn iota. change (snd p :: xs.*2) with (p :: xs).*2. rewrite (Hlk nxt).
    destruct (lookup_set (by_val cmp) _ (p :: xs)); [|reflexivity]. cbn [fmap option_fmap option_map k_sets]. rewrite strip_ins. reflexivity.
  - change (list_fmap (nat * A)%type A snd xs) with xs.*2. rewrite (Hlk nxt). reflexivity.
  - change (list_fmap (nat * A)%type A snd xs) with xs.*2. rewrite (Hlk nxt), (Hrm nxt), (Hnx nxt), fmap_length.
    destruct (lookup_set (by_val cmp) _ xs); [|reflexivity]. cbn [fmap option_fmap option_map]. destruct (Nat.ltb _ 3); [reflexivity|]. cbn [k_sets]. rewrite strip_ins. reflexivity.
  - change (list_fmap (nat * A)%type A snd xs) with xs.*2. rewrite fmap_length. reflexivity.
  - change (list_fmap (nat * A)%type A snd xs) with xs.*2. rewrite fmap_length. reflexivity.
  - destruct xs; reflexivity.
  - destruct xs; reflexivity.
  - cbn [k_sets]. rewrite strip_ins. reflexivity.
  - destruct ys; [|reflexivity]. cbn [k_sets]. cbn. rewrite strip_ins. reflexivity.
  - destruct (Nat.eqb id src); [reflexivity|]. destruct xs, ys; reflexivity.
Qed.

(** An element lives until a step removes it. *)
Theorem k_kept : forall (A : Type) (cmp : A -> A -> bool), swo cmp -> forall (ops : list (kop A)) rs s id us n x vs o r s',
  srun (ks_step cmp) ops kspec0 = SVal (rs, s) -> where_is n (k_sets s) = Some (id, (us, x, vs)) ->
  ks_step cmp o s = SVal (r, s') -> kremoves cmp o s id n x = false ->
  exists us' vs', where_is n (k_sets s') = Some (id, (us', x, vs')).
Proof.
  intros A cmp Hc ops rs s id us n x vs o r s' E Hw Ho Hr.
  assert (E' : srun (ks_step cmp) (ops ++ [o]) kspec0 = SVal (rs ++ [r], s')).
  { rewrite srun_app, E. cbn [srun]. rewrite Ho. reflexivity. }
  assert (G : exists l, k_sets s' !! id = Some l /\ In (n, x) l).
  2: { destruct G as (l & G & Gin). apply in_split in Gin as (us' & vs' & ->). exists us', vs'. eapply k_unique; eassumption. }
  pose proof Hw as Hw0. apply where_is_some in Hw.
  assert (Hin : In (n, x) (us ++ (n, x) :: vs)) by (apply in_or_app; right; left; reflexivity).
  assert (same : exists l, k_sets s !! id = Some l /\ In (n, x) l) by eauto.
  assert (put : forall i ps, (i = id -> In (n, x) ps) -> exists l, <[i := ps]> (k_sets s) !! id = Some l /\ In (n, x) l).
  { intros i ps Hi. destruct (decide (i = id)) as [->|Hne]; [rewrite lookup_insert; eauto|rewrite lookup_insert_ne by exact Hne; exact same]. }
  destruct o as [o|k i|k i|k i y|k i j|k j|k|k j|k|k j|k j]; cbn [ks_step kremoves] in *; unfold with_set, with_kt, move_kt in Ho;
    repeat match type of Ho with
    | context [match k_its s !! ?k with _ => _ end] => destruct (k_its s !! k) as [?|] eqn:?; [|discriminate]
    end.
  - unfold trees_step in Ho.
    destruct o as [i|i|i y|i y|i y|i y|i|i|i|i|i|i|i tt0|i src|i src]; cbn [top_map ts_step kremoves] in *; unfold no_set, with_set in Ho;
      (destruct (k_sets s !! i) as [ps|] eqn:Ei; try discriminate).
    + injection Ho as <- <-. apply put. congruence.
    + injection Ho as <- <-. cbn [k_sets]. rewrite lookup_delete_ne by (apply Nat.eqb_neq, Hr). exact same.
    + destruct (lookup_set _ _ ps); [discriminate|]. injection Ho as <- <-. apply put. intros ->. apply in_add. right. congruence.
    + assert (k_sets s' = <[i := remove_set (by_val cmp) (k_next s, y) ps]> (k_sets s)) as ->.
      { destruct ps as [|p ps]; [|destruct (lookup_set _ _ (p :: ps)); [|discriminate]]; injection Ho as <- <-; reflexivity. }
      apply put. intros ->. rewrite Nat.eqb_refl in Hr. cbn [andb] in Hr. apply filter_In. split; [congruence|].
      change (equivb (by_val cmp) (k_next s, y) (n, x)) with (equivb cmp y x). rewrite Hr. reflexivity.
    + injection Ho as <- <-. exact same.
    + destruct (lookup_set _ _ ps); [|injection Ho as <- <-; exact same]. destruct (Nat.ltb _ 3); [discriminate|]. injection Ho as <- <-.
      apply put. intros ->. rewrite Nat.eqb_refl in Hr. cbn [andb] in Hr. apply filter_In. split; [congruence|].
      change (equivb (by_val cmp) (k_next s, y) (n, x)) with (equivb cmp y x). rewrite Hr. reflexivity.
    + injection Ho as <- <-. exact same.
    + injection Ho as <- <-. exact same.
    + injection Ho as <- <-. exact same.
    + destruct ps; [discriminate|]. injection Ho as <- <-. exact same.
    + injection Ho as <- <-. apply put. intros ->. rewrite Nat.eqb_refl in Hr. discriminate.
    + destruct (k_sets s !! src) as [[|]|]; try discriminate. injection Ho as <- <-. apply put. congruence.
    + destruct (k_sets s !! src) as [ps2|]; [|discriminate]. destruct (Nat.eqb i src); [injection Ho as <- <-; exact same|].
      destruct ps, ps2; try discriminate. injection Ho as <- <-. exact same.
  - destruct (k_sets s !! i) as [[|]|]; try discriminate. injection Ho as <- <-. exact same.
  - destruct (k_sets s !! i) as [ps|]; try discriminate. injection Ho as <- <-. exact same.
  - destruct (k_sets s !! i) as [ps|]; try discriminate. injection Ho as <- <-. exact same.
  - destruct (k_sets s !! i) as [ps|] eqn:Ei; try discriminate. destruct o as [m|]; [|injection Ho as <- <-; exact same].
    destruct (where_is m (k_sets s)) as [[i' [[us2 x2] vs2]]|] eqn:Em; [|discriminate].
    destruct (Nat.eqb_spec i' i) as [->|]; [|discriminate]. cbn [andb] in Ho. destruct (negb _); [|discriminate]. injection Ho as <- <-. cbn [put_kt k_sets].
    apply put. intros ->. apply where_is_some in Em. rewrite Hw in Em. injection Em as Em. apply Nat.eqb_neq in Hr.
    rewrite Em in Hin. apply in_app_or in Hin as [?|[[= ? ?]|?]]; [apply in_or_app; auto|congruence|apply in_or_app; auto].
  - injection Ho as <- <-. exact same.
  - destruct (next_num _ _); [|discriminate]. injection Ho as <- <-. exact same.
  - destruct (next_num _ _); [|discriminate]. injection Ho as <- <-. exact same.
  - destruct o as [m|]; [|discriminate]. destruct (where_is m (k_sets s)) as [[i' [[us2 x2] vs2]]|] eqn:Em; [|discriminate]. injection Ho as <- <-. exact same.
  - destruct (_ && _); [|discriminate]. injection Ho as <- <-. exact same.
  - destruct (_ && _); [|discriminate]. injection Ho as <- <-. exact same.
Qed.
