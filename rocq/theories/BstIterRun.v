(** Every history over BinarySearchTree objects and iterators, continued. *)
From Coq Require Import Sorted.
From Verif Require Import Base Alloc AllocProofs VectorModel VectorSpec Adapter Hist ListSpec.
From Verif Require Import TreeModel TreeSpec TreeBase TreeSets TreeZip TreeDel TreeErase TreeIter TreeTag TreeObj TreeWorld TreeHist BstWorld BstSpec BstObj BstDel BstHist.
From Verif Require Import ListIterSpec ListIterProofs TreeIterModel TreeIterSpec TreeIterProofs BstIterModel BstIterSpec BstIterProofs BstIterHist.
Open Scope Z_scope.

Section Iters.
Context {A : Type} (cmp : A -> A -> bool) (Hc : swo cmp) (pol : policy).
Notation tree := (atree A).
Notation ntree := (bt (nat * A)).
Implicit Types (t l r : tree) (u : ntree) (x v : A) (w : jworld A) (T : gmap nat tree) (C : list (frame A)) (us vs : list (nat * A)) (f g : nat -> nat).
Notation RB := (RB cmp pol).

(** Positions in pre-order. *)
Lemma app_split2 {X} (l1 l2 us vs : list X) (q : X) : l1 ++ l2 = us ++ q :: vs ->
  (exists m, l1 = us ++ q :: m /\ vs = m ++ l2) \/ (exists m, us = l1 ++ m /\ l2 = m ++ q :: vs).
Proof.
  revert us. induction l1 as [|a l1 IH]; intros us E; [right; exists us; auto|]. destruct us as [|b us]; simpl in E.
  - injection E as -> <-. left. exists l1. auto.
  - injection E as -> E. destruct (IH _ E) as [(m & -> & ->)|(m & -> & ->)]; eauto.
Qed.
Lemma preR_app {X} (C1 C2 : list (frame X)) : preR (C1 ++ C2) = preR C1 ++ preR C2.
Proof. induction C1 as [|F C1 IH]; [reflexivity|]. destruct F; cbn [preR app]; rewrite IH, <- ?app_assoc; reflexivity. Qed.
Lemma pre_zip n x t : forall us vs, pre (tag t) = us ++ (n, x) :: vs -> exists C l hh r,
  t = plug C (Br l n hh x r) /\ vs = pre (tag l) ++ pre (tag r) ++ preR (tagF <$> C).
Proof.
  induction t as [|l IHl a hh v r IHr]; intros us vs; [destruct us; discriminate|]. cbn [tag pre].
  destruct us as [|p us]; cbn [app].
  - intros [= -> -> <-]. exists [], l, hh, r. split; [reflexivity|]. cbn [fmap list_fmap preR]. rewrite app_nil_r. reflexivity.
  - intros [= <- E]. apply app_split2 in E as [(m & El & ->)|(m & -> & Er)].
    + destruct (IHl _ _ El) as (C & l2 & h2 & r2 & -> & ->). exists (C ++ [FL a hh v r]), l2, h2, r2.
      split; [rewrite plug_app; reflexivity|]. rewrite fmap_app, preR_app. cbn [fmap list_fmap tagF preR]. rewrite app_nil_r, <- !app_assoc. reflexivity.
    + destruct (IHr _ _ Er) as (C & l2 & h2 & r2 & -> & ->). exists (C ++ [FR l a hh v]), l2, h2, r2.
      split; [rewrite plug_app; reflexivity|]. rewrite fmap_app, preR_app. cbn [fmap list_fmap tagF preR]. rewrite app_nil_r. reflexivity.
Qed.
Lemma upp_first C : upp C = first_num (preR (tagF <$> C)).
Proof. induction C as [|F C IH]; [reflexivity|]. destruct F as [a hh x [|]|]; [exact IH|reflexivity|exact IH]. Qed.
Lemma nextp_first C l r : nextp C l r = first_num (pre (tag l) ++ pre (tag r) ++ preR (tagF <$> C)).
Proof. unfold nextp. destruct l; [|reflexivity]. destruct r; [|reflexivity]. apply upp_first. Qed.
Lemma preorder_shp t : preorder (shp t) = pre (tag t).
Proof. apply preorder_shape. Qed.

(** [f] says where the elements are. *)
Definition place_of f (p : ttype * option nat) : ttype * option nat := (fst p, f <$> snd p).
Definition jRf f (s : jspec) w : Prop :=
  exists T, RB T (fst w) /\ bren f <$> j_trees s = shp <$> T /\ bbelow (j_next s) (j_trees s) /\
    (forall k p, j_its s !! k = Some p -> nbelow (j_next s) (snd p)) /\ snd w = place_of f <$> j_its s.
Definition jR s w : Prop := exists f, jRf f s w.

Lemma jR_set f s w k p : jRf f s w -> nbelow (j_next s) (snd p) -> jRf f (put_jt s k p) (fst w, <[k := place_of f p]> (snd w)).
Proof.
  intros (T & H1 & H2 & H3 & H4 & H5) Hp. exists T. split_and!; try assumption; cbn [put_jt j_its j_next fst snd].
  - intros j q [[-> <-]|[_ Ej]]%lookup_insert_Some; [exact Hp|exact (H4 _ _ Ej)].
  - rewrite H5, fmap_insert. reflexivity.
Qed.
Lemma jR_again f s w T' (w' : tworld A) k p : jRf f s w -> RB T' w' -> bren f <$> j_trees s = shp <$> T' -> nbelow (j_next s) (snd p) ->
  jRf f (put_jt s k p) (w', <[k := place_of f p]> (snd w)).
Proof. intros (T & _ & _ & H3 & H4 & H5) H1 H2 Hp. apply (jR_set f s (w', snd w)); [|exact Hp]. exists T'. split_and!; assumption. Qed.
Lemma jR_lookup f s w id : jRf f s w -> match j_trees s !! id with
  | Some u => exists T t, RB T (fst w) /\ bren f <$> j_trees s = shp <$> T /\ T !! id = Some t /\ bren f u = shp t /\ bwf cmp (tw_heap (fst w)) (tw_al (fst w)) t
  | None => True end.
Proof.
  intros (T & H1 & H2 & _). pose proof (jlook f _ T id H2) as P. destruct (j_trees s !! id) as [u|]; [|exact I]. destruct P as (t & Ht & Hr & _).
  exists T, t. split_and!; try reflexivity; try assumption. apply (rb_wf _ _ _ _ H1 _ _ Ht).
Qed.
Lemma in_walk o u p : p ∈ walk o u -> p ∈ inorder u.
Proof. destruct o; cbn [walk]; [rewrite pre_perm; auto|auto|intros H; inversion H]. Qed.
Lemma first_below_j f s w o id u us vs : jRf f s w -> j_trees s !! id = Some u -> walk o u = us ++ vs -> nbelow (j_next s) (first_num vs).
Proof.
  intros (T & _ & _ & H3 & _) E Ew. destruct vs as [|[n x] vs]; [exact I|]. apply (H3 _ _ _ E). apply elem_of_list_fmap. exists (n, x). split; [reflexivity|].
  apply (in_walk o). rewrite Ew. apply elem_of_app. right. left.
Qed.
Lemma on_bst_ok {X} (m : M (tworld A) X) w y (w' : tworld A) : m (fst w) = Ok (y, w') -> on_bst m w = Ok (y, (w', snd w)).
Proof. unfold on_bst. intros ->. reflexivity. Qed.
Lemma on_bst_same {X} (m : M (tst A) X) w y : (let s := TSt (tw_heap (fst w)) (tw_al (fst w)) None 0 in m s = Ok (y, s)) -> on_bst (on_nodes m) w = Ok (y, w).
Proof. intros E. unfold on_bst, on_nodes. cbn zeta in E. rewrite E. destruct w as [[] ]; reflexivity. Qed.
Lemma get_jt_ok f s w k p : jRf f s w -> j_its s !! k = Some p -> get_jt k w = Ok (place_of f p, w).
Proof. intros (T & _ & _ & _ & _ & E) H. unfold get_jt. rewrite E, lookup_fmap, H. reflexivity. Qed.
Lemma jt_below f s w k p : jRf f s w -> j_its s !! k = Some p -> nbelow (j_next s) (snd p).
Proof. intros (T & _ & _ & _ & H & _) E. exact (H _ _ E). Qed.
Lemma where_at_some o n (s : gmap nat ntree) id us x vs : where_at o n s = Some (id, (us, x, vs)) -> exists u, s !! id = Some u /\ walk o u = us ++ (n, x) :: vs.
Proof.
  unfold where_at. intros E%where_is_some. rewrite lookup_fmap in E. destruct (s !! id) as [u|]; [|discriminate]. injection E as E. eauto.
Qed.

(** Where a numbered element is. *)
Lemma jR_at f s w o n id us x vs : jRf f s w -> where_at o n (j_trees s) = Some (id, (us, x, vs)) ->
  exists T u t C l hh r, RB T (fst w) /\ bren f <$> j_trees s = shp <$> T /\ j_trees s !! id = Some u /\ T !! id = Some t /\ bren f u = shp t /\
    bwf cmp (tw_heap (fst w)) (tw_al (fst w)) t /\ t = plug C (Br l (f n) hh x r) /\ walk o u = us ++ (n, x) :: vs /\
    forall rt z, let st := TSt (tw_heap (fst w)) (tw_al (fst w)) rt z in next_of o (Some (f n)) st = Ok (f <$> first_num vs, st).
Proof.
  intros H (u & Eu & Ew)%where_at_some. pose proof (jR_lookup f s w id H) as P. rewrite Eu in P. destruct P as (T & t & H1 & H2 & Ht & Er & W).
  assert (Ep : walk o (shp t) = renl f us ++ (f n, x) :: renl f vs) by (rewrite <- Er, walk_bren, Ew, renl_app, renl_cons; reflexivity).
  destruct o; cbn [walk] in Ep.
  - rewrite preorder_shp in Ep. destruct (pre_zip _ _ _ _ _ Ep) as (C & l & hh & r & Et & Ev). exists T, u, t, C, l, hh, r. split_and!; try assumption.
    intros rt z. cbn zeta. rewrite <- first_ren, Ev, <- nextp_first. cbn [next_of]. subst t. apply (next_preorder_ok C _ _ _ _ l (f n) hh x r); [apply (bwf_nd _ _ _ _ W)|apply (bwf_linked _ _ _ _ W)].
  - rewrite inorder_shp in Ep. destruct (pairs_zip _ _ _ _ _ Ep) as (C & l & hh & r & Et & _ & Ev). exists T, u, t, C, l, hh, r. split_and!; try assumption.
    intros rt z. cbn zeta. rewrite <- first_ren, Ev, <- next_first. cbn [next_of]. subst t. apply (next_inorder_ok C _ _ _ _ l (f n) hh x r); [apply (bwf_nd _ _ _ _ W)|apply (bwf_linked _ _ _ _ W)].
  - destruct (renl f us); discriminate.
Qed.
Lemma jt_next_ok f s w p q : jRf f s w -> next_at (j_trees s) p = Some q -> jt_next (place_of f p) w = Ok (place_of f q, w) /\ nbelow (j_next s) (snd q).
Proof.
  intros H. unfold jt_next. destruct p as [o [n|]]; cbn [next_at place_of fst snd fmap option_fmap option_map].
  - destruct (where_at o n (j_trees s)) as [[id [[us x] vs]]|] eqn:E; [|discriminate]. intros [= <-].
    destruct (jR_at _ _ _ _ _ _ _ _ _ H E) as (T & u & t & C & l & hh & r & H1 & _ & Eu & Ht & _ & W & Et & Ew & Hn). split.
    + erewrite bind_ok by (apply on_bst_same, Hn). reflexivity.
    + apply (first_below_j f s w o id u (us ++ [(n, x)]) vs H Eu). rewrite <- app_assoc. exact Ew.
  - intros [= <-]. split; [|exact I]. erewrite bind_ok by (apply on_bst_same; destruct o; reflexivity). reflexivity.
Qed.

(** Different elements are at different addresses. *)
Lemma jR_inj f s w i j u u' n m : jRf f s w -> j_trees s !! i = Some u -> j_trees s !! j = Some u' -> n ∈ nums u -> m ∈ nums u' -> f n = f m -> i = j /\ n = m.
Proof.
  intros (T & HT & HR & _) Ei Ej Hn Hm E. pose proof (jlook f _ T i HR) as Pi. pose proof (jlook f _ T j HR) as Pj. rewrite Ei in Pi. rewrite Ej in Pj.
  destruct Pi as (t & Ht & Hr & _), Pj as (t' & Ht' & Hr' & _).
  assert (Ha : f <$> nums u = addrs t) by (unfold nums; rewrite <- renl_fst, <- inorder_bren, Hr, inorder_shp; apply pairs_addrs).
  assert (Ha' : f <$> nums u' = addrs t') by (unfold nums; rewrite <- renl_fst, <- inorder_bren, Hr', inorder_shp; apply pairs_addrs).
  assert (i = j) as <-.
  { destruct (decide (i = j)) as [|Hne]; [assumption|exfalso].
    assert (f n ∈ addrs t) as Hin by (rewrite <- Ha; apply elem_of_list_fmap_1, Hn).
    assert (f n ∈ addrs t') as Hin' by (rewrite <- Ha', E; apply elem_of_list_fmap_1, Hm).
    apply addrs_cnt in Hin, Hin'. rewrite (rb_apart _ _ _ _ HT i j t t' (f n) Hne Ht Ht' Hin) in Hin'. lia. }
  split; [reflexivity|]. rewrite Ei in Ej. injection Ej as <-. eapply (fmap_inj_in f (nums u)); try eassumption.
  rewrite Ha. apply addrs_nodup, (bwf_nd _ _ _ _ (rb_wf _ _ _ _ HT _ _ Ht)).
Qed.
Lemma at_nums o u us n x vs : walk o u = us ++ (n, x) :: vs -> n ∈ nums u.
Proof.
  intros E. apply elem_of_list_fmap. exists (n, x). split; [reflexivity|]. apply (in_walk o). rewrite E. apply elem_of_app. right. left.
Qed.
Lemma same_place_j f s w p q : jRf f s w -> valid_at (j_trees s) p = true -> valid_at (j_trees s) q = true -> bool_decide (f <$> snd p = f <$> snd q) = bool_decide (snd p = snd q).
Proof.
  intros H Vp Vq. apply bool_decide_ext. split; [|congruence]. unfold valid_at in *.
  destruct (snd p) as [n|], (snd q) as [m|]; cbn [fmap option_fmap option_map] in *; try congruence. intros [= E].
  destruct (where_at InOrder n (j_trees s)) as [[i [[us x] vs]]|] eqn:En; [|discriminate]. destruct (where_at InOrder m (j_trees s)) as [[j [[us' x'] vs']]|] eqn:Em; [|discriminate].
  apply where_at_some in En as (u & Eu & En), Em as (u' & Eu' & Em). f_equal.
  exact (proj2 (jR_inj f s w i j _ _ n m H Eu Eu' (at_nums _ _ _ _ _ _ En) (at_nums _ _ _ _ _ _ Em) E)).
Qed.

Notation F := (fun s : jspec => refuses pol (btotal (bstrip (j_trees s)))).
Theorem jt_step_or o s w : jR s w -> magree_or jR F (js_step cmp o s) (jt_step cmp o w).
Proof.
  intros (f & H). destruct o; cbn [js_step jt_step]; unfold with_bt, with_jt, move_jt.
  - destruct H as (T & H1 & H2 & H3 & H4 & H5). destruct s as [trees nxt its]. cbn [j_trees j_next j_its] in *.
    pose proof (j_trees_ok cmp Hc pol o T (fst w) trees nxt f its H1 H2 H3) as L.
    destruct (btrees_step cmp o _) as [[r s']| |]; cbn [jagree magree_or] in L |- *; [|unfold on_bst; rewrite L; reflexivity|exact I].
    destruct L as [(w' & T' & g & R & Hi & Hs & Hb & Hn & Hg & Hits)|[R HF]]; [|right; split; [unfold on_bst; rewrite R; reflexivity|exact HF]].
    left. exists (w', snd w). split; [apply on_bst_ok; exact R|].
    exists g, T'. rewrite Hits. split_and!; try assumption.
    + intros k p Ek. specialize (H4 _ _ Ek). destruct (snd p); cbn in *; [lia|exact I].
    + cbn [snd]. rewrite H5. apply map_fmap_ext. intros k [o' p] Ek. specialize (H4 _ _ Ek). unfold place_of. destruct p; cbn in *; [rewrite Hg by exact H4|]; reflexivity.
  - pose proof (jR_lookup _ _ _ id H) as P. destruct (j_trees s !! id) as [u|] eqn:Es; [|exact I]. destruct P as (T & t & H1 & H2 & Ht & Er & W).
    assert (Hres : (o = PreOrder \/ o = InOrder /\ t <> Lf) -> (let st := TSt (tw_heap (fst w)) (tw_al (fst w)) (rootp t) (Z.of_nat (nodes t)) in bt_begin o st = Ok (f <$> first_num (walk o u), st))).
    { intros [->|[-> Hn]]; cbn zeta; rewrite <- first_ren, <- walk_bren, Er; cbn [walk].
      - unfold bt_begin. erewrite bind_ok by reflexivity. cbn [t_root first_node]. rewrite preorder_shp. destruct t; reflexivity.
      - destruct (minA_some t Hn) as (b & y & Hm). rewrite inorder_shp, min_first, Hm. unfold bt_begin. erewrite bind_ok by reflexivity. cbn [t_root].
        eapply first_node_ok; [exact Hn|apply (bwf_nd _ _ _ _ W)|apply (bwf_linked _ _ _ _ W)|exact Hm]. }
    assert (Hgo : (o = PreOrder \/ o = InOrder /\ t <> Lf) -> magree_or jR F (SVal (@OUnit A, put_jt s k (o, first_num (walk o u)))) ((p <- jt_begin id o ;; set_jt k p ;;; ret OUnit) w)).
    { intros Ho. destruct (on_query cmp pol T (fst w) id t (bt_begin o) _ H1 Ht (Hres Ho)) as (w' & E & H').
      left. exists (w', <[k := place_of f (o, first_num (walk o u))]> (snd w)). split.
      - unfold jt_begin. rewrite bind_assoc. erewrite bind_ok by (apply on_bst_ok; exact E). reflexivity.
      - exists f. eapply jR_again; [exact H|exact H'|exact H2|]. eapply (first_below_j f s w o id u []); [exact H|exact Es|reflexivity]. }
    destruct o; [apply Hgo; auto|destruct u; [exact I|apply Hgo]|exact I]. right. split; [reflexivity|]. intros ->. discriminate.
  - pose proof (jR_lookup _ _ _ id H) as P. destruct (j_trees s !! id) as [u|]; [|exact I]. destruct P as (T & t & H1 & H2 & Ht & Er & W).
    destruct (on_query cmp pol T (fst w) id t (ret (@None nat)) None H1 Ht eq_refl) as (w' & E & H').
    left. exists (w', <[k := place_of f (o, None)]> (snd w)). split.
    + unfold jt_end. rewrite bind_assoc. erewrite bind_ok by (apply on_bst_ok; exact E). reflexivity.
    + exists f. apply (jR_again f s w T w' k (o, None) H H' H2 I).
  - pose proof (jR_lookup _ _ _ id H) as P. destruct (j_trees s !! id) as [u|] eqn:Es; [|exact I]. destruct P as (T & t & H1 & H2 & Ht & Er & W).
    destruct (on_query cmp pol T (fst w) id t (bt_find cmp x) _ H1 Ht (find_ok cmp x t _ _ _ (bwf_nd _ _ _ _ W) (bwf_linked _ _ _ _ W))) as (w' & E & H').
    set (q := fst <$> List.find (fun p => equivb cmp x (snd p)) (inorder u)).
    assert (atF cmp x t = f <$> q) as Ea.
    { rewrite (at_first cmp Hc x t 0 (bwf_asc _ _ _ _ W)), <- inorder_shp, <- Er, inorder_bren. apply (find_ren cmp). }
    left. exists (w', <[k := place_of f (InOrder, q)]> (snd w)). split.
    + unfold jt_find. rewrite bind_assoc. erewrite bind_ok by (apply on_bst_ok; exact E). rewrite Ea. reflexivity.
    + exists f. eapply jR_again; [exact H|exact H'|exact H2|]. cbn [snd]. unfold q. destruct (List.find _ (inorder u)) as [[m y]|] eqn:Ef; [|exact I]. apply find_some in Ef as [Ef _].
      destruct H as (_ & _ & _ & H3 & _). apply (H3 _ _ _ Es). apply elem_of_list_fmap. exists (m, y). split; [reflexivity|]. apply elem_of_list_In, Ef.
  - destruct (j_its s !! j) as [[o [n|]]|] eqn:Ej; [| |exact I]; destruct (j_trees s !! id) as [u|] eqn:Es; try exact I.
    rewrite (bind_ok _ _ _ _ _ (get_jt_ok _ _ _ _ _ H Ej)). cbn [place_of fst snd fmap option_fmap option_map].
    destruct (where_at o n (j_trees s)) as [[i [[us x] vs]]|] eqn:E; [|exact I]. destruct (Nat.eqb_spec i id) as [->|]; [|exact I].
    destruct (bdel1 (by_val cmp) (n, x) u) as [u'|] eqn:Ed; [|exact I].
    destruct (jR_at _ _ _ _ _ _ _ _ _ H E) as (T & u0 & t & C0 & l0 & hh0 & r0 & HT & Hs & Eu0 & Ht & Hr & W & Et0 & Ew & Hnx).
    assert (u0 = u) as -> by congruence.
    pose proof (bdel1_bren cmp f n n x u) as E1. rewrite Ed, Hr in E1. cbn [fmap option_fmap option_map] in E1. destruct (del1_shp cmp n x t _ E1) as (t' & Et & Es').
    pose proof (del1_snd cmp n x (shp t)) as E2. rewrite E1, shape_shp in E2. cbn [fmap option_fmap option_map] in E2. rewrite <- Es', shape_shp in E2.
    destruct (del1_zip cmp x t _ E2) as (C & l & a & hh & v & r & Etz & He & Hlr & Hat & Ed' & _).
    assert (a = f n) as ->.
    { pose proof (tcmp_swo cmp Hc) as Hct. pose proof (pairs_asc cmp _ (bwf_asc _ _ _ _ W)) as Hpa.
      assert (Ep : pairs t = (pairsL C0 ++ pairs l0) ++ (f n, x) :: pairs r0 ++ pairsR C0) by (rewrite Et0, pairs_plug, pairs_Br, <- !app_assoc; reflexivity).
      rewrite Ep in Hpa. rewrite (at_first cmp Hc x t (f n) (bwf_asc _ _ _ _ W)), Ep, (lookup_eq _ Hct _ _ _ Hpa) in Hat by apply (equiv_refl _ Hct).
      injection Hat as ->. reflexivity. }
    destruct (j_erase cmp Hc pol T (fst w) id t o _ C l (f n) hh v r HT Ht Etz Hlr Hnx) as (w' & R & HT').
    rewrite Ed' in Et. injection Et as Et. rewrite Et in HT'.
    assert (Hfb : nbelow (j_next s) (first_num vs)) by (apply (first_below_j f s w o id u (us ++ [(n, x)]) vs H Es); rewrite <- app_assoc; exact Ew).
    left. exists (w', <[k := place_of f (o, first_num vs)]> (snd w)). split.
    + unfold jt_erase. rewrite bind_assoc. erewrite bind_ok by (apply on_bst_ok; exact R). reflexivity.
    + destruct H as (_ & _ & _ & Hb & Hit & Hw). exists f. apply (jR_set f (JSpec (<[id := u']> (j_trees s)) (j_next s) (j_its s)) (w', snd w)); [|exact Hfb].
      exists (<[id := t']> T). cbn [j_trees j_next j_its]. split_and!; [exact HT'| | |exact Hit|exact Hw].
      * rewrite !fmap_insert, Hs, Es'. reflexivity.
      * eapply bbelow_insert; [exact Hb|reflexivity|]. intros m Hm. apply (Hb _ _ m Es). eapply nums_bdel; eassumption.
  - destruct (j_its s !! j) as [p|] eqn:E; [|exact I]. cbn [magree_or].
    rewrite (bind_ok _ _ _ _ _ (get_jt_ok _ _ _ _ _ H E)). left. eexists. split; [reflexivity|]. exists f. apply jR_set; [exact H|eapply jt_below; eassumption].
  - destruct (j_its s !! k) as [p|] eqn:E; [|exact I]. destruct (next_at (j_trees s) p) as [q|] eqn:Eq; [|exact I]. cbn [magree_or].
    destruct (jt_next_ok _ _ _ _ _ H Eq) as [R Hb]. rewrite (bind_ok _ _ _ _ _ (get_jt_ok _ _ _ _ _ H E)), (bind_ok _ _ _ _ _ R).
    left. eexists. split; [reflexivity|]. exists f. apply jR_set; assumption.
  - destruct (j_its s !! j) as [p|] eqn:E; [|exact I]. destruct (next_at (j_trees s) p) as [q|] eqn:Eq; [|exact I]. cbn [magree_or].
    destruct (jt_next_ok _ _ _ _ _ H Eq) as [R Hb]. rewrite (bind_ok _ _ _ _ _ (get_jt_ok _ _ _ _ _ H E)), (bind_ok _ _ _ _ _ R).
    left. eexists. split; [reflexivity|]. exists f. apply (jR_set _ _ _ _ _ (jR_set _ _ _ _ _ H Hb)). exact (jt_below _ _ _ _ _ H E).
  - destruct (j_its s !! k) as [[o [n|]]|] eqn:E; [|exact I|exact I]. cbn [snd].
    destruct (where_at InOrder n (j_trees s)) as [[id [[us x] vs]]|] eqn:Ew; [|exact I]. cbn [magree_or].
    rewrite (bind_ok _ _ _ _ _ (get_jt_ok _ _ _ _ _ H E)). left. exists w. split; [|exists f; exact H].
    destruct (jR_at _ _ _ _ _ _ _ _ _ H Ew) as (T & u & t & C & l & hh & r & _ & _ & _ & _ & _ & W & Et & _).
    pose proof (bwf_linked _ _ _ _ W) as Hl. rewrite Et in Hl. destruct (linked_lookup _ _ _ _ _ _ _ _ Hl) as (nn & Hn & Hv & _).
    cbn [place_of fst snd fmap option_fmap option_map].
    erewrite bind_ok by (apply on_bst_same; cbn zeta; apply ld_val_ok; exact Hn). rewrite Hv. reflexivity.
  - destruct (j_its s !! k) as [p|] eqn:E; [|exact I]. destruct (j_its s !! j) as [q|] eqn:E2; [|exact I].
    destruct (valid_at _ p) eqn:Vp; [|exact I]. destruct (valid_at _ q) eqn:Vq; [|exact I]. cbn [andb magree_or]. left. exists w. split; [|exists f; exact H].
    rewrite (bind_ok _ _ _ _ _ (get_jt_ok _ _ _ _ _ H E)), (bind_ok _ _ _ _ _ (get_jt_ok _ _ _ _ _ H E2)). cbn [place_of snd]. rewrite (same_place_j _ _ _ _ _ H Vp Vq). reflexivity.
  - destruct (j_its s !! k) as [p|] eqn:E; [|exact I]. destruct (j_its s !! j) as [q|] eqn:E2; [|exact I].
    destruct (valid_at _ p) eqn:Vp; [|exact I]. destruct (valid_at _ q) eqn:Vq; [|exact I]. cbn [andb magree_or]. left. exists w. split; [|exists f; exact H].
    rewrite (bind_ok _ _ _ _ _ (get_jt_ok _ _ _ _ _ H E)), (bind_ok _ _ _ _ _ (get_jt_ok _ _ _ _ _ H E2)). cbn [place_of snd]. rewrite (same_place_j _ _ _ _ _ H Vp Vq). reflexivity.
Qed.

Lemma jR_init : sound pol -> jR jspec0 (tw_init pol, ∅).
Proof.
  intros Hs. exists (fun n => n), ∅. cbn [j_trees j_next j_its jspec0 fst snd]. split_and!.
  - apply (RB_init cmp), Hs.
  - rewrite !fmap_empty. reflexivity.
  - intros id u m E. rewrite lookup_empty in E. discriminate.
  - intros k p E. rewrite lookup_empty in E. discriminate.
  - rewrite fmap_empty. reflexivity.
Qed.
Lemma j_run ops : sound pol ->
  match srun (js_step cmp) ops jspec0 with
  | SVal (rs, s) => (exists w, mrun (jt_step cmp) ops (tw_init pol, ∅) = Ok (rs, w) /\ jR s w) \/
      (mrun (jt_step cmp) ops (tw_init pol, ∅) = Abort /\
       exists ops1 ops2 rs1 s1, ops = ops1 ++ ops2 /\ srun (js_step cmp) ops1 jspec0 = SVal (rs1, s1) /\ F s1)
  | SAbort => mrun (jt_step cmp) ops (tw_init pol, ∅) = Abort
  | SUnspec => True
  end.
Proof. intros Hs. exact (mrun_agree_or (jt_step cmp) (js_step cmp) jR F jt_step_or ops jspec0 (tw_init pol, ∅) (jR_init Hs)). Qed.
Lemma j_after ops rs s : sound pol -> grants pol -> srun (js_step cmp) ops jspec0 = SVal (rs, s) -> exists w, mrun (jt_step cmp) ops (tw_init pol, ∅) = Ok (rs, w) /\ jR s w.
Proof.
  intros Hs Hg E. pose proof (j_run ops Hs) as P. rewrite E in P. destruct P as [P|(_ & ops1 & ops2 & rs1 & s1 & _ & _ & Hr)]; [exact P|]. destruct (grants_refuses _ _ Hg Hr).
Qed.
End Iters.
