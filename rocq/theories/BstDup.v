(** Every history over BinarySearchTree objects that may push keys again does
    what the specification says. *)
From Coq Require Import Sorted.
From Verif Require Import Base Alloc AllocProofs TreeAlloc VectorModel VectorSpec VecProg VectorProofs VectorWorld VectorExtra Adapter Hist.
From Verif Require Import TreeModel TreeSpec TreeBase TreeSets TreeZip TreeDel TreeErase TreeIter TreeObj TreeWorld TreeHist BstWorld BstSpec BstObj BstDel BstHist BstDupSpec.
Open Scope Z_scope.

Section D.
Context {A : Type} (cmp : A -> A -> bool) (Hc : swo cmp) (pol : policy).
Notation tree := (atree A).
Notation tc := (tree * nat)%type.
Implicit Types (h : gmap nat (node A)) (t l r : tree) (x : A) (w : tworld A) (T : gmap nat tc).
Notation ob := (@ob A).
Notation RB := (RB cmp pol).

(** The members of an object holding [t] that counted [d] pushes too many. *)
Definition obd (p : tc) : option nat * Z := (rootp (fst p), Z.of_nat (nodes (fst p)) + Z.of_nat (snd p)).
Definition shaped (p : tc) : bt A * nat := (shape (fst p), snd p).
(** The same world with the sizes put right. *)
Definition right T w : tworld A := TW (tw_heap w) (tw_al w) (ob <$> (fst <$> T)).
Definition RD T w : Prop := tw_objs w = obd <$> T /\ RB (fst <$> T) (right T w).
Definition RWD (s : gmap nat (bt A * nat)) w : Prop := exists T, s = shaped <$> T /\ RD T w.

Lemma RWD_init : sound pol -> RWD ∅ (tw_init pol).
Proof.
  intros Hp. exists ∅. split; [by rewrite fmap_empty|]. split; [by rewrite fmap_empty|]. unfold right. rewrite !fmap_empty. apply RB_init, Hp.
Qed.
Lemma RD_wf T w id t d : RD T w -> T !! id = Some (t, d) -> bwf cmp (tw_heap w) (tw_al w) t.
Proof. intros [_ H] Ht. apply (rb_wf _ _ _ _ H id). rewrite lookup_fmap, Ht. reflexivity. Qed.
Lemma RD_lookup T w id t d : RD T w -> T !! id = Some (t, d) -> tw_objs w !! id = Some (rootp t, Z.of_nat (nodes t) + Z.of_nat d).
Proof. intros [E _] Ht. rewrite E, lookup_fmap, Ht. reflexivity. Qed.
Lemma RD_goes T w id t d h' f' t' d' : RD T w -> T !! id = Some (t, d) -> bgoes cmp (tw_heap w) (tw_al w) t h' f' t' ->
  RD (<[id := (t', d')]> T) (TW h' f' (<[id := obd (t', d')]> (tw_objs w))).
Proof.
  intros [Ho H] Ht G. split; cbn [tw_objs]; [rewrite fmap_insert, Ho; reflexivity|].
  assert ((fst <$> T) !! id = Some t) as Hf by (rewrite lookup_fmap, Ht; reflexivity).
  pose proof (RB_goes cmp pol _ _ id t h' f' t' H Hf G) as H2. unfold right in *. cbn [tw_heap tw_al tw_objs] in *.
  rewrite !fmap_insert. cbn [fst]. exact H2.
Qed.

(** A method call on one object. *)
Lemma don_at {X} T w id t d (m : M (tst A) X) : RD T w -> T !! id = Some (t, d) ->
  on id m w = match m (TSt (tw_heap w) (tw_al w) (rootp t) (Z.of_nat (nodes t) + Z.of_nat d)) with
              | Ok (x, s) => Ok (x, TW (t_heap s) (t_al s) (<[id := (t_root s, t_size s)]> (tw_objs w)))
              | Abort => Abort | UB => UB | Diverge => Diverge end.
Proof. intros H Ht. unfold on. rewrite (RD_lookup _ _ _ _ _ H Ht). reflexivity. Qed.
Lemma don_goes {X} T w id t d (m : M (tst A) X) o h' f' t' d' z' : RD T w -> T !! id = Some (t, d) ->
  m (TSt (tw_heap w) (tw_al w) (rootp t) (Z.of_nat (nodes t) + Z.of_nat d)) = Ok (o, TSt h' f' (rootp t') z') -> z' = Z.of_nat (nodes t') + Z.of_nat d' ->
  bgoes cmp (tw_heap w) (tw_al w) t h' f' t' ->
  exists w', on id m w = Ok (o, w') /\ RD (<[id := (t', d')]> T) w'.
Proof.
  intros H Ht E -> G. rewrite (don_at _ _ _ _ _ _ H Ht), E. eexists. split; [reflexivity|]. exact (RD_goes _ _ _ _ _ _ _ _ d' H Ht G).
Qed.
Lemma don_query {X} T w id t d (m : M (tst A) X) o : RD T w -> T !! id = Some (t, d) ->
  (let s := TSt (tw_heap w) (tw_al w) (rootp t) (Z.of_nat (nodes t) + Z.of_nat d) in m s = Ok (o, s)) ->
  exists w', on id m w = Ok (o, w') /\ RD T w'.
Proof.
  intros H Ht E. pose proof (RD_wf _ _ _ _ _ H Ht) as W. destruct (don_goes T w id t d m o _ _ t d _ H Ht E eq_refl (bgoes_refl _ _ _ _ W)) as (w' & E' & H').
  rewrite insert_id in H' by exact Ht. eauto.
Qed.
Lemma don_bind {X Y} T w id t d (m : M (tst A) X) (k : X -> M (tst A) Y) e w1 : RD T w -> T !! id = Some (t, d) -> on id m w = Ok (e, w1) ->
  on id (bind m k) w = on id (k e) w1.
Proof.
  intros H Ht. rewrite !(don_at _ _ _ _ _ _ H Ht). unfold bind. destruct (m _) as [[x' [h f rt z]]| | |]; intros [= -> <-].
  unfold on. cbn [tw_objs tw_heap tw_al t_heap t_al t_root t_size]. rewrite lookup_insert.
  destruct (k e _) as [[y s]| | |]; [rewrite insert_insert|..]; reflexivity.
Qed.

(** The calls. *)
Lemma d_new T w id : RD T w -> T !! id = None -> exists w', tw_new id w = Ok (tt, w') /\ RD (<[id := (Lf, 0%nat)]> T) w'.
Proof.
  intros [Ho H] Hi. unfold tw_new. rewrite Ho, lookup_fmap, Hi. cbn [option_fmap option_map]. unfold on. cbn [tw_objs tw_heap tw_al]. rewrite lookup_insert.
  cbn. eexists. split; [reflexivity|]. rewrite insert_insert. split; cbn [tw_objs]; [rewrite fmap_insert; reflexivity|].
  pose proof (RB_add cmp pol _ _ id H) as P. rewrite lookup_fmap, Hi in P. specialize (P eq_refl). unfold right in *. cbn [tw_objs tw_heap tw_al] in *.
  rewrite !fmap_insert. exact P.
Qed.
Lemma d_clear T w id t d : RD T w -> T !! id = Some (t, d) -> exists w', on id bt_clear w = Ok (tt, w') /\ RD (<[id := (Lf, 0%nat)]> T) w'.
Proof.
  intros H Ht. destruct (bclear_goes cmp _ _ (Z.of_nat (nodes t) + Z.of_nat d) t (RD_wf _ _ _ _ _ H Ht)) as (h' & f' & E & G).
  exact (don_goes _ _ _ _ _ _ _ _ _ Lf 0%nat _ H Ht E eq_refl G).
Qed.
Lemma d_destroy T w id t d : RD T w -> T !! id = Some (t, d) -> exists w', tw_destroy id w = Ok (tt, w') /\ RD (delete id T) w'.
Proof.
  intros H Ht. destruct (d_clear _ _ _ _ _ H Ht) as (w1 & E & Ho & H1). unfold tw_destroy.
  change bt_destroy with (@bt_clear A). rewrite (bind_ok _ _ _ _ _ E). eexists. split; [reflexivity|].
  split; cbn [tw_objs]; [rewrite Ho, fmap_insert, delete_insert_delete, fmap_delete; reflexivity|].
  pose proof (RB_del cmp pol _ _ id H1) as P. rewrite lookup_fmap, lookup_insert in P. specialize (P eq_refl).
  unfold right in *. cbn [tw_objs tw_heap tw_al] in *. rewrite <- !fmap_delete, delete_insert_delete in P. exact P.
Qed.

Lemma length_dpush x (p : bt A * nat) : (length (inorder (fst p)) <= length (inorder (fst (dpush cmp x p))))%nat.
Proof. unfold dpush. destruct (lookup_set _ _ _); cbn [fst]; [lia|]. rewrite length_bins. lia. Qed.
Lemma length_dpushes xs : forall p : bt A * nat, (length (inorder (fst p)) <= length (inorder (fst (fold_left (fun d x => dpush cmp x d) xs p))))%nat.
Proof. induction xs as [|x xs IH]; intros p; cbn [fold_left]; [lia|]. pose proof (IH (dpush cmp x p)). pose proof (length_dpush x p). lia. Qed.
Lemma shape_fst T : shape <$> (fst <$> T) = fst <$> (shaped <$> T).
Proof. rewrite <- !map_fmap_compose. apply map_fmap_ext. intros i [t d] _. reflexivity. Qed.
Lemma d_count T w : RD T w -> size (tw_heap w) = dtotal (shaped <$> T).
Proof. intros [_ H]. pose proof (heap_count cmp pol _ _ H) as P. cbn [right tw_heap] in P. rewrite P. unfold dtotal. rewrite shape_fst. reflexivity. Qed.
Lemma dins_refused T w id t d p : RD T w -> T !! id = Some (t, d) -> al_pick (tw_al w) = None -> (length (elems t) < length (inorder (fst p)))%nat ->
  refuses pol (dtotal (<[id := p]> (shaped <$> T))).
Proof.
  intros [Ho H] Ht Ep Hl. assert ((fst <$> T) !! id = Some t) as Hf by (rewrite lookup_fmap, Ht; reflexivity).
  pose proof (ins_refused cmp pol _ _ id t (fst p) H Hf Ep Hl) as P. unfold dtotal. rewrite fmap_insert, <- shape_fst. exact P.
Qed.
(** A push: the key is there, or a node is made for it, or the request for one refused. *)
Lemma d_push T w id t d x : RD T w -> T !! id = Some (t, d) ->
  (exists w' p, on id (bst_push cmp x) w = Ok (tt, w') /\ RD (<[id := p]> T) w' /\ shaped p = dpush cmp x (shape t, d)) \/
  (on id (bst_push cmp x) w = Abort /\ al_pick (tw_al w) = None /\ (length (elems t) < length (inorder (fst (dpush cmp x (shape t, d)))))%nat).
Proof.
  intros H Ht. pose proof (RD_wf _ _ _ _ _ H Ht) as W. unfold dpush. cbn [fst snd]. rewrite inorder_shape.
  destruct (lookup_set cmp x (elems t)) as [y|] eqn:Ex.
  - left. pose proof (atF_some cmp Hc x t (bwf_asc _ _ _ _ W)) as P. rewrite Ex in P. destruct P as [a Ha].
    pose proof (push_dup cmp (tw_heap w) (tw_al w) (Z.of_nat (nodes t) + Z.of_nat d) t x a (bwf_nd _ _ _ _ W) (bwf_linked _ _ _ _ W) Ha) as E.
    destruct (don_goes T w id t d _ _ _ _ t (S d) _ H Ht E ltac:(lia) (bgoes_refl _ _ _ _ W)) as (w' & E' & H').
    exists w', (t, S d). auto.
  - destruct (al_pick (tw_al w)) as [a|] eqn:Ep.
    + left. destruct (push_new cmp Hc _ _ a (Z.of_nat (nodes t) + Z.of_nat d) _ x W Ex Ep) as (h' & E & G).
      destruct (don_goes T w id t d _ _ _ _ _ d _ H Ht E ltac:(rewrite nodes_ins; lia) G) as (w' & E' & H').
      exists w', (insB cmp x a t, d). split; [exact E'|]. split; [exact H'|]. unfold shaped. cbn [fst snd]. rewrite shape_ins. reflexivity.
    + right. rewrite (don_at _ _ _ _ _ _ H Ht), (push_refused cmp Hc _ _ _ _ _ W Ex Ep). split; [reflexivity|]. split; [reflexivity|].
      cbn [fst]. rewrite length_bins, inorder_shape. lia.
Qed.
Lemma d_push_all xs : forall T w id t d, RD T w -> T !! id = Some (t, d) ->
  let q := fold_left (fun p x => dpush cmp x p) xs (shape t, d) in
  (exists w' p, on id (bst_push_all cmp xs) w = Ok (tt, w') /\ RD (<[id := p]> T) w' /\ shaped p = q) \/
  (on id (bst_push_all cmp xs) w = Abort /\ refuses pol (dtotal (<[id := q]> (shaped <$> T)))).
Proof.
  induction xs as [|x xs IH]; intros T w id t d H Ht; cbn [bst_push_all fold_left]; cbn zeta.
  - left. destruct (don_query T w id t d (ret tt) tt H Ht eq_refl) as (w' & E & H'). exists w', (t, d). rewrite (insert_id _ _ _ Ht). auto.
  - destruct (d_push _ _ _ _ _ x H Ht) as [(w1 & [t1 d1] & E1 & H1 & Hs)|(E1 & Ep & Hl)].
    + rewrite (don_bind _ _ _ _ _ _ _ _ _ H Ht E1). rewrite <- Hs.
      destruct (IH _ _ id t1 d1 H1 (lookup_insert _ _ _)) as [(w2 & p2 & E2 & H2 & Hs2)|[E2 H2]].
      * left. exists w2, p2. rewrite insert_insert in H2. auto.
      * right. split; [exact E2|]. rewrite fmap_insert, insert_insert in H2. exact H2.
    + right. split; [|eapply dins_refused; [eassumption..|]].
      * rewrite (don_at _ _ _ _ _ _ H Ht) in E1. rewrite (don_at _ _ _ _ _ _ H Ht).
        destruct (bst_push cmp x _) as [[? ?]| | |] eqn:E; try discriminate. rewrite (bind_abort _ _ _ E). reflexivity.
      * pose proof (length_dpushes xs (dpush cmp x (shape t, d))). lia.
Qed.
Lemma d_pop T w id t d x s : RD T w -> T !! id = Some (t, d) -> bdel1 cmp x (shape t) = Some s ->
  exists w' t', on id (bst_pop cmp x) w = Ok (tt, w') /\ RD (<[id := (t', d)]> T) w' /\ shape t' = s.
Proof.
  intros H Ht Hs. pose proof (RD_wf _ _ _ _ _ H Ht) as W. destruct (del1_shape cmp x t s Hs) as (t' & Ed & <-).
  destruct (del1_elems cmp Hc x t t' (bwf_asc _ _ _ _ W) Hs) as [Ee [v Ev]].
  pose proof (length_remove cmp Hc _ _ _ (bwf_asc _ _ _ _ W) Ev) as Hlen.
  assert (Z.of_nat (nodes t) - 1 = Z.of_nat (nodes t')) as Ez by (rewrite !nodes_len, Ee; lia).
  pose proof (pop_nz cmp Hc _ (tw_al w) (Z.of_nat (nodes t) + Z.of_nat d) t x (bwf_nd _ _ _ _ W) (bwf_linked _ _ _ _ W) ltac:(lia)) as P. rewrite Ed in P.
  destruct P as (h' & f' & E & L). assert (bgoes cmp (tw_heap w) (tw_al w) t h' f' t') as G.
  { eapply lost_goes; [exact W|exact L|]. rewrite Ee. apply remove_asc, (bwf_asc _ _ _ _ W). }
  destruct (don_goes T w id t d _ _ _ _ _ d _ H Ht E ltac:(lia) G) as (w' & E' & H'). eauto.
Qed.
Lemma d_find T w id t d x : RD T w -> T !! id = Some (t, d) ->
  exists w', on id (p <- bt_find cmp x ;; deref p) w = Ok (lookup_set cmp x (elems t), w') /\ RD T w'.
Proof.
  intros H Ht. pose proof (RD_wf _ _ _ _ _ H Ht) as W. apply (don_query T w id t d); [exact H|exact Ht|]. cbn zeta.
  rewrite (bind_ok _ _ _ _ _ (find_ok cmp x t _ _ _ (bwf_nd _ _ _ _ W) (bwf_linked _ _ _ _ W))).
  pose proof (atF_lookup cmp Hc x t _ _ (bwf_asc _ _ _ _ W) (bwf_linked _ _ _ _ W)) as P. unfold deref.
  destruct (lookup_set cmp x (elems t)) as [v|]; [|rewrite P; reflexivity].
  destruct P as (a & n & -> & Hn & <- & _). cbn [is_null]. rewrite (bind_ok _ _ _ _ _ (ld_val_ok _ _ _ _ _ _ Hn)). reflexivity.
Qed.
Lemma d_erase T w id t d x s : RD T w -> T !! id = Some (t, d) -> bdel1 cmp x (shape t) = Some s ->
  exists w' t', on id (p <- bt_find cmp x ;; q <- bst_erase cmp InOrder p ;; deref q) w = Ok (next_set cmp x (elems t), w') /\
    RD (<[id := (t', d)]> T) w' /\ shape t' = s.
Proof.
  intros H Ht Hs. pose proof (RD_wf _ _ _ _ _ H Ht) as W. destruct (del1_zip cmp x t s Hs) as (C & l & a & hh & v & r & Et & He & Hlr & Hat & _ & Es).
  set (t' := plug C (match l with Lf => r | _ => l end)) in *. rewrite Es in Hs.
  destruct (del1_elems cmp Hc x t t' (bwf_asc _ _ _ _ W) Hs) as [Ee [v0 Ev]].
  pose proof (length_remove cmp Hc _ _ _ (bwf_asc _ _ _ _ W) Ev) as Hlen.
  assert (Z.of_nat (nodes t) - 1 = Z.of_nat (nodes t')) as Ez by (rewrite !nodes_len, Ee; lia).
  assert (tdelF (Br l a hh v r) = Some (match l with Lf => r | _ => l end)) as Etd by (destruct Hlr as [->| ->]; [reflexivity|destruct l; reflexivity]).
  assert (next_set cmp x (elems t) = head (elems r ++ elemsR C)) as En.
  { assert (elems t = (elemsL C ++ elems l) ++ v :: (elems r ++ elemsR C)) as Eel by (rewrite Et, elems_plug; cbn [elems]; rewrite <- !app_assoc; reflexivity).
    pose proof (bwf_asc _ _ _ _ W) as Ha. rewrite Eel in Ha |- *. apply (next_eq cmp Hc _ _ _ Ha _ He). }
  pose proof (erase_at cmp Hc C l a hh v r (tw_heap w) (tw_al w) (Z.of_nat (nodes t) + Z.of_nat d)) as P. cbn zeta in P. rewrite <- Et, Etd in P.
  destruct (P (bwf_nd _ _ _ _ W) (bwf_linked _ _ _ _ W)) as (h' & f' & E & L). fold t' in E, L.
  assert (bgoes cmp (tw_heap w) (tw_al w) t h' f' t') as G.
  { eapply lost_goes; [exact W|exact L|]. rewrite Ee. apply remove_asc, (bwf_asc _ _ _ _ W). }
  edestruct (don_goes T w id t d (p <- bt_find cmp x ;; q <- bst_erase cmp InOrder p ;; deref q)) as (w' & E' & H');
    [exact H|exact Ht| |shelve|exact G|exists w', t'; split; [exact E'|split; [exact H'|auto]]].
  rewrite (bind_ok _ _ _ _ _ (find_ok cmp x t _ _ _ (bwf_nd _ _ _ _ W) (bwf_linked _ _ _ _ W))). rewrite Hat.
  rewrite (bind_ok _ _ _ _ _ E). rewrite En.
  replace (match l, r with Br _ _ _ _ _, Br _ _ _ _ _ => Some a | _, _ => next_pos C r end) with (next_pos C r) by (destruct Hlr as [->| ->]; [reflexivity|destruct l; reflexivity]).
  apply (next_after C l r h' f' _ _ Hlr (proj1 L)).
  Unshelve. lia.
Qed.
Lemma d_iter T w id t d : RD T w -> T !! id = Some (t, d) ->
  (t <> Lf -> exists w', on id (bt_iterate InOrder) w = Ok (elems t, w') /\ RD T w') /\
  exists w', on id (bt_iterate PreOrder) w = Ok (pre t, w') /\ RD T w'.
Proof.
  intros H Ht. pose proof (RD_wf _ _ _ _ _ H Ht) as W. split; [intros Hn|]; (apply (don_query T w id t d); [exact H|exact Ht|]); cbn zeta.
  - apply (iterate_in_ok t); [exact Hn|apply (bwf_nd _ _ _ _ W)|apply (bwf_linked _ _ _ _ W)].
  - apply (iterate_pre_ok t); [apply (bwf_nd _ _ _ _ W)|apply (bwf_linked _ _ _ _ W)].
Qed.
Lemma d_traverse T w id t d : RD T w -> T !! id = Some (t, d) -> exists w', on id (bt_traversal PreOrder) w = Ok (pre t, w') /\ RD T w'.
Proof.
  intros H Ht. pose proof (RD_wf _ _ _ _ _ H Ht) as W. apply (don_query T w id t d); [exact H|exact Ht|]. cbn zeta.
  apply (traversal_ok PreOrder); [auto|apply (bwf_nd _ _ _ _ W)|apply (bwf_linked _ _ _ _ W)].
Qed.
Lemma d_move T w id src p0 p : RD T w -> T !! id = Some p0 -> T !! src = Some p ->
  exists w', bst_move id src w = Ok (tt, w') /\ RD (if Nat.eqb id src then T else <[id := p]> (<[src := (Lf, 0%nat)]> T)) w'.
Proof.
  intros H H0 Ht. destruct p0 as [t0 d0], p as [t d]. unfold bst_move. erewrite bind_ok by (unfold tw_get; rewrite (RD_lookup _ _ _ _ _ H Ht); reflexivity).
  destruct (Nat.eqb_spec id src) as [->|Hne]; [exists w; auto|].
  destruct (d_clear _ _ _ _ _ H H0) as (w1 & E1 & H1). rewrite (bind_ok _ _ _ _ _ E1).
  assert (<[id := (Lf, 0%nat)]> T !! src = Some (t, d)) as Ht1 by (rewrite lookup_insert_ne by congruence; exact Ht).
  erewrite bind_ok by (unfold tw_get; rewrite (RD_lookup _ _ _ _ _ H1 Ht1); reflexivity).
  erewrite bind_ok by (unfold tw_put; rewrite (RD_lookup _ _ _ _ _ H1 (lookup_insert _ _ _)); reflexivity).
  unfold tw_put at 1. cbn [tw_objs tw_heap tw_al]. rewrite lookup_insert_ne by congruence. rewrite (RD_lookup _ _ _ _ _ H1 Ht1).
  eexists. split; [reflexivity|]. destruct H1 as [Ho1 H1]. split; cbn [tw_objs].
  - rewrite Ho1, !fmap_insert. change (obd (Lf, 0%nat)) with (None : option nat, 0%Z). change (obd (t, d)) with (rootp t, Z.of_nat (nodes t) + Z.of_nat d).
    rewrite insert_insert. apply insert_commute. congruence.
  - pose proof (RB_swap cmp pol _ _ id src t H1 Hne) as H2. rewrite !lookup_fmap, lookup_insert, Ht1 in H2. specialize (H2 eq_refl eq_refl).
    unfold right in *. cbn [tw_objs tw_heap tw_al] in *. rewrite !fmap_insert in H2. rewrite !fmap_insert. cbn [fst] in *.
    change (ob Lf) with (None : option nat, 0%Z) in *.
    rewrite (insert_commute (fst <$> T) src id) in H2 by congruence. rewrite insert_insert in H2. 
    rewrite insert_insert in H2. rewrite (insert_commute _ src id) in H2 by congruence. exact H2.
Qed.

Notation over := (fun s : gmap nat (bt A * nat) => refuses pol (dtotal s)).
Lemma counted_shaped t d : counted (shape t, d) = (nodes t + d)%nat.
Proof. unfold counted. cbn [fst snd]. rewrite inorder_shape. pose proof (nodes_len t). lia. Qed.
Lemma d_step_or o s w : RWD s w -> magree_or RWD over (bd_step cmp o s) (b_step cmp o w).
Proof.
  intros (T & -> & H).
  assert (forall id X (k : bt A * nat -> sres X) (Q : sres X -> Prop), Q SUnspec ->
    (forall t d, T !! id = Some (t, d) -> Q (k (shape t, d))) -> Q (with_dt (shaped <$> T) id k)) as HW.
  { intros id X k Q Q1 Q2. unfold with_dt. rewrite lookup_fmap. destruct (T !! id) as [[t d]|]; cbn; [apply Q2; reflexivity|exact Q1]. }
  assert (forall id X (k : sres X) (Q : sres X -> Prop), Q SUnspec ->
    (T !! id = None -> Q k) -> Q (no_dt (shaped <$> T) id k)) as HN.
  { intros id X k Q Q1 Q2. unfold no_dt. rewrite lookup_fmap. destruct (T !! id) as [t|]; cbn; auto. }
  assert (forall (x : tout A) T2 w2 (c : res (tout A * tworld A)) s2, c = Ok (x, w2) -> RD T2 w2 -> s2 = shaped <$> T2 ->
    magree_or RWD over (SVal (x, s2)) c) as HV.
  { intros x T2 w2 c s2 -> H2 ->. left. exists w2. split; [reflexivity|]. exists T2. auto. }
  destruct o; cbn [bd_step b_step]; try exact I.
  - apply HN; [exact I|]. intros Hi. destruct (d_new _ _ _ H Hi) as (w' & E & H').
    eapply HV; [rewrite (bind_ok _ _ _ _ _ E); reflexivity|exact H'|]. rewrite fmap_insert. reflexivity.
  - apply HN; [exact I|]. intros Hi.
    destruct (d_new _ _ _ H Hi) as (w1 & E & H1).
    destruct (d_push_all xs _ _ id Lf 0%nat H1 (lookup_insert _ _ _)) as [(w2 & p & E2 & H2 & Es)|[E2 H2]]; cbn zeta in *.
    + rewrite insert_insert in H2.
      eapply HV; [rewrite (bind_ok _ _ _ _ _ E), (bind_ok _ _ _ _ _ E2); reflexivity|exact H2|]. rewrite fmap_insert, Es. reflexivity.
    + right. split; [rewrite (bind_ok _ _ _ _ _ E); apply bind_abort, E2|]. rewrite fmap_insert, insert_insert in H2. exact H2.
  - apply HW; [exact I|]. intros t d Ht. destruct (d_destroy _ _ _ _ _ H Ht) as (w' & E & H').
    eapply HV; [rewrite (bind_ok _ _ _ _ _ E); reflexivity|exact H'|]. rewrite fmap_delete. reflexivity.
  - apply HW; [exact I|]. intros t d Ht. destruct (d_push _ _ _ _ _ x H Ht) as [(w' & p & E & H' & Es)|(E & Ep & Hl)].
    + eapply HV; [rewrite (bind_ok _ _ _ _ _ E); reflexivity|exact H'|]. rewrite fmap_insert, Es. reflexivity.
    + right. split; [apply bind_abort, E|]. eapply dins_refused; eassumption.
  - apply HW; [exact I|]. intros t d Ht. rewrite counted_shaped. cbn [fst snd]. destruct (Nat.eqb_spec (nodes t + d) 0) as [E0|E0].
    + assert (nodes t = 0%nat /\ d = 0%nat) as [Hn ->] by lia. destruct t; [|cbn [nodes] in Hn; lia].
      destruct (don_query T w id Lf 0%nat (bst_pop cmp x) tt H Ht eq_refl) as (w' & E & H').
      eapply HV; [rewrite (bind_ok _ _ _ _ _ E); reflexivity|exact H'|reflexivity].
    + destruct (bdel1 cmp x (shape t)) as [s'|] eqn:Ed; [|exact I].
      destruct (d_pop _ _ _ _ _ x _ H Ht Ed) as (w' & t' & E & H' & <-).
      eapply HV; [rewrite (bind_ok _ _ _ _ _ E); reflexivity|exact H'|]. rewrite fmap_insert. reflexivity.
  - apply HW; [exact I|]. intros t d Ht. destruct (d_find _ _ _ _ _ x H Ht) as (w' & E & H'). cbn [fst]. rewrite inorder_shape.
    eapply HV; [rewrite (bind_ok _ _ _ _ _ E); reflexivity|exact H'|reflexivity].
  - apply HW; [exact I|]. intros t d Ht. cbn [fst snd]. destruct (bdel1 cmp x (shape t)) as [s'|] eqn:Ed; [|exact I]. rewrite inorder_shape.
    destruct (d_erase _ _ _ _ _ x _ H Ht Ed) as (w' & t' & E & H' & <-).
    eapply HV; [rewrite (bind_ok _ _ _ _ _ E); reflexivity|exact H'|]. rewrite fmap_insert. reflexivity.
  - apply HW; [exact I|]. intros t d Ht. destruct (don_query _ _ _ _ _ bt_size _ H Ht eq_refl) as (w' & E & H').
    eapply HV; [rewrite (bind_ok _ _ _ _ _ E); cbn [t_size]; rewrite counted_shaped, Nat2Z.inj_add; reflexivity|exact H'|reflexivity].
  - apply HW; [exact I|]. intros t d Ht. destruct (don_query _ _ _ _ _ bt_capacity _ H Ht eq_refl) as (w' & E & H').
    eapply HV; [rewrite (bind_ok _ _ _ _ _ E); cbn [t_size]; rewrite counted_shaped, Nat2Z.inj_add; reflexivity|exact H'|reflexivity].
  - apply HW; [exact I|]. intros t d Ht. destruct (don_query _ _ _ _ _ bt_empty _ H Ht eq_refl) as (w' & E & H').
    assert ((Z.of_nat (nodes t) + Z.of_nat d =? 0) = Nat.eqb (counted (shape t, d)) 0) as Hz.
    { rewrite counted_shaped. destruct (Nat.eqb_spec (nodes t + d) 0); [apply Z.eqb_eq|apply Z.eqb_neq]; lia. }
    eapply HV; [rewrite (bind_ok _ _ _ _ _ E); cbn [t_size]; rewrite Hz; reflexivity|exact H'|reflexivity].
  - apply HW; [exact I|]. intros t d Ht. destruct (d_iter _ _ _ _ _ H Ht) as [Hin (wp & Ep & Hp)]. cbn [fst].
    destruct o; [|destruct (shape t) as [|s1 y s2] eqn:Es; [exact I|]|destruct (shape t); exact I].
    + rewrite preorder_shape. eapply HV; [rewrite (bind_ok _ _ _ _ _ Ep); reflexivity|exact Hp|reflexivity].
    + rewrite <- Es, inorder_shape. destruct Hin as (w' & E & H'); [intros ->; discriminate|].
      eapply HV; [rewrite (bind_ok _ _ _ _ _ E); reflexivity|exact H'|reflexivity].
  - apply HW; [exact I|]. intros t d Ht. destruct (d_clear _ _ _ _ _ H Ht) as (w' & E & H').
    eapply HV; [rewrite (bind_ok _ _ _ _ _ E); reflexivity|exact H'|]. rewrite fmap_insert. reflexivity.
  - apply HW; [exact I|]. intros t d Ht. destruct o; [|exact I|exact I]. destruct (d_traverse _ _ _ _ _ H Ht) as (w' & E & H').
    cbn [fst]. rewrite preorder_shape. eapply HV; [rewrite (bind_ok _ _ _ _ _ E); reflexivity|exact H'|reflexivity].
  - apply HN; [exact I|]. intros Hi. apply HW; [exact I|]. intros t d Ht. assert (id <> src) as Hne by (intros ->; congruence).
    destruct (d_new _ _ _ H Hi) as (w1 & E1 & H1).
    destruct (d_move _ _ id src (Lf, 0%nat) (t, d) H1 (lookup_insert _ _ _)) as (w2 & E2 & H2); [rewrite lookup_insert_ne by congruence; exact Ht|].
    rewrite (proj2 (Nat.eqb_neq id src) Hne) in H2. rewrite (insert_commute _ src id) in H2 by congruence. rewrite insert_insert in H2.
    eapply HV; [rewrite (bind_ok _ _ _ _ _ E1), (bind_ok _ _ _ _ _ E2); reflexivity|exact H2|]. rewrite !fmap_insert. reflexivity.
  - apply HW; [exact I|]. intros t0 d0 Ht0. apply HW; [exact I|]. intros t d Ht. destruct (d_move _ _ id src _ _ H Ht0 Ht) as (w' & E & H').
    destruct (Nat.eqb id src).
    + eapply HV; [rewrite (bind_ok _ _ _ _ _ E); reflexivity|exact H'|reflexivity].
    + eapply HV; [rewrite (bind_ok _ _ _ _ _ E); reflexivity|exact H'|]. rewrite !fmap_insert. reflexivity.
Qed.

Theorem d_history_or ops : sound pol -> match srun (bd_step cmp) ops ∅ with
  | SVal (rs, s) => (exists w, mrun (b_step cmp) ops (tw_init pol) = Ok (rs, w) /\ size (tw_heap w) = dtotal s) \/
      (mrun (b_step cmp) ops (tw_init pol) = Abort /\
       exists ops1 ops2 rs1 s1, ops = ops1 ++ ops2 /\ srun (bd_step cmp) ops1 ∅ = SVal (rs1, s1) /\ refuses pol (dtotal s1))
  | SAbort => mrun (b_step cmp) ops (tw_init pol) = Abort
  | SUnspec => True
  end.
Proof.
  intros Hp. pose proof (mrun_agree_or (b_step cmp) (bd_step cmp) RWD over d_step_or ops ∅ (tw_init pol) (RWD_init Hp)) as P.
  destruct (srun (bd_step cmp) ops ∅) as [[rs s]| |]; cbn in P; [|exact P|exact I].
  destruct P as [(w & E & T & -> & H)|P]; [left; exists w; split; [exact E|]; apply d_count, H|right; exact P].
Qed.
Theorem d_after ops rs s : sound pol -> grants pol -> srun (bd_step cmp) ops ∅ = SVal (rs, s) ->
  exists w, mrun (b_step cmp) ops (tw_init pol) = Ok (rs, w) /\ RWD s w.
Proof.
  intros Hp Hg E. pose proof (mrun_agree (b_step cmp) (bd_step cmp) RWD) as P.
  specialize (P (fun o s w H => magree_or_no _ _ _ _ (fun s => grants_refuses pol (dtotal s) Hg) (d_step_or o s w H)) ops ∅ (tw_init pol) (RWD_init Hp)).
  rewrite E in P. exact P.
Qed.
Theorem d_history ops rs s : sound pol -> grants pol -> srun (bd_step cmp) ops ∅ = SVal (rs, s) ->
  exists w, mrun (b_step cmp) ops (tw_init pol) = Ok (rs, w) /\ size (tw_heap w) = dtotal s.
Proof. intros Hp Hg E. destruct (d_after _ _ _ Hp Hg E) as (w & Ew & T & -> & H). exists w. split; [exact Ew|]. apply d_count, H. Qed.
End D.

Section S.
Context {A : Type} (cmp : A -> A -> bool) (Hc : swo cmp).
Lemma d_sorted ops rs s id p : srun (bd_step cmp) ops ∅ = SVal (rs, s) -> s !! id = Some p -> ascending cmp (inorder (fst p)).
Proof.
  intros E Ht. destruct (d_after cmp Hc bump _ _ _ bump_sound bump_grants E) as (w & _ & T & -> & H). rewrite lookup_fmap in Ht.
  destruct (T !! id) as [[u d]|] eqn:Eu; [|discriminate]. injection Ht as <-. cbn [shaped fst]. rewrite inorder_shape.
  exact (bwf_asc _ _ _ _ (RD_wf _ _ _ _ _ _ _ H Eu)).
Qed.
(** Pushing any keys adds those that are not there and counts them all. *)
Lemma dpush_set x (p : bt A * nat) : ascending cmp (inorder (fst p)) ->
  inorder (fst (dpush cmp x p)) = (match lookup_set cmp x (inorder (fst p)) with Some _ => inorder (fst p) | None => add_set cmp x (inorder (fst p)) end) /\
  counted (dpush cmp x p) = S (counted p).
Proof.
  intros Hs. unfold dpush, counted. destruct (lookup_set cmp x (inorder (fst p))) eqn:E; cbn [fst snd].
  - split; [reflexivity|lia].
  - split; [apply (inorder_bins cmp Hc); assumption|]. rewrite length_bins. lia.
Qed.

Lemma lookup_add x z l : lookup_set cmp x l = None -> lookup_set cmp z (add_set cmp x l) = match lookup_set cmp z l with Some y => Some y | None => if equivb cmp z x then Some x else None end.
Proof.
  intros Hx. assert (forall y, In y l -> equiv cmp z x -> ~ equiv cmp z y) as Hz.
  { intros y Hy Hzx Hzy. apply (proj1 (lookup_none cmp x l) Hx y Hy). apply (equiv_trans cmp Hc x z y); [apply equiv_sym; assumption|exact Hzy]. }
  clear Hx. induction l as [|y l IH]; cbn [add_set lookup_set List.find]; [reflexivity|].
  assert (forall y, In y l -> equiv cmp z x -> ~ equiv cmp z y) as Hz' by (intros u Hu; apply Hz; right; exact Hu). specialize (IH Hz').
  destruct (cmp x y); cbn [List.find].
  - destruct (equivb cmp z x) eqn:Ex.
    + apply equivb_true in Ex. destruct (equivb cmp z y) eqn:Ey; [apply equivb_true in Ey; destruct (Hz y (or_introl eq_refl) Ex Ey)|].
      rewrite find_none_all; [reflexivity|]. intros u Hu. destruct (equivb cmp z u) eqn:Eu; [apply equivb_true in Eu; destruct (Hz' u Hu Ex Eu)|reflexivity].
    + destruct (equivb cmp z y); [reflexivity|]. destruct (List.find _ l); reflexivity.
  - destruct (equivb cmp z y); [reflexivity|]. exact IH.
Qed.
Notation pushes := (fold_left (fun d x => dpush cmp x d)).
Lemma pushes_keys xs : forall (ys : list A) (p : bt A * nat), ascending cmp (inorder (fst p)) ->
  (forall z, lookup_set cmp z (inorder (fst p)) = lookup_set cmp z ys) -> counted p = length ys ->
  ascending cmp (inorder (fst (pushes xs p))) /\
  (forall z, lookup_set cmp z (inorder (fst (pushes xs p))) = lookup_set cmp z (ys ++ xs)) /\ counted (pushes xs p) = length (ys ++ xs).
Proof.
  induction xs as [|x xs IH]; intros ys p Hs Hl Hn; cbn [fold_left]; [rewrite app_nil_r; auto|].
  replace (ys ++ x :: xs) with ((ys ++ [x]) ++ xs) by (rewrite <- app_assoc; reflexivity).
  pose proof (dpush_set x p Hs) as [He Hc1]. apply IH.
  - rewrite He. destruct (lookup_set cmp x (inorder (fst p))) eqn:E; [exact Hs|]. apply add_asc; assumption.
  - intros z. assert (lookup_set cmp z (ys ++ [x]) = match lookup_set cmp z (inorder (fst p)) with Some y => Some y | None => if equivb cmp z x then Some x else None end) as ->.
    { unfold lookup_set at 1. rewrite find_app. fold (lookup_set cmp z ys). rewrite <- Hl. reflexivity. }
    rewrite He.
    destruct (lookup_set cmp x (inorder (fst p))) as [y|] eqn:E.
    + destruct (lookup_set cmp z (inorder (fst p))) eqn:Ez; [reflexivity|]. destruct (equivb cmp z x) eqn:Ezx; [|reflexivity].
      exfalso. apply lookup_some in E as [Hy Hxy]. apply equivb_true in Ezx.
      apply (proj1 (lookup_none cmp z _) Ez y Hy). exact (equiv_trans cmp Hc _ _ _ Ezx Hxy).
    + apply lookup_add, E.
  - rewrite Hc1, Hn, app_length. cbn [length]. lia.
Qed.
(** A tree made from any keys. *)
Theorem d_keys pol id xs : sound pol -> grants pol -> xs <> [] -> exists l w,
  mrun (b_step cmp) [BFrom id xs; BIter id InOrder; BSize id] (tw_init pol) = Ok ([OUnit; OList l; OZ (Z.of_nat (length xs))], w) /\
  size (tw_heap w) = length l /\ ascending cmp l /\ (forall x, lookup_set cmp x l = lookup_set cmp x xs).
Proof.
  intros Hso Hgr Hx. destruct (pushes_keys xs [] (BE, 0%nat) ltac:(constructor) (fun z => eq_refl) eq_refl) as (Hs & Hl & Hn). cbn [app] in Hl, Hn.
  set (p := pushes xs (BE, 0%nat)) in *. exists (inorder (fst p)).
  assert (exists l x r, fst p = BN l x r) as (l & x & r & Ep).
  { destruct (fst p) as [|l x r] eqn:E; [|eauto]. exfalso. destruct xs as [|y xs]; [congruence|]. specialize (Hl y). cbn [inorder lookup_set List.find] in Hl.
    rewrite (proj2 (equivb_true cmp y y) (equiv_refl cmp Hc y)) in Hl. discriminate. }
  destruct (d_history cmp Hc pol [BFrom id xs; BIter id InOrder; BSize id] [OUnit; OList (inorder (fst p)); OZ (Z.of_nat (length xs))] {[id := p]} Hso Hgr) as (w & E & Hh).
  - cbn [srun bd_step]. unfold no_dt. rewrite lookup_empty. fold p. cbn [srun bd_step]. unfold with_dt. rewrite lookup_insert, Ep. cbn [srun bd_step]. unfold with_dt. rewrite lookup_insert, Hn. reflexivity.
  - exists w. split; [exact E|]. split; [|auto]. rewrite Hh. unfold dtotal, btotal. rewrite map_fmap_singleton, map_to_list_singleton. cbn [mbind list_bind snd]. rewrite app_nil_r. reflexivity.
Qed.
Theorem d_sets ops rs s id p x : srun (bd_step cmp) ops ∅ = SVal (rs, s) -> s !! id = Some p ->
  ascending cmp (inorder (fst p)) /\
  inorder (fst (dpush cmp x p)) = (match lookup_set cmp x (inorder (fst p)) with Some _ => inorder (fst p) | None => add_set cmp x (inorder (fst p)) end) /\
  counted (dpush cmp x p) = S (counted p).
Proof. intros E Hp. pose proof (d_sorted _ _ _ _ _ E Hp) as Hs. split; [exact Hs|]. apply dpush_set, Hs. Qed.
End S.
