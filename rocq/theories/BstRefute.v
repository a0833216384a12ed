(** What goes wrong after every history over BinarySearchTree objects. *)
From Coq Require Import Sorted.
From Verif Require Import Base Alloc AllocProofs VectorModel VectorSpec Adapter Hist.
From Verif Require Import TreeModel TreeSpec TreeBase TreeSets TreeZip TreeDel TreeErase TreeIter TreeObj TreeWorld TreeHist BstWorld BstSpec BstObj BstDel BstHist.
Open Scope Z_scope.

(** A later element is smaller than an earlier one. *)
Definition inverted {A} (cmp : A -> A -> bool) (l : list A) : Prop :=
  exists u1 e u2 z u3, l = u1 ++ e :: u2 ++ z :: u3 /\ cmp z e = true.

Section R.
Context {A : Type} (cmp : A -> A -> bool) (Hc : swo cmp) (pol : policy) (Hso : sound pol) (Hgr : grants pol).
Notation tree := (atree A).
Implicit Types (h : gmap nat (node A)) (t r : tree) (x y : A) (w : tworld A) (T : gmap nat tree).
Notation run ops := (mrun (b_step cmp) ops (tw_init pol)).
Notation srn ops := (srun (bs_step cmp) ops ∅).

Lemma inverted_not_sorted (l : list A) : inverted cmp l -> ~ ascending cmp l.
Proof.
  intros (u1 & e & u2 & z & u3 & -> & Hz) Hs. apply (asc_mid cmp Hc) in Hs as (_ & _ & _ & Hs).
  specialize (Hs z ltac:(apply in_or_app; right; left; reflexivity)). pose proof (c_asym cmp Hc _ _ Hs). congruence.
Qed.
Lemma b_at ops rs s id (t : bt A) : srn ops = SVal (rs, s) -> s !! id = Some t -> exists w T u, run ops = Ok (rs, w) /\ RB cmp pol T w /\ T !! id = Some u /\ shape u = t.
Proof.
  intros E Ht. destruct (b_after cmp Hc pol _ _ _ Hso Hgr E) as (w & T & Ew & -> & H). rewrite lookup_fmap in Ht.
  destruct (T !! id) as [u|] eqn:Eu; [|discriminate]. injection Ht as <-. exists w, T, u. auto.
Qed.
Lemma then_ub ops ops2 rs w : run ops = Ok (rs, w) -> mrun (b_step cmp) ops2 w = UB -> run (ops ++ ops2) = UB.
Proof. intros E E2. rewrite (mrun_app _ _ _ _ _ _ E), E2. reflexivity. Qed.
Lemma then_ok ops ops2 rs w rs2 w2 : run ops = Ok (rs, w) -> mrun (b_step cmp) ops2 w = Ok (rs2, w2) -> run (ops ++ ops2) = Ok (rs ++ rs2, w2).
Proof. intros E E2. rewrite (mrun_app _ _ _ _ _ _ E), E2. reflexivity. Qed.
Lemma run_ub o os w : b_step cmp o w = UB -> mrun (b_step cmp) (o :: os) w = UB.
Proof. intros E. cbn [mrun]. apply bind_ub, E. Qed.
Lemma run_ok o os w e w2 es w3 : b_step cmp o w = Ok (e, w2) -> mrun (b_step cmp) os w2 = Ok (es, w3) -> mrun (b_step cmp) (o :: os) w = Ok (e :: es, w3).
Proof. intros E E2. cbn [mrun]. rewrite (bind_ok _ _ _ _ _ E), (bind_ok _ _ _ _ _ E2). reflexivity. Qed.
Lemma run_ok_ub o os w e w2 : b_step cmp o w = Ok (e, w2) -> mrun (b_step cmp) os w2 = UB -> mrun (b_step cmp) (o :: os) w = UB.
Proof. intros E E2. cbn [mrun]. rewrite (bind_ok _ _ _ _ _ E), (bind_ub _ _ _ E2). reflexivity. Qed.
Lemma run_nil w : mrun (b_step cmp) [] w = Ok ([], w).
Proof. reflexivity. Qed.

(** An object in a known state, whatever the other objects. *)
Definition obj w id h f rt z : Prop := tw_heap w = h /\ tw_al w = f /\ tw_objs w !! id = Some (rt, z).
Lemma on_obj {X} w id h f rt z (m : M (tst A) X) : obj w id h f rt z ->
  match m (TSt h f rt z) with
  | Ok (x, s) => exists w', on id m w = Ok (x, w') /\ obj w' id (t_heap s) (t_al s) (t_root s) (t_size s)
  | Abort => on id m w = Abort | UB => on id m w = UB | Diverge => on id m w = Diverge
  end.
Proof.
  intros (<- & <- & E). unfold on. rewrite E. destruct (m _) as [[e s]| | |]; try reflexivity.
  eexists. split; [reflexivity|]. unfold obj. cbn [tw_heap tw_al tw_objs]. rewrite lookup_insert. auto.
Qed.
Lemma RB_obj T w id t : RB cmp pol T w -> T !! id = Some t -> obj w id (tw_heap w) (tw_al w) (rootp t) (Z.of_nat (nodes t)).
Proof. intros H Ht. split; [reflexivity|]. split; [reflexivity|]. apply (RB_lookup _ _ _ _ _ _ H Ht). Qed.

Lemma elems_ne t : t <> Lf -> elems t <> [].
Proof. destruct t as [|? ? ? ? ?]; [congruence|]. cbn [elems]. intros _ E. destruct (elems t1); discriminate. Qed.
(** Iterating in order from a state. *)
Lemma st_iter w id h f z t : obj w id h f (rootp t) z -> t <> Lf -> nd t -> linked h None t ->
  exists w', b_step cmp (BIter id InOrder) w = Ok (OList (elems t), w') /\ obj w' id h f (rootp t) z.
Proof.
  intros H Ht Hn Hl. pose proof (on_obj _ _ _ _ _ _ (bt_iterate InOrder) H) as P. rewrite (iterate_in_ok t h f z Ht Hn Hl) in P.
  destruct P as (w' & E & H'). exists w'. split; [|exact H']. cbn [b_step]. rewrite (bind_ok _ _ _ _ _ E). reflexivity.
Qed.
Lemma st_size_ok w id h f rt z : obj w id h f rt z -> exists w', b_step cmp (BSize id) w = Ok (OZ z, w') /\ obj w' id h f rt z.
Proof.
  intros H. destruct (on_obj _ _ _ _ _ _ bt_size H) as (w' & E & H'). exists w'. split; [|exact H']. cbn [b_step]. rewrite (bind_ok _ _ _ _ _ E). reflexivity.
Qed.
Lemma st_empty_ok w id h f rt z : obj w id h f rt z -> exists w', b_step cmp (BEmpty id) w = Ok (OBool (z =? 0), w') /\ obj w' id h f rt z.
Proof.
  intros H. destruct (on_obj _ _ _ _ _ _ bt_empty H) as (w' & E & H'). exists w'. split; [|exact H']. cbn [b_step]. rewrite (bind_ok _ _ _ _ _ E). reflexivity.
Qed.
Lemma st_dup w id h f z t x a : obj w id h f (rootp t) z -> nd t -> linked h None t -> atF cmp x t = Some a ->
  exists w', b_step cmp (BPush id x) w = Ok (OUnit, w') /\ obj w' id h f (rootp t) (z + 1).
Proof.
  intros H Hn Hl Ha. pose proof (on_obj _ _ _ _ _ _ (bst_push cmp x) H) as P. rewrite (push_dup cmp h f z t x a Hn Hl Ha) in P.
  destruct P as (w' & E & H'). exists w'. split; [|exact H']. cbn [b_step]. rewrite (bind_ok _ _ _ _ _ E). reflexivity.
Qed.
Lemma st_null_iter w id h f z o : obj w id h f None z -> o <> PreOrder -> b_step cmp (BIter id o) w = UB.
Proof.
  intros H Ho. pose proof (on_obj _ _ _ _ _ _ (bt_iterate o) H) as P.
  destruct o; [congruence|cbn [b_step]; apply bind_ub; exact P..].
Qed.
Lemma st_null_pop w id h f z x : obj w id h f None z -> z <> 0 -> b_step cmp (BPop id x) w = UB.
Proof.
  intros H Hz. pose proof (on_obj _ _ _ _ _ _ (bst_pop cmp x) H) as P.
  assert (bst_pop cmp x (TSt h f None z) = UB) as E.
  { pose proof (pop_nz cmp Hc h f z Lf x ltac:(intros k; cbn; lia) I Hz) as Q. exact Q. }
  rewrite E in P. cbn [b_step]. apply bind_ub, P.
Qed.

(** Pushing a present key counts it again. *)
Theorem dup_push ops rs s id (t : bt A) x y : srn ops = SVal (rs, s) -> s !! id = Some t -> lookup_set cmp x (inorder t) = Some y ->
  exists w, run (ops ++ [BPush id x; BSize id; BIter id InOrder]) =
    Ok (rs ++ [OUnit; OZ (Z.of_nat (length (inorder t)) + 1); OList (inorder t)], w).
Proof.
  intros E Ht Hx. destruct (b_at _ _ _ _ _ E Ht) as (w & T & u & Ew & H & Hu & <-). rewrite inorder_shape in *.
  pose proof (rb_wf _ _ _ _ H _ _ Hu) as W. pose proof (atF_some cmp Hc x u (bwf_asc _ _ _ _ W)) as P. rewrite Hx in P. destruct P as [a Ha].
  destruct (st_dup _ _ _ _ _ _ x a (RB_obj _ _ _ _ H Hu) (bwf_nd _ _ _ _ W) (bwf_linked _ _ _ _ W) Ha) as (w1 & E1 & O1).
  destruct (st_size_ok _ _ _ _ _ _ O1) as (w2 & E2 & O2).
  destruct (st_iter _ _ _ _ _ _ O2) as (w3 & E3 & O3); [intros ->; discriminate|apply W|apply W|].
  exists w3. eapply then_ok; [exact Ew|]. eapply run_ok; [exact E1|]. eapply run_ok; [rewrite <- nodes_len; exact E2|]. eapply run_ok; [exact E3|reflexivity].
Qed.

(** Popping an absent key. *)
Theorem pop_absent ops rs s id (t : bt A) x : srn ops = SVal (rs, s) -> s !! id = Some t -> t <> BE -> lookup_set cmp x (inorder t) = None ->
  run (ops ++ [BPop id x]) = UB.
Proof.
  intros E Ht Hne Hx. destruct (b_at _ _ _ _ _ E Ht) as (w & T & u & Ew & H & Hu & <-). rewrite inorder_shape in *.
  pose proof (rb_wf _ _ _ _ H _ _ Hu) as W. eapply then_ub; [exact Ew|]. apply run_ub.
  pose proof (on_obj _ _ _ _ _ _ (bst_pop cmp x) (RB_obj _ _ _ _ H Hu)) as P.
  pose proof (pop_nz cmp Hc (tw_heap w) (tw_al w) (Z.of_nat (nodes u)) u x (bwf_nd _ _ _ _ W) (bwf_linked _ _ _ _ W)) as Q.
  rewrite (bdel_absent cmp Hc x u (bwf_asc _ _ _ _ W) Hx) in Q. rewrite Q in P; [cbn [b_step]; apply bind_ub, P|].
  destruct u; [destruct (Hne eq_refl)|]. cbn [nodes]. lia.
Qed.

(** Removing a key with two children. *)
Lemma two_kids u x y : ascending cmp (elems u) -> lookup_set cmp x (elems u) = Some y -> bdel1 cmp x (shape u) = None ->
  exists C l a hh v r, u = plug C (Br l a hh v r) /\ l <> Lf /\ r <> Lf /\ atF cmp x u = Some a /\ bdelF cmp x u = option_map (plug C) (tdelF (Br l a hh v r)).
Proof.
  induction u as [|l IHl a hh v r IHr]; [discriminate|]. intros Hs Hx. cbn [shape bdel1 bdelF atF].
  pose proof Hs as Hs0. cbn [elems] in Hs, Hx. pose proof (proj1 (asc_mid cmp Hc _ _ _) Hs) as (Hal & Har & _ & _).
  destruct (c_cases cmp Hc x v) as [[E E']|[[E E']|[E E']]]; rewrite E, ?E'.
  - rewrite (lookup_lt cmp Hc _ _ _ Hs _ E) in Hx. destruct (bdel1 cmp x (shape l)); [discriminate|]. intros _.
    destruct (IHl Hal Hx eq_refl) as (C & l1 & b & hb & y1 & r1 & -> & H1 & H2 & Ha & ->).
    exists (C ++ [FL a hh v r]), l1, b, hb, y1, r1. rewrite plug_app. split_and!; auto.
    destruct (tdelF _); [|reflexivity]. cbn [option_map]. rewrite plug_app. reflexivity.
  - rewrite (lookup_gt cmp Hc _ _ _ Hs _ E') in Hx. destruct (bdel1 cmp x (shape r)); [discriminate|]. intros _.
    destruct (IHr Har Hx eq_refl) as (C & l1 & b & hb & y1 & r1 & -> & H1 & H2 & Ha & ->).
    exists (C ++ [FR l a hh v]), l1, b, hb, y1, r1. rewrite plug_app. split_and!; auto.
    destruct (tdelF _); [|reflexivity]. cbn [option_map]. rewrite plug_app. reflexivity.
  - intros Hn. exists [], l, a, hh, v, r. split_and!; auto.
    + intros ->. discriminate.
    + intros ->. destruct l; discriminate.
    + destruct (tdelF _); reflexivity.
Qed.
Lemma lost_nd h f par t h' f' (t' : tree) : nd t -> lost h f par t h' f' t' -> nd t'.
Proof. intros Hn (_ & _ & b & Hb & _) k. specialize (Hn k). specialize (Hb k). lia. Qed.

Theorem pop_two ops rs s id (t : bt A) x y : srn ops = SVal (rs, s) -> s !! id = Some t -> lookup_set cmp x (inorder t) = Some y -> bdel1 cmp x t = None ->
  run (ops ++ [BPop id x]) = UB \/
  exists l w, run (ops ++ [BPop id x; BIter id InOrder]) = Ok (rs ++ [OUnit; OList l], w) /\ inverted cmp l.
Proof.
  intros E Ht Hx Hd. destruct (b_at _ _ _ _ _ E Ht) as (w & T & u & Ew & H & Hu & <-). rewrite inorder_shape in *.
  pose proof (rb_wf _ _ _ _ H _ _ Hu) as W. pose proof (RB_obj _ _ _ _ H Hu) as O.
  pose proof (on_obj _ _ _ _ _ _ (bst_pop cmp x) O) as P.
  pose proof (pop_nz cmp Hc (tw_heap w) (tw_al w) (Z.of_nat (nodes u)) u x (bwf_nd _ _ _ _ W) (bwf_linked _ _ _ _ W) ltac:(destruct u; [discriminate|cbn [nodes]; lia])) as Q.
  destruct (bdelF cmp x u) as [u'|] eqn:Eu.
  - right. destruct Q as (h' & f' & Q & L). rewrite Q in P. destruct P as (w1 & E1 & O1). cbn [t_heap t_al t_root t_size] in O1.
    pose proof (bdel_bad cmp Hc x u u' y (bwf_asc _ _ _ _ W) Hx Hd Eu) as (e & z & u1 & u2 & u3 & Ee & Hz).
    destruct (st_iter _ _ _ _ _ _ O1) as (w2 & E2 & _); [intros ->; destruct u1; discriminate|exact (lost_nd _ _ _ _ _ _ _ (bwf_nd _ _ _ _ W) L)|apply L|].
    exists (elems u'), w2. split; [|exists u1, e, u2, z, u3; auto]. eapply then_ok; [exact Ew|].
    eapply run_ok; [cbn [b_step]; rewrite (bind_ok _ _ _ _ _ E1); reflexivity|]. eapply run_ok; [exact E2|reflexivity].
  - left. rewrite Q in P. eapply then_ub; [exact Ew|]. apply run_ub. cbn [b_step]. apply bind_ub, P.
Qed.
Theorem erase_two ops rs s id (t : bt A) x y : srn ops = SVal (rs, s) -> s !! id = Some t -> lookup_set cmp x (inorder t) = Some y -> bdel1 cmp x t = None ->
  run (ops ++ [BErase id x]) = UB \/
  exists e l w, run (ops ++ [BErase id x; BIter id InOrder]) = Ok (rs ++ [OOpt e; OList l], w) /\ inverted cmp l.
Proof.
  intros E Ht Hx Hd. destruct (b_at _ _ _ _ _ E Ht) as (w & T & u & Ew & H & Hu & <-). rewrite inorder_shape in *.
  pose proof (rb_wf _ _ _ _ H _ _ Hu) as W. pose proof (RB_obj _ _ _ _ H Hu) as O.
  pose proof (on_obj _ _ _ _ _ _ (p <- bt_find cmp x ;; q <- bst_erase cmp InOrder p ;; deref q) O) as P.
  destruct (two_kids u x y (bwf_asc _ _ _ _ W) Hx Hd) as (C & l & a & hh & v & r & Eu & Hl & Hr & Ha & Ed).
  rewrite (bind_ok _ _ _ _ _ (find_ok cmp x u _ _ _ (bwf_nd _ _ _ _ W) (bwf_linked _ _ _ _ W))) in P. rewrite Ha in P.
  pose proof (erase_at cmp Hc C l a hh v r (tw_heap w) (tw_al w) (Z.of_nat (nodes u))) as Q. cbn zeta in Q. rewrite <- Eu in Q.
  specialize (Q (bwf_nd _ _ _ _ W) (bwf_linked _ _ _ _ W)). destruct (tdelF (Br l a hh v r)) as [t1|] eqn:Et; cbn [option_map] in Ed.
  - right. destruct Q as (h' & f' & Q & L). rewrite (bind_ok _ _ _ _ _ Q) in P.
    pose proof (bdel_bad cmp Hc x u _ y (bwf_asc _ _ _ _ W) Hx Hd Ed) as (e & z & u1 & u2 & u3 & Ee & Hz).
    assert (exists c, rootp t1 = Some a /\ t1 = c) as (c & Hr1 & _).
    { exists t1. split; [|reflexivity]. cbn [tdelF] in Et. destruct l; [congruence|]. destruct r as [|rl ? ? ? ?]; [congruence|]. destruct rl; [discriminate|].
      destruct (tdelF _); [|discriminate]. injection Et as <-. reflexivity. }
    replace (match l, r with Br _ _ _ _ _, Br _ _ _ _ _ => Some a | _, _ => next_pos C r end) with (Some a) in P by (destruct l; [congruence|destruct r; [congruence|reflexivity]]).
    destruct t1 as [|l1 a1 hh1 v1 r1]; [discriminate|]. cbn [rootp] in Hr1. injection Hr1 as ->.
    destruct (linked_lookup _ _ _ _ _ _ _ _ (proj1 L)) as (n & Hn & Hv & _).
    unfold deref in P. cbn [is_null] in P. rewrite (bind_ok _ _ _ _ _ (ld_val_ok _ _ _ _ _ _ Hn)) in P. cbn [ret] in P.
    destruct P as (w1 & E1 & O1). cbn [t_heap t_al t_root t_size] in O1.
    destruct (st_iter _ _ _ _ _ _ O1) as (w2 & E2 & _); [intros E0; rewrite E0 in Ee; destruct u1; discriminate|exact (lost_nd _ _ _ _ _ _ _ (bwf_nd _ _ _ _ W) L)|apply L|].
    eexists _, _, w2. split; [|exists u1, e, u2, z, u3; split; [exact Ee|exact Hz]]. eapply then_ok; [exact Ew|].
    eapply run_ok; [cbn [b_step]; rewrite (bind_ok _ _ _ _ _ E1); reflexivity|]. eapply run_ok; [exact E2|reflexivity].
  - left. rewrite (bind_ub _ _ _ Q) in P. eapply then_ub; [exact Ew|]. apply run_ub. cbn [b_step]. apply bind_ub, P.
Qed.

(** Iterating an empty tree. *)
Theorem empty_iter ops rs s id o : srn ops = SVal (rs, s) -> s !! id = Some BE -> o <> PreOrder -> run (ops ++ [BIter id o]) = UB.
Proof.
  intros E Ht Ho. destruct (b_at _ _ _ _ _ E Ht) as (w & T & u & Ew & H & Hu & Hs). destruct u; [|discriminate].
  eapply then_ub; [exact Ew|]. apply run_ub. exact (st_null_iter _ _ _ _ _ o (RB_obj _ _ _ _ H Hu) Ho).
Qed.
(** One element pushed twice and popped once. *)
Theorem dup_pop ops rs s id x y : srn ops = SVal (rs, s) -> s !! id = Some (BN BE y BE) -> equiv cmp x y ->
  (exists w, run (ops ++ [BPush id x; BPop id x; BSize id; BEmpty id]) = Ok (rs ++ [OUnit; OUnit; OZ 1; OBool false], w)) /\
  run (ops ++ [BPush id x; BPop id x; BIter id InOrder]) = UB /\ run (ops ++ [BPush id x; BPop id x; BPop id x]) = UB.
Proof.
  intros E Ht He. destruct (b_at _ _ _ _ _ E Ht) as (w & T & u & Ew & H & Hu & Hs). destruct u as [|l a hh v r]; [discriminate|]. cbn [shape] in Hs.
  destruct l; [|discriminate]. destruct r; [|discriminate]. injection Hs as ->.
  pose proof (rb_wf _ _ _ _ H _ _ Hu) as W. destruct He as [He1 He2].
  assert (atF cmp x (Br Lf a hh y Lf) = Some a) as Ha by (cbn [atF]; rewrite He1, He2; reflexivity).
  destruct (st_dup _ _ _ _ _ _ x a (RB_obj _ _ _ _ H Hu) (bwf_nd _ _ _ _ W) (bwf_linked _ _ _ _ W) Ha) as (w1 & E1 & O1).
  pose proof (pop_nz cmp Hc (tw_heap w) (tw_al w) (Z.of_nat (nodes (Br Lf a hh y Lf)) + 1) (Br Lf a hh y Lf) x (bwf_nd _ _ _ _ W) (bwf_linked _ _ _ _ W) ltac:(lia)) as Q.
  cbn [bdelF tdelF] in Q. rewrite He1, He2 in Q. destruct Q as (h' & f' & Q & _).
  pose proof (on_obj _ _ _ _ _ _ (bst_pop cmp x) O1) as P. rewrite Q in P. destruct P as (w2 & E2 & O2). cbn [t_heap t_al t_root t_size rootp] in O2.
  assert (b_step cmp (BPop id x) w1 = Ok (OUnit, w2)) as E2' by (cbn [b_step]; rewrite (bind_ok _ _ _ _ _ E2); reflexivity).
  replace (Z.of_nat (nodes (Br Lf a hh y Lf)) + 1 - 1) with 1 in O2 by reflexivity. split_and!.
  - destruct (st_size_ok _ _ _ _ _ _ O2) as (w3 & E3 & O3). destruct (st_empty_ok _ _ _ _ _ _ O3) as (w4 & E4 & O4).
    exists w4. eapply then_ok; [exact Ew|]. eapply run_ok; [exact E1|]. eapply run_ok; [exact E2'|]. eapply run_ok; [exact E3|]. eapply run_ok; [exact E4|reflexivity].
  - eapply then_ub; [exact Ew|]. eapply run_ok_ub; [exact E1|]. eapply run_ok_ub; [exact E2'|]. apply run_ub. eapply st_null_iter; [exact O2|discriminate].
  - eapply then_ub; [exact Ew|]. eapply run_ok_ub; [exact E1|]. eapply run_ok_ub; [exact E2'|]. apply run_ub. eapply st_null_pop; [exact O2|discriminate].
Qed.
End R.
