(** Every history over Map objects does what finite maps do. *)
From Coq Require Import Sorted.
From Verif Require Import Base Alloc AllocProofs TreeAlloc VectorModel VectorSpec VecProg VectorProofs VectorWorld VectorExtra Adapter Hist.
From Verif Require Import TreeModel TreeSpec TreeBase TreeSets TreeRot TreeIns TreeZip TreeSwap TreeDel TreeErase TreeIter TreeObj TreeWorld TreeWSpec TreeHist TreeRefute.
Open Scope Z_scope.

Section Map.
Context {K V : Type} (lt : K -> K -> bool) (dflt : V) (Hlt : swo lt) (pol : policy).
Notation A := (K * V)%type.
Notation cmp := (kv_cmp (V := V) lt).
Notation tree := (atree A).
Implicit Types (h : gmap nat (node A)) (t r : tree) (k : K) (v : V) (w : tworld A) (T : gmap nat tree) (l : list A).

Lemma kv_swo : swo cmp.
Proof. destruct Hlt as [H1 H2]. split; [intros a b; apply H1|intros a b c; apply H2]. Qed.
Lemma get_key_eq k v l : get_key lt k l = lookup_set cmp (k, v) l.
Proof. reflexivity. Qed.
Lemma del_key_eq k v l : del_key lt k l = remove_set cmp (k, v) l.
Proof. reflexivity. Qed.
Lemma put_key_add k v l : get_key lt k l = None -> put_key lt k v l = add_set cmp (k, v) l.
Proof.
  induction l as [|[k' v'] l IH]; [reflexivity|]. cbn [get_key List.find put_key add_set fst]. unfold same_key. cbn [fst].
  change (cmp (k, v) (k', v')) with (lt k k').
  destruct (lt k k') eqn:E1; [reflexivity|]. destruct (lt k' k) eqn:E2; cbn [negb andb]; [|discriminate].
  intros H. f_equal. apply IH, H.
Qed.
Lemma put_key_eq k v l1 (p : A) l2 : ascending cmp (l1 ++ p :: l2) -> equiv cmp (k, v) p ->
  put_key lt k v (l1 ++ p :: l2) = l1 ++ (fst p, v) :: l2.
Proof.
  intros Hs He. induction l1 as [|[k' v'] l1 IH]; cbn [app put_key].
  - destruct p as [k' v']. destruct He as [E1 E2]. unfold kv_cmp in E1, E2. cbn [fst] in *. rewrite E1, E2. reflexivity.
  - apply asc_cons in Hs as [Hs Hp].
    assert (cmp (k', v') p = true) as H1 by (apply Hp, in_or_app; right; left; reflexivity).
    apply (c_equiv_r cmp kv_swo _ _ _ (equiv_sym cmp _ _ He)) in H1.
    pose proof (c_asym cmp kv_swo _ _ H1) as H2. unfold kv_cmp in H1, H2. cbn [fst] in H1, H2. rewrite H1, H2. f_equal. apply IH, Hs.
Qed.
Lemma asc_same_keys l1 (p q : A) l2 : fst p = fst q -> ascending cmp (l1 ++ p :: l2) -> ascending cmp (l1 ++ q :: l2).
Proof.
  intros E Hs. apply (asc_mid cmp kv_swo) in Hs as (H1 & H2 & H3 & H4). apply (asc_mid cmp kv_swo).
  unfold kv_cmp in *. rewrite <- E. auto.
Qed.

(** m[k] finds a node; assigning through it. *)
Lemma set_val_goes (C : list (frame A)) (l0 : tree) a hh (p q : A) r h f n : wf cmp h f (plug C (Br l0 a hh p r)) -> fst p = fst q -> h !! a = Some n ->
  goes cmp h f (plug C (Br l0 a hh p r)) (<[a := Nd (n_par n) (n_left n) (n_right n) (n_h n) q]> h) f (plug C (Br l0 a hh q r)).
Proof.
  intros W Ek Ha. pose proof W as [Hl Hn Hav Hs Hf].
  assert (forall n0 : nat, cnt n0 (plug C (Br l0 a hh q r)) = cnt n0 (plug C (Br l0 a hh p r))) as Hcn by (intros n0; rewrite !cnt_plug; reflexivity).
  assert (cntC a C = 0%nat /\ cnt a l0 = 0%nat /\ cnt a r = 0%nat) as (Hc1 & Hc2 & Hc3).
  { specialize (Hn a). rewrite cnt_plug in Hn. cbn [cnt] in Hn. rewrite one_eq in Hn. lia. }
  split; [split|reflexivity| |].
  - apply linked_plug in Hl as [HC (Hb & H1 & H2)]. rewrite Hb in Ha. injection Ha as <-. cbn [n_par n_left n_right n_h].
    apply linked_plug. split; [|split; [apply lookup_insert|split]].
    + eapply linkedC_same; [|exact HC]. intros n0 Hk. rewrite lookup_insert_ne; [reflexivity|]. intros ->. lia.
    + apply linked_insert; assumption.
    + apply linked_insert; assumption.
  - intros n0. rewrite Hcn. apply Hn.
  - apply (avl_plug_same C (Br l0 a hh p r)); [exact Hav| |reflexivity].
    assert (avl (Br l0 a hh p r)) as [H1 H2] by (apply (avl_unplug C), Hav). split; [exact H1|exact H2].
  - rewrite elems_plug in *. cbn [elems] in *. rewrite <- app_assoc in Hs |- *. cbn [app] in *. rewrite app_assoc in Hs |- *.
    exact (asc_same_keys _ _ _ _ Ek Hs).
  - eapply alok_same; [exact Hf|]. intros n0. destruct (decide (n0 = a)) as [->|Hne]; [rewrite lookup_insert, Ha; split; eauto|].
    rewrite lookup_insert_ne by congruence. reflexivity.
  - intros n0 Hk. rewrite Hcn in Hk. destruct (decide _) as [_|]; [|congruence]. rewrite lookup_insert_ne; [reflexivity|].
    intros <-. rewrite cnt_plug in Hk. cbn [cnt] in Hk. rewrite one_eq in Hk. lia.
  - intros n0 Hk. rewrite Hcn in Hk. auto.
Qed.
Notation find k := (map_find lt dflt k).
Lemma index_ok h f z t k : wf cmp h f t ->
  match get_key lt k (elems t), al_pick f with
  | Some _, _ => map_index lt dflt k (TSt h f (rootp t) z) = Ok (atF cmp (k, dflt) t, TSt h f (rootp t) z)
  | None, Some b => exists h' t', map_index lt dflt k (TSt h f (rootp t) z) = Ok (atF cmp (k, dflt) t', TSt h' (al_got b f) (rootp t') (z + 1)) /\
      goes cmp h f t h' (al_got b f) t' /\ elems t' = put_key lt k dflt (elems t)
  | None, None => map_index lt dflt k (TSt h f (rootp t) z) = Abort
  end.
Proof.
  intros W. unfold map_index, map_find.
  rewrite (bind_ok _ _ _ _ _ (find_ok cmp (k, dflt) t h f z (wf_nd _ _ _ _ W) (wf_linked _ _ _ _ W))).
  pose proof (atF_lookup cmp kv_swo (k, dflt) t _ _ (wf_asc _ _ _ _ W) (wf_linked _ _ _ _ W)) as P.
  rewrite (get_key_eq k dflt). pose proof (push_ok cmp kv_swo h f z t (k, dflt) W) as Q.
  destruct (lookup_set cmp (k, dflt) (elems t)) as [p|] eqn:Ex.
  - destruct P as (a & n & E & _ & _ & _). assert (is_null (atF cmp (k, dflt) t) = false) as -> by (rewrite E; reflexivity).
    apply (find_ok cmp (k, dflt) t h f z (wf_nd _ _ _ _ W) (wf_linked _ _ _ _ W)).
  - rewrite P. cbn [is_null]. destruct (al_pick f) as [b|]; [|apply bind_abort, Q]. destruct Q as (h' & t' & E & G & Ee). exists h', t'. split_and!; [|exact G|].
    + rewrite (bind_ok _ _ _ _ _ E). pose proof (go_wf _ _ _ _ _ _ _ G) as W'.
      apply (find_ok cmp (k, dflt) t' h' (al_got b f) (z + 1) (wf_nd _ _ _ _ W') (wf_linked _ _ _ _ W')).
    + rewrite Ee, put_key_add; [reflexivity|exact Ex].
Qed.
Lemma set_at h f z t k v p : wf cmp h f t -> get_key lt k (elems t) = Some p -> exists h' t',
  (kv <- ld_val (atF cmp (k, dflt) t) ;; st_val (atF cmp (k, dflt) t) (fst kv, v)) (TSt h f (rootp t) z) =
    Ok (tt, TSt h' f (rootp t') z) /\ goes cmp h f t h' f t' /\ elems t' = put_key lt k v (elems t).
Proof.
  intros W Hp. pose proof (atF_lookup cmp kv_swo (k, dflt) t _ _ (wf_asc _ _ _ _ W) (wf_linked _ _ _ _ W)) as P.
  rewrite (get_key_eq k dflt) in Hp. rewrite Hp in P. destruct P as (a & n & Ea & Hn & Hv & _). rewrite Ea.
  destruct (atF_zip cmp (k, dflt) t a Ea) as (C & l0 & hh & q & r & Et & He).
  destruct (linked_lookup _ _ _ _ _ _ _ _ (eq_ind _ (linked h None) (wf_linked _ _ _ _ W) _ Et)) as (n' & Hn' & Hq & _).
  rewrite Hn in Hn'. injection Hn' as <-. rewrite Hv in Hq. subst q.
  rewrite (bind_ok _ _ _ _ _ (ld_val_ok _ _ _ _ _ _ Hn)). rewrite (st_val_ok _ _ _ _ _ _ _ Hn). rewrite Hv.
  subst t. eexists _, (plug C (Br l0 a hh (fst p, v) r)). split; [|split; [apply (set_val_goes C l0 a hh p (fst p, v) r h f n W eq_refl Hn)|]].
  - rewrite !rootp_plug. reflexivity.
  - pose proof (wf_asc _ _ _ _ W) as Hs. rewrite !elems_plug in *. cbn [elems] in *.
    rewrite <- app_assoc in Hs |- *. rewrite <- (app_assoc (elems l0)). cbn [app] in *. rewrite app_assoc in Hs |- *. rewrite (app_assoc (elemsL C)).
    symmetry. apply put_key_eq; [exact Hs|exact He].
Qed.
Lemma put_put k v l : get_key lt k (put_key lt k dflt l) = Some (k, dflt) -> get_key lt k l = None -> ascending cmp l -> put_key lt k v (put_key lt k dflt l) = put_key lt k v l.
Proof.
  intros _ Hn _. induction l as [|[k' v'] l IH]; cbn [put_key].
  - rewrite (c_irr lt Hlt). reflexivity.
  - cbn [get_key List.find fst] in Hn. unfold same_key in Hn. cbn [fst] in Hn.
    destruct (lt k k') eqn:E1; cbn [put_key].
    + rewrite (c_irr lt Hlt). reflexivity.
    + destruct (lt k' k) eqn:E2; [|discriminate]. cbn [put_key]. rewrite E1, E2. f_equal. apply IH, Hn.
Qed.
Lemma get_put k l : get_key lt k l = None -> get_key lt k (put_key lt k dflt l) = Some (k, dflt).
Proof.
  induction l as [|[k' v'] l IH]; cbn [put_key get_key List.find fst]; intros H.
  - unfold same_key. cbn [fst]. rewrite (c_irr lt Hlt). reflexivity.
  - unfold same_key in *. cbn [fst] in *. destruct (lt k k') eqn:E1.
    + cbn [get_key List.find fst]. rewrite (c_irr lt Hlt). reflexivity.
    + destruct (lt k' k) eqn:E2; [|discriminate]. cbn [List.find fst negb andb]. rewrite E1, E2. cbn [negb andb]. apply IH, H.
Qed.
Lemma put_len_new k v l : get_key lt k l = None -> length (put_key lt k v l) = S (length l).
Proof. intros H. rewrite put_key_add by exact H. apply length_add. Qed.
Lemma goes_trans h f t h1 f1 t1 h2 f2 t2 : wf cmp h f t -> goes cmp h f t h1 f1 t1 -> goes cmp h1 f1 t1 h2 f2 t2 -> goes cmp h f t h2 f2 t2.
Proof.
  intros W [W1 L1 O1 I1] [W2 L2 O2 I2]. split; [exact W2|congruence| |].
  - intros n Hn. rewrite O2 by exact Hn. destruct (decide (cnt n t1 = 0%nat)) as [E|E]; [apply O1, E|].
    destruct (I1 n ltac:(lia)) as [H|H]; (destruct (decide (cnt n t = 0%nat)) as [E'|E']; [|reflexivity]); [lia|].
    symmetry. exact H.
  - intros n Hn. destruct (I2 n Hn) as [H|H]; [destruct (I1 n H); auto|].
    destruct (decide (cnt n t1 = 0%nat)) as [E|E]; [|apply I1; lia]. rewrite O1 in H by exact E.
    destruct (decide (cnt n t = 0%nat)) as [E'|E']; [right; exact H|left; lia].
Qed.
Lemma set_ok h f t k v : wf cmp h f t ->
  match get_key lt k (elems t), al_pick f with
  | None, None => map_set lt dflt k v (TSt h f (rootp t) (Z.of_nat (nodes t))) = Abort
  | _, _ => exists h' f' t',
      map_set lt dflt k v (TSt h f (rootp t) (Z.of_nat (nodes t))) = Ok (tt, TSt h' f' (rootp t') (Z.of_nat (nodes t'))) /\
      goes cmp h f t h' f' t' /\ elems t' = put_key lt k v (elems t)
  end.
Proof.
  intros W. unfold map_set. pose proof (index_ok h f (Z.of_nat (nodes t)) t k W) as P.
  destruct (get_key lt k (elems t)) as [p|] eqn:Ex.
  - rewrite (bind_ok _ _ _ _ _ P). destruct (set_at h f (Z.of_nat (nodes t)) t k v p W Ex) as (h' & t' & E & G & Ee).
    exists h', f, t'. split_and!; [|exact G|exact Ee]. rewrite E. do 3 f_equal.
    rewrite !nodes_len, Ee. f_equal. rewrite (get_key_eq k dflt) in Ex.
    destruct (lookup_split cmp _ _ _ (wf_asc _ _ _ _ W) Ex) as (l1 & l2 & El & He).
    pose proof (wf_asc _ _ _ _ W) as Hs. rewrite El in *. rewrite (put_key_eq k v l1 p l2 Hs He), !app_length. reflexivity.
  - destruct (al_pick f) as [b|]; [|apply bind_abort, P]. destruct P as (h1 & t1 & E1 & G1 & Ee1). rewrite (bind_ok _ _ _ _ _ E1).
    pose proof (go_wf _ _ _ _ _ _ _ G1) as W1. assert (get_key lt k (elems t1) = Some (k, dflt)) as Ex1 by (rewrite Ee1; apply get_put, Ex).
    destruct (set_at h1 (al_got b f) (Z.of_nat (nodes t) + 1) t1 k v _ W1 Ex1) as (h' & t' & E & G & Ee).
    exists h', (al_got b f), t'. assert (elems t' = put_key lt k v (elems t)) as Ee'.
    { rewrite Ee, Ee1. apply put_put; [rewrite <- Ee1; exact Ex1|exact Ex|apply W]. }
    split_and!; [|eapply goes_trans; eauto|exact Ee']. rewrite E. do 3 f_equal. rewrite !nodes_len, Ee', put_len_new by exact Ex. lia.
Qed.
Lemma get_ok h f t k : wf cmp h f t ->
  match get_key lt k (elems t), al_pick f with
  | Some p, _ => map_get lt dflt k (TSt h f (rootp t) (Z.of_nat (nodes t))) = Ok (snd p, TSt h f (rootp t) (Z.of_nat (nodes t)))
  | None, None => map_get lt dflt k (TSt h f (rootp t) (Z.of_nat (nodes t))) = Abort
  | None, Some _ => exists h' f' t', map_get lt dflt k (TSt h f (rootp t) (Z.of_nat (nodes t))) = Ok (dflt, TSt h' f' (rootp t') (Z.of_nat (nodes t'))) /\
      goes cmp h f t h' f' t' /\ elems t' = put_key lt k dflt (elems t)
  end.
Proof.
  intros W. unfold map_get. pose proof (index_ok h f (Z.of_nat (nodes t)) t k W) as P.
  assert (forall h f t z p, wf cmp h f t -> get_key lt k (elems t) = Some p ->
    (kv <- ld_val (atF cmp (k, dflt) t) ;; ret (snd kv)) (TSt h f (rootp t) z) = Ok (snd p, TSt h f (rootp t) z)) as Hld.
  { intros h0 f0 t0 z0 p0 W0 Hp. pose proof (atF_lookup cmp kv_swo (k, dflt) t0 _ _ (wf_asc _ _ _ _ W0) (wf_linked _ _ _ _ W0)) as Q.
    rewrite (get_key_eq k dflt) in Hp. rewrite Hp in Q. destruct Q as (a & n & -> & Hn & <- & _).
    rewrite (bind_ok _ _ _ _ _ (ld_val_ok _ _ _ _ _ _ Hn)). reflexivity. }
  destruct (get_key lt k (elems t)) as [p|] eqn:Ex.
  - rewrite (bind_ok _ _ _ _ _ P). apply Hld; assumption.
  - destruct (al_pick f) as [b|]; [|apply bind_abort, P]. destruct P as (h1 & t1 & E1 & G1 & Ee1). exists h1, (al_got b f), t1. split_and!; [|exact G1|exact Ee1].
    rewrite (bind_ok _ _ _ _ _ E1). rewrite (Hld _ _ _ _ (k, dflt)); [|apply G1|rewrite Ee1; apply get_put, Ex].
    do 3 f_equal. rewrite !nodes_len, Ee1, put_len_new by exact Ex. lia.
Qed.

Lemma put_refused T w id t k v : RT cmp pol T w -> T !! id = Some t -> get_key lt k (elems t) = None -> al_pick (tw_al w) = None ->
  refuses pol (total (<[id := put_key lt k v (elems t)]> (elems <$> T))).
Proof. intros H Ht Hk Ep. rewrite put_key_add by exact Hk. eapply add_refused; eassumption. Qed.
Notation over := (fun s : gmap nat (list A) => refuses pol (total s)).
Lemma m_step_or o s w : RW cmp pol s w -> magree_or (RW cmp pol) over (ms_step lt dflt o s) (m_step lt dflt o w).
Proof.
  intros (T & -> & H).
  assert (forall id X (k : list A -> sres X) (Q : sres X -> Prop), Q SUnspec ->
    (forall t, T !! id = Some t -> Q (k (elems t))) -> Q (with_set (elems <$> T) id k)) as HW.
  { intros id X k Q Q1 Q2. unfold with_set. rewrite lookup_fmap. destruct (T !! id) as [t|]; cbn; auto. }
  assert (forall id X (k : sres X) (Q : sres X -> Prop), Q SUnspec ->
    (T !! id = None -> Q k) -> Q (no_set (elems <$> T) id k)) as HN.
  { intros id X k Q Q1 Q2. unfold no_set. rewrite lookup_fmap. destruct (T !! id) as [t|]; cbn; auto. }
  assert (forall (x : @mout K V) T2 w2 (c : res (mout * tworld A)) s2, c = Ok (x, w2) -> RT cmp pol T2 w2 -> s2 = elems <$> T2 ->
    magree_or (RW cmp pol) over (SVal (x, s2)) c) as HV.
  { intros x T2 w2 c s2 -> H2 ->. left. exists w2. split; [reflexivity|]. exists T2. auto. }
  destruct o; cbn [ms_step m_step].
  - apply HN; [exact I|]. intros Hi. destruct (w_new cmp _ _ _ _ H Hi) as (w' & E & H').
    eapply HV; [rewrite (bind_ok _ _ _ _ _ E); reflexivity|exact H'|]. rewrite fmap_insert. reflexivity.
  - apply HW; [exact I|]. intros t Ht. destruct (w_destroy cmp _ _ _ _ _ H Ht) as (w' & E & H').
    eapply HV; [rewrite (bind_ok _ _ _ _ _ E); reflexivity|exact H'|]. rewrite fmap_delete. reflexivity.
  - apply HW; [exact I|]. intros t Ht. pose proof (w_push cmp kv_swo _ _ _ _ _ (k, v) H Ht) as P. rewrite (get_key_eq k v).
    destruct (lookup_set cmp (k, v) (elems t)) eqn:Ex.
    + apply bind_abort, P.
    + destruct (al_pick (tw_al w)) eqn:Ep; [|right; split; [apply bind_abort, P|eapply put_refused; eassumption]].
      destruct P as (w' & t' & E & H' & Ee). eapply HV; [unfold map_push; rewrite (bind_ok _ _ _ _ _ E); reflexivity|exact H'|].
      rewrite fmap_insert, Ee, put_key_add by exact Ex. reflexivity.
  - apply HW; [exact I|]. intros t Ht. pose proof (w_pop cmp kv_swo _ _ _ _ _ (k, dflt) H Ht) as P.
    change (get_key lt k) with (lookup_set cmp (k, dflt)). change (del_key lt k (elems t)) with (remove_set cmp (k, dflt) (elems t)).
    destruct (elems t) as [|y l0] eqn:El; [|destruct (lookup_set cmp (k, dflt) (y :: l0)); [|exact I]];
      destruct P as (w' & t' & E & H' & Ee); (eapply HV; [unfold map_pop; rewrite (bind_ok _ _ _ _ _ E); reflexivity|exact H'|]; rewrite fmap_insert, Ee; reflexivity).
  - apply HW; [exact I|]. intros t Ht. pose proof (set_ok _ _ _ k v (rt_wf _ _ _ _ H _ _ Ht)) as P.
    destruct (match get_key lt k (elems t), al_pick (tw_al w) with None, None => true | _, _ => false end) eqn:Eb.
    { destruct (get_key lt k (elems t)) eqn:Ek; [discriminate|]. destruct (al_pick (tw_al w)) eqn:Ep; [discriminate|].
      right. split; [apply bind_abort; rewrite (on_at cmp _ _ _ _ _ _ H Ht), P; reflexivity|eapply put_refused; eassumption]. }
    assert (exists h' f' t', map_set lt dflt k v (TSt (tw_heap w) (tw_al w) (rootp t) (Z.of_nat (nodes t))) = Ok (tt, TSt h' f' (rootp t') (Z.of_nat (nodes t'))) /\
      goes cmp (tw_heap w) (tw_al w) t h' f' t' /\ elems t' = put_key lt k v (elems t)) as (h' & f' & t' & E & G & Ee).
    { destruct (get_key lt k (elems t)); [exact P|]. destruct (al_pick (tw_al w)); [exact P|discriminate]. }
    destruct (on_goes cmp _ _ _ _ _ _ _ _ _ _ H Ht E G) as (w' & E' & H').
    eapply HV; [rewrite (bind_ok _ _ _ _ _ E'); reflexivity|exact H'|]. rewrite fmap_insert, Ee. reflexivity.
  - apply HW; [exact I|]. intros t Ht. pose proof (get_ok _ _ _ k (rt_wf _ _ _ _ H _ _ Ht)) as P. destruct (get_key lt k (elems t)) as [p|] eqn:Ek.
    + destruct (on_query cmp _ _ _ _ _ _ _ H Ht P) as (w' & E' & H').
      eapply HV; [rewrite (bind_ok _ _ _ _ _ E'); reflexivity|exact H'|reflexivity].
    + destruct (al_pick (tw_al w)) eqn:Ep; [|right; split; [apply bind_abort; rewrite (on_at cmp _ _ _ _ _ _ H Ht), P; reflexivity|eapply put_refused; eassumption]].
      destruct P as (h' & f' & t' & E & G & Ee). destruct (on_goes cmp _ _ _ _ _ _ _ _ _ _ H Ht E G) as (w' & E' & H').
      eapply HV; [rewrite (bind_ok _ _ _ _ _ E'); reflexivity|exact H'|]. rewrite fmap_insert, Ee. reflexivity.
  - apply HW; [exact I|]. intros t Ht. destruct (w_find cmp kv_swo _ _ _ _ _ (k, dflt) H Ht) as (w' & E & H').
    eapply HV; [unfold map_find; rewrite (bind_ok _ _ _ _ _ E); reflexivity|exact H'|reflexivity].
  - apply HW; [exact I|]. intros t Ht. destruct (on_query cmp _ _ _ _ _ bt_size _ H Ht eq_refl) as (w' & E & H').
    eapply HV; [rewrite (bind_ok _ _ _ _ _ E); cbn [t_size]; rewrite nodes_len; reflexivity|exact H'|reflexivity].
  - apply HW; [exact I|]. intros t Ht. destruct (on_query cmp _ _ _ _ _ bt_empty _ H Ht eq_refl) as (w' & E & H').
    eapply HV; [rewrite (bind_ok _ _ _ _ _ E); cbn [t_size]; rewrite nodes_len; destruct (elems t); reflexivity|exact H'|reflexivity].
  - apply HW; [exact I|]. intros t Ht. destruct (elems t) as [|y l0] eqn:El; [exact I|].
    destruct (w_iter cmp _ _ _ _ _ H Ht) as (w' & E & H'); [intros ->; discriminate|].
    eapply HV; [rewrite (bind_ok _ _ _ _ _ E), El; reflexivity|exact H'|reflexivity].
  - apply HW; [exact I|]. intros t Ht. destruct (w_clear cmp _ _ _ _ _ H Ht) as (w' & E & H').
    eapply HV; [rewrite (bind_ok _ _ _ _ _ E); reflexivity|exact H'|]. rewrite fmap_insert. reflexivity.
  - apply HN; [exact I|]. intros Hi. apply HW; [exact I|]. intros t Ht.
    destruct t as [|t1 a hh v t2] eqn:Et; cbn [elems]; [|destruct (elems t1 ++ v :: elems t2) eqn:E0; [destruct (elems t1); discriminate|exact I]].
    eapply HV; [unfold tw_copy_new; rewrite (bind_ok _ _ _ tt (TW (tw_heap w) (tw_al w) (<[id := (None, 0)]> (tw_objs w)))); [reflexivity|]| |].
    + rewrite (RT_none cmp _ _ _ _ H Hi), (RT_lookup cmp _ _ _ _ _ H Ht). reflexivity.
    + apply RT_add; eauto.
    + rewrite fmap_insert. reflexivity.
  - apply HW; [exact I|]. intros t Ht. apply HW; [exact I|]. intros t' Ht'.
    assert (ob t = ob t' -> magree_or (RW cmp pol) over (SVal (@MUnit K V, elems <$> T)) ((tw_assign id src;;; ret MUnit) w)) as Hsame.
    { intros E. eapply HV; [unfold tw_assign; erewrite bind_ok; [reflexivity|]| |reflexivity].
      - rewrite (RT_lookup cmp _ _ _ _ _ H Ht), (RT_lookup cmp _ _ _ _ _ H Ht'). change (rootp t', Z.of_nat (nodes t')) with (ob t'). rewrite <- E. reflexivity.
      - apply (RT_same cmp _ _ _ _ _ H Ht). }
    destruct (Nat.eqb_spec id src) as [->|Hne]; [apply Hsame; congruence|].
    destruct t as [|t1 a hh v t2] eqn:Et; cbn [elems]; [|destruct (elems t1 ++ v :: elems t2) eqn:E0; [destruct (elems t1); discriminate|exact I]].
    destruct t' as [|u1 b hb u u2] eqn:Eu; cbn [elems]; [|destruct (elems u1 ++ u :: elems u2) eqn:E0; [destruct (elems u1); discriminate|exact I]].
    apply Hsame. reflexivity.
Qed.

Lemma m_step_ok o s w : grants pol -> RW cmp pol s w -> magree (RW cmp pol) (ms_step lt dflt o s) (m_step lt dflt o w).
Proof. intros Hg H. apply (magree_or_no _ _ _ _ (fun s => grants_refuses pol (total s) Hg)), m_step_or, H. Qed.

Notation run ops := (mrun (m_step lt dflt) ops (tw_init pol)).
Notation srn ops := (srun (ms_step lt dflt) ops ∅).
Theorem m_history_or ops : sound pol -> match srn ops with
  | SVal (rs, s) => (exists w, run ops = Ok (rs, w) /\ size (tw_heap w) = total s) \/
      (run ops = Abort /\
       exists ops1 ops2 rs1 s1, ops = ops1 ++ ops2 /\ srn ops1 = SVal (rs1, s1) /\ refuses pol (total s1))
  | SAbort => run ops = Abort
  | SUnspec => True
  end.
Proof.
  intros Hp. pose proof (mrun_agree_or (m_step lt dflt) (ms_step lt dflt) (RW cmp pol) over m_step_or ops ∅ (tw_init pol) (RW_init cmp pol Hp)) as P.
  destruct (srn ops) as [[rs s]| |]; cbn in P; [|exact P|exact I].
  destruct P as [(w & E & T & -> & H)|P]; [left; exists w; split; [exact E|]; apply (heap_count cmp pol), H|right; exact P].
Qed.
Theorem m_history ops : sound pol -> grants pol -> match srn ops with
  | SVal (rs, s) => exists w, run ops = Ok (rs, w) /\ size (tw_heap w) = total s
  | SAbort => run ops = Abort
  | SUnspec => True
  end.
Proof.
  intros Hp Hg. pose proof (mrun_agree (m_step lt dflt) (ms_step lt dflt) (RW cmp pol) (fun o s w => m_step_ok o s w Hg) ops ∅ (tw_init pol) (RW_init cmp pol Hp)) as P.
  destruct (srn ops) as [[rs s]| |]; cbn in P; [|exact P|exact I].
  destruct P as (w & E & T & -> & H). exists w. split; [exact E|]. apply (heap_count cmp pol), H.
Qed.
Context (Hso : sound pol) (Hgr : grants pol).
Lemma m_after ops rs s : srn ops = SVal (rs, s) -> exists w T, run ops = Ok (rs, w) /\ s = elems <$> T /\ RT cmp pol T w.
Proof.
  intros E. pose proof (mrun_agree (m_step lt dflt) (ms_step lt dflt) (RW cmp pol) (fun o s w => m_step_ok o s w Hgr) ops ∅ (tw_init pol) (RW_init cmp pol Hso)) as P.
  rewrite E in P. destruct P as (w & E' & T & -> & H). eauto.
Qed.
Lemma m_then_ub ops ops2 rs w : run ops = Ok (rs, w) -> mrun (m_step lt dflt) ops2 w = UB -> run (ops ++ ops2) = UB.
Proof. intros E E2. rewrite (mrun_app _ _ _ _ _ _ E), E2. reflexivity. Qed.
Theorem m_empty_iter ops rs s id : srn ops = SVal (rs, s) -> s !! id = Some [] -> run (ops ++ [MIter id]) = UB.
Proof.
  intros E Hl. destruct (m_after _ _ _ E) as (w & T & Ew & -> & H). destruct (at_id _ _ _ Hl) as (t & Ht & He). apply empty_lf in He as ->.
  eapply m_then_ub; [exact Ew|]. cbn [mrun m_step]. apply bind_ub, bind_ub.
  rewrite (on_at _ _ _ _ _ _ _ H Ht). reflexivity.
Qed.
Theorem m_pop_absent ops rs s id l k : srn ops = SVal (rs, s) -> s !! id = Some l -> l <> [] -> get_key lt k l = None ->
  run (ops ++ [MPop id k]) = UB.
Proof.
  intros E Hl Hn Hx. destruct (m_after _ _ _ E) as (w & T & Ew & -> & H). destruct (at_id _ _ _ Hl) as (t & Ht & <-).
  pose proof (w_pop cmp kv_swo _ _ _ _ _ (k, dflt) H Ht) as P. rewrite (get_key_eq k dflt) in Hx. rewrite Hx in P. destruct (elems t); [congruence|].
  eapply m_then_ub; [exact Ew|]. cbn [mrun m_step]. apply bind_ub, bind_ub, P.
Qed.
Theorem m_copy_bad ops rs s id src l c i j : srn ops = SVal (rs, s) -> s !! src = Some l -> l <> [] -> id <> src ->
  ((c = MCopyNew id src /\ s !! id = None) \/ (c = MAssign id src /\ is_Some (s !! id))) ->
  ((i = id /\ j = src) \/ (i = src /\ j = id)) ->
  run (ops ++ [c; MDestroy i; MDestroy j]) = UB /\ (forall k, run (ops ++ [c; MDestroy i; MFind j k]) = UB).
Proof.
  intros E Hl Hn Hne Hcp Hij. destruct (m_after _ _ _ E) as (w & T & Ew & -> & H). destruct (at_id _ _ _ Hl) as (t & Ht & Et).
  pose proof (rt_wf _ _ _ _ H _ _ Ht) as W.
  set (w1 := TW (tw_heap w) (tw_al w) (<[id := ob t]> (tw_objs w))).
  assert (m_step lt dflt c w = Ok (MUnit, w1)) as E1.
  { destruct Hcp as [[-> Hi]|[-> Hi]]; cbn [m_step]; (erewrite bind_ok; [reflexivity|]).
    - unfold tw_copy_new. rewrite (RT_none _ _ _ _ _ H (not_id _ _ Hi)), (RT_lookup _ _ _ _ _ _ H Ht). reflexivity.
    - destruct Hi as [l' Hi]. destruct (at_id _ _ _ Hi) as (t' & Ht' & _). unfold tw_assign.
      rewrite (RT_lookup _ _ _ _ _ _ H Ht'), (RT_lookup _ _ _ _ _ _ H Ht). reflexivity. }
  destruct (clear_goes cmp _ _ (Z.of_nat (nodes t)) t W) as (h' & f' & Ecl & G).
  assert (exists a, rootp t = Some a /\ h' !! a = None) as (a & Ea & Hfree).
  { destruct t as [|l0 a hh v r]; [cbn in Et; congruence|]. exists a. split; [reflexivity|].
    rewrite (go_out _ _ _ _ _ _ _ G) by reflexivity. destruct (decide _) as [E0|]; [|reflexivity]. cbn [cnt] in E0. rewrite one_eq in E0. lia. }
  assert (tw_objs w1 !! id = Some (ob t)) as Oid by (cbn; apply lookup_insert).
  assert (tw_objs w1 !! src = Some (ob t)) as Osrc by (cbn; rewrite lookup_insert_ne by congruence; apply (RT_lookup _ _ _ _ _ _ H Ht)).
  assert (i <> j /\ tw_objs w1 !! i = Some (ob t) /\ tw_objs w1 !! j = Some (ob t)) as (Hne2 & Oi & Oj)
    by (destruct Hij as [[-> ->]|[-> ->]]; auto).
  set (w2 := TW h' f' (delete i (<[i := (None, 0)]> (tw_objs w1)))).
  assert (m_step lt dflt (MDestroy i) w1 = Ok (MUnit, w2)) as E2.
  { assert (on i bt_destroy w1 = Ok (tt, TW h' f' (<[i := (None, 0)]> (tw_objs w1)))) as E3.
    { unfold on. rewrite Oi. unfold ob. cbn [tw_heap tw_al w1]. change bt_destroy with (@bt_clear A). rewrite Ecl. reflexivity. }
    cbn [m_step]. unfold tw_destroy. rewrite bind_assoc, (bind_ok _ _ _ _ _ E3). reflexivity. }
  assert (tw_objs w2 !! j = Some (Some a, Z.of_nat (nodes t))) as Oj2.
  { cbn [tw_objs w2]. rewrite lookup_delete_ne, lookup_insert_ne by congruence. rewrite Oj. unfold ob. rewrite Ea. reflexivity. }
  destruct (dangling_root cmp h' f' a (Z.of_nat (nodes t)) Hfree) as (D1 & _ & _ & D4 & _).
  assert (forall X (m : M (tst A) X), m (TSt h' f' (Some a) (Z.of_nat (nodes t))) = UB -> on j m w2 = UB) as HO.
  { intros X m Em. unfold on. rewrite Oj2. cbn [tw_heap tw_al w2]. rewrite Em. reflexivity. }
  split; [|intros k]; (eapply m_then_ub; [exact Ew|]; cbn [mrun]; rewrite (bind_ok _ _ _ _ _ E1); apply bind_ub; rewrite (bind_ok _ _ _ _ _ E2);
    apply bind_ub; apply bind_ub; cbn [m_step]).
  - apply bind_ub. unfold tw_destroy. apply bind_ub, HO, D1.
  - apply bind_ub, HO, bind_ub, D4.
Qed.
End Map.

(** Keys ascend. *)
Theorem m_sorted {K V} (lt : K -> K -> bool) (dflt : V) (Hlt : swo lt) ops rs s id l : srun (ms_step lt dflt) ops ∅ = SVal (rs, s) -> s !! id = Some l -> ascending lt (map fst l).
Proof.
  intros E Hl. destruct (m_after lt dflt Hlt bump bump_sound bump_grants _ _ _ E) as (w & T & _ & -> & H). destruct (at_id _ _ _ Hl) as (t & Ht & <-).
  pose proof (wf_asc _ _ _ _ (rt_wf _ _ _ _ H _ _ Ht)) as Hs. clear -Hs. induction Hs as [|p l0 Hs IH Hf]; [constructor|]. cbn [map]. constructor; [exact IH|].
  clear -Hf. induction Hf as [|q l0 H Hf IH]; constructor; [exact H|exact IH].
Qed.
