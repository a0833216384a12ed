(** The operations of one AVLTree object, the rest of the memory in view. *)
From Coq Require Import Sorted.
From Verif Require Import Base Alloc TreeAlloc TreeModel TreeSpec TreeBase TreeSets TreeRot TreeIns TreeZip TreeSwap TreeDel TreeErase TreeIter TreeTag.
Open Scope Z_scope.

Section Obj.
Context {A : Type} (cmp : A -> A -> bool) (Hc : swo cmp).
Notation tree := (atree A).
Implicit Types (h : gmap nat (node A)) (t l r : tree) (x : A) (C : list (frame A)) (F : frame A).
Notation asc := (ascending cmp).

(** A well-formed AVL tree of the ascending elements [elems t]. *)
Record wf h (f : alloc) t : Prop := Wf {
  wf_linked : linked h None t;
  wf_nd : nd t;
  wf_avl : avl t;
  wf_asc : asc (elems t);
  wf_al : alok h f }.
(** From tree [t] to tree [t']: nodes that left the tree were freed, nodes that
    entered it are new, everything else stayed. *)
Record goes h (f : alloc) t h' (f' : alloc) t' : Prop := Goes {
  go_wf : wf h' f' t';
  go_pol : al_pol f' = al_pol f;
  go_out : forall k, cnt k t' = 0%nat -> h' !! k = if decide (cnt k t = 0%nat) then h !! k else None;
  go_in : forall k, (0 < cnt k t')%nat -> (0 < cnt k t)%nat \/ h !! k = None }.

Lemma wf_some h f t k : wf h f t -> (0 < cnt k t)%nat -> is_Some (h !! k).
Proof. intros W Hk. exact (linked_in _ _ _ _ (wf_linked _ _ _ W) Hk). Qed.
Lemma linked_some h par t k : linked h par t -> (0 < cnt k t)%nat -> is_Some (h !! k).
Proof. intros H. apply (linked_in _ _ _ _ H). Qed.
Lemma goes_refl h f t : wf h f t -> goes h f t h f t.
Proof. intros W. split; auto. intros k Hk. destruct (decide _); [reflexivity|contradiction]. Qed.
Lemma update_root_ok h f rt z t : linked h None t -> update_root (rootp t) (TSt h f rt z) = Ok (tt, TSt h f (rootp t) z).
Proof.
  intros H. unfold update_root. erewrite bind_ok by reflexivity. cbn [t_heap t_al t_size].
  destruct t as [|l b hb y r]; [reflexivity|]. cbn [rootp is_null negb when]. destruct H as (Hb & _).
  rewrite (st_par_ok _ _ _ _ _ _ _ Hb). cbn [n_left n_right n_h n_val]. rewrite insert_id by exact Hb. reflexivity.
Qed.

(** push *)
Lemma push_full h f z t x : wf h f t ->
  match lookup_set cmp x (elems t), al_pick f with
  | None, Some a => exists h' t', avl_push cmp x (TSt h f (rootp t) z) = Ok (tt, TSt h' (al_got a f) (rootp t') (z + 1)) /\
      goes h f t h' (al_got a f) t' /\ elems t' = add_set cmp x (elems t) /\ pairs t' = add_set (tcmp cmp) (a, x) (pairs t)
  | _, _ => avl_push cmp x (TSt h f (rootp t) z) = Abort
  end.
Proof.
  intros W. pose proof W as [Hl Hn Ha Hs Hf]. unfold avl_push.
  destruct (al_pick f) as [a|] eqn:Ep.
  2:{ assert ((r <- ld_root ;; f <- fuel ;; r' <- avl_insert cmp f r x None ;; update_root r' ;;; n <- ld_size ;; st_size (n + 1)) (TSt h f (rootp t) z) = Abort) as E.
      { erewrite bind_ok by reflexivity. erewrite bind_ok by reflexivity. cbn [t_heap t_root]. apply bind_abort.
        eapply avl_insert_refused; [exact Hl| |exact Ep]. pose proof (nodes_size _ _ _ Hn Hl). lia. }
      destruct (lookup_set cmp x (elems t)); exact E. }
  pose proof (alok_new _ _ _ Hf Ep) as Hfr.
  pose proof (avl_insert_ok cmp Hc t (S (S (size h))) h f a (rootp t) z None x Hn Hl Ha Hs Ep Hfr) as Hi.
  specialize (Hi ltac:(pose proof (nodes_size _ _ _ Hn Hl); lia)).
  destruct (lookup_set cmp x (elems t)) as [y|] eqn:Ex.
  - erewrite bind_ok by reflexivity. erewrite bind_ok by reflexivity. cbn [t_heap t_root]. apply bind_abort, Hi.
  - destruct Hi as (h' & E & H' & Fr). pose proof (elems_ins cmp Hc x a t Hs Ex) as Ee.
    assert (cnt a t = 0%nat) as Hca. { destruct (cnt a t) eqn:E0; [reflexivity|]. destruct (wf_some _ _ _ a W ltac:(lia)). congruence. }
    exists h', (insF cmp x a t). split_and!; [|split; [split|..]|exact Ee|apply pairs_ins; assumption].
    + erewrite bind_ok by reflexivity. erewrite bind_ok by reflexivity. cbn [t_heap t_root].
      rewrite (bind_ok _ _ _ _ _ E). rewrite (bind_ok _ _ _ _ _ (update_root_ok h' (al_got a f) (rootp t) z _ H')). reflexivity.
    + exact H'.
    + intros k. rewrite cnt_ins. specialize (Hn k). destruct (decide (k = a)) as [->|Hk]; [rewrite one_eq; lia|].
      rewrite one_ne by congruence. lia.
    + apply (ins_avl cmp Hc x a t Ha Hs Ex).
    + rewrite Ee. apply add_asc; assumption.
    + apply (alok_got h f a h' Hf Ep). intros k. destruct (decide (k = a)) as [->|Hka].
      * split; [auto|]. intros _. apply (linked_some _ _ _ _ H'). rewrite cnt_ins, one_eq. lia.
      * destruct (decide (cnt k t = 0%nat)) as [Hk|Hk]; [rewrite Fr by assumption; tauto|].
        split; [intros _; right; apply (wf_some _ _ _ _ W); lia|]. intros _. apply (linked_some _ _ _ _ H'). rewrite cnt_ins. lia.
    + reflexivity.
    + intros k Hk. rewrite cnt_ins in Hk. destruct (decide (k = a)) as [->|Hkf]; [rewrite one_eq in Hk; lia|].
      rewrite Fr by (lia || exact Hkf). destruct (decide _); [reflexivity|lia].
    + intros k Hk. rewrite cnt_ins in Hk. destruct (decide (k = a)) as [->|Hkf]; [right; exact Hfr|].
      rewrite one_ne in Hk by congruence. left. lia.
Qed.
Lemma push_ok h f z t x : wf h f t ->
  match lookup_set cmp x (elems t), al_pick f with
  | None, Some a => exists h' t', avl_push cmp x (TSt h f (rootp t) z) = Ok (tt, TSt h' (al_got a f) (rootp t') (z + 1)) /\
      goes h f t h' (al_got a f) t' /\ elems t' = add_set cmp x (elems t)
  | _, _ => avl_push cmp x (TSt h f (rootp t) z) = Abort
  end.
Proof.
  intros W. pose proof (push_full h f z t x W) as P. destruct (lookup_set cmp x (elems t)); [exact P|]. destruct (al_pick f); [|exact P].
  destruct P as (h' & t' & E & G & Ee & _). eauto.
Qed.

(** One node freed, the others still there. *)
Lemma alok_less h f t h' t' a : alok h f -> linked h None t -> linked h' None t' -> nd t -> (forall k, cnt k t' + one k a = cnt k t)%nat ->
  h' !! a = None -> (forall k, cnt k t = 0%nat -> h' !! k = h !! k) -> alok h' (al_gave a f).
Proof.
  intros Hf Hl Hl' Hn Hcn Ha Fr. assert (0 < cnt a t)%nat as Hca by (specialize (Hcn a); rewrite one_eq in Hcn; lia).
  apply (alok_gave h f a h' Hf); [apply (linked_some _ _ _ _ Hl Hca)|]. intros k. destruct (decide (k = a)) as [->|Hka].
  - rewrite Ha. split; [intros [? [=]]|tauto].
  - specialize (Hcn k). rewrite one_ne in Hcn by congruence. destruct (decide (cnt k t = 0%nat)) as [Hk|Hk]; [rewrite Fr by exact Hk; tauto|].
    split; intros _; [split; [exact Hka|apply (linked_some _ _ _ _ Hl); lia]|apply (linked_some _ _ _ _ Hl'); lia].
Qed.

(** pop *)
Lemma pop_full h f z t x : wf h f t -> z <> 0 ->
  match lookup_set cmp x (elems t) with
  | None => avl_pop cmp x (TSt h f (rootp t) z) = UB
  | Some _ => exists h' t' b, avl_pop cmp x (TSt h f (rootp t) z) = Ok (tt, TSt h' (al_gave b f) (rootp t') (z - 1)) /\
      goes h f t h' (al_gave b f) t' /\ elems t' = remove_set cmp x (elems t) /\ (forall k, (cnt k t' + one k b = cnt k t)%nat) /\
      forall n, pairs t' = remove_set (tcmp cmp) (n, x) (pairs t)
  end.
Proof.
  intros W Hz. pose proof W as [Hl Hn Ha Hs Hf].
  pose proof (avl_delete_ok cmp Hc x (S (S (size h))) t h f (rootp t) z None Hn Hl Ha Hs) as Hd.
  specialize (Hd ltac:(pose proof (nodes_size _ _ _ Hn Hl); pose proof (depth_nodes t); lia) ltac:(discriminate)).
  pose proof (atF_some cmp Hc x t Hs) as Hat.
  assert (forall m, (n <- ld_size ;; if (n =? 0) then ret tt else m) (TSt h f (rootp t) z) = m (TSt h f (rootp t) z)) as Es.
  { intros m. erewrite bind_ok by reflexivity. cbn [t_size]. destruct (Z.eqb_spec z 0); [congruence|reflexivity]. }
  unfold avl_pop. rewrite Es. erewrite bind_ok by reflexivity. erewrite bind_ok by reflexivity. cbn [t_heap t_root].
  destruct (lookup_set cmp x (elems t)) as [y|] eqn:Ex.
  - destruct Hat as [b Hb]. rewrite Hb in Hd. destruct Hd as (h' & rt' & E & H' & Hbn & (F1 & _) & _).
    assert (forall k, cnt k (delF cmp x t) + one k b = cnt k t)%nat as Hcn by (intros k; apply cnt_del, Hb).
    exists h', (delF cmp x t), b. split_and!; [|split; [split|..]| |exact Hcn|intros n; apply pairs_del; assumption].
    + rewrite (bind_ok _ _ _ _ _ E). erewrite bind_ok by reflexivity. cbn [t_root].
      unfold ptr_eqb. destruct (bool_decide_reflect (rt' = rootp (delF cmp x t))) as [->|Hne]; [reflexivity|].
      cbn [negb when]. apply update_root_ok, H'.
    + exact H'.
    + intros k. specialize (Hcn k). specialize (Hn k). lia.
    + apply del_avl, Ha.
    + rewrite (elems_del cmp Hc) by exact Hs. apply remove_asc; assumption.
    + apply (alok_less h f t h' _ b Hf Hl H' Hn Hcn Hbn). intros k Hk. apply F1; [exact Hk|discriminate].
    + reflexivity.
    + intros k Hk. specialize (Hcn k). destruct (decide (k = b)) as [->|Hkb].
      * rewrite one_eq in Hcn. rewrite Hbn. destruct (decide _); [lia|reflexivity].
      * rewrite one_ne in Hcn by congruence. rewrite F1 by (lia || discriminate). destruct (decide _); [reflexivity|lia].
    + intros k Hk. specialize (Hcn k). left. lia.
    + apply (elems_del cmp Hc), Hs.
  - rewrite Hat in Hd. apply bind_ub, Hd.
Qed.
Lemma pop_ok h f z t x : wf h f t -> z <> 0 ->
  match lookup_set cmp x (elems t) with
  | None => avl_pop cmp x (TSt h f (rootp t) z) = UB
  | Some _ => exists h' t' b, avl_pop cmp x (TSt h f (rootp t) z) = Ok (tt, TSt h' (al_gave b f) (rootp t') (z - 1)) /\
      goes h f t h' (al_gave b f) t' /\ elems t' = remove_set cmp x (elems t) /\ forall k, (cnt k t' + one k b = cnt k t)%nat
  end.
Proof.
  intros W Hz. pose proof (pop_full h f z t x W Hz) as P. destruct (lookup_set cmp x (elems t)); [|exact P].
  destruct P as (h' & t' & b & E & G & Ee & Hk & _). eauto 10.
Qed.

(** find *)
Lemma find_loop_ok x t : forall fl h f rt z par, linked h par t -> (nodes t < fl)%nat ->
  find_loop cmp fl (rootp t) x (TSt h f rt z) = Ok (atF cmp x t, TSt h f rt z).
Proof.
  induction t as [|l IHl a hh v r IHr]; intros fl h f rt z par H Hfl; (destruct fl as [|fl]; [lia|]); cbn [find_loop rootp is_null atF].
  - reflexivity.
  - destruct H as (Ha & Hl & Hr). cbn [nodes] in Hfl. erewrite bind_ok by hacc. cbn [n_val].
    destruct (cmp x v); [hgo; eapply IHl; [eassumption|lia]|]. destruct (cmp v x); [hgo; eapply IHr; [eassumption|lia]|]. reflexivity.
Qed.
Lemma find_ok x t h f z : nd t -> linked h None t -> bt_find cmp x (TSt h f (rootp t) z) = Ok (atF cmp x t, TSt h f (rootp t) z).
Proof.
  intros Hn H. unfold bt_find. erewrite bind_ok by reflexivity. erewrite bind_ok by reflexivity. cbn [t_heap t_root].
  eapply find_loop_ok; eauto. pose proof (nodes_size _ _ _ Hn H). lia.
Qed.
Lemma atF_zip x t a : atF cmp x t = Some a -> exists C l hh v r, t = plug C (Br l a hh v r) /\ equiv cmp x v.
Proof.
  induction t as [|l IHl b hb w r IHr]; cbn [atF]; [discriminate|]. destruct (cmp x w) eqn:E1; [|destruct (cmp w x) eqn:E2].
  - intros H. destruct (IHl H) as (C & l2 & hh & v & r2 & -> & He). exists (C ++ [FL b hb w r]), l2, hh, v, r2.
    rewrite plug_app. auto.
  - intros H. destruct (IHr H) as (C & l2 & hh & v & r2 & -> & He). exists (C ++ [FR l b hb w]), l2, hh, v, r2.
    rewrite plug_app. auto.
  - intros [= ->]. exists [], l, hb, w, r. split; [reflexivity|split; assumption].
Qed.
Lemma linked_lookup h par C l a hh v r : linked h par (plug C (Br l a hh v r)) -> exists n, h !! a = Some n /\ n_val n = v /\ n_h n = hh.
Proof. intros H. apply linked_plug in H as [_ (Ha & _)]. eexists. split; [exact Ha|auto]. Qed.
(** The node found stores the element equivalent to [x]. *)
Lemma atF_lookup x t h par : asc (elems t) -> linked h par t ->
  match lookup_set cmp x (elems t) with
  | None => atF cmp x t = None
  | Some v => exists a n, atF cmp x t = Some a /\ h !! a = Some n /\ n_val n = v /\ (0 < cnt a t)%nat
  end.
Proof.
  intros Hs H. pose proof (atF_some cmp Hc x t Hs) as Ha. destruct (lookup_set cmp x (elems t)) as [v|] eqn:E; [|exact Ha].
  destruct Ha as [a Ha]. destruct (atF_zip x t a Ha) as (C & l & hh & w & r & Et & He).
  pose proof H as H2. rewrite Et in H2. destruct (linked_lookup _ _ _ _ _ _ _ _ H2) as (n & Hn & Hv & _).
  exists a, n. split_and!; [exact Ha|exact Hn| |].
  - rewrite Hv. rewrite Et, elems_plug in E, Hs. cbn [elems] in E, Hs.
    replace (elemsL C ++ (elems l ++ w :: elems r) ++ elemsR C) with ((elemsL C ++ elems l) ++ w :: (elems r ++ elemsR C)) in E, Hs
      by (rewrite <- !app_assoc; reflexivity).
    rewrite (lookup_eq cmp Hc _ _ _ Hs _ He) in E. congruence.
  - rewrite Et, cnt_plug. cbn [cnt]. rewrite one_eq. lia.
Qed.

(** _delete_by_target of any node but a root with fewer than two children. *)
Lemma linkedC_fixp h h' F C a b : (forall k, cntC k (F :: C) <= 1)%nat -> cntF a F = 0%nat ->
  linkedC h None (F :: C) (Some a) -> (forall k, (0 < cntC k (F :: C))%nat -> h' !! k = fixp h (Some (fa F)) a b !! k) ->
  linkedC h' None (F :: C) (Some b).
Proof.
  intros Hn Ha [HF HC] Hs. cbn [fixp] in Hs. cbn [linkedC cntC] in *. pose proof (fa_cnt F) as Hfa. split.
  - assert (h' !! fa F = fixn a b <$> h !! fa F) as Efa by (rewrite Hs by lia; apply lookup_alter).
    assert (forall k, (0 < cntF k F)%nat -> k <> fa F -> h' !! k = h !! k) as Ho.
    { intros k Hk Hne. rewrite Hs by lia. apply lookup_alter_ne. congruence. }
    pose proof (Hn (fa F)) as Hnf.
    destruct F as [c hh x r|l c hh x]; cbn [flinked fa cntF] in *; destruct HF as [H1 H2]; rewrite one_eq in Hnf; split.
    + rewrite Efa, H1. cbn [fmap option_fmap option_map]. unfold fixn. cbn [n_par n_left n_right n_h n_val].
      unfold swapc at 1. rewrite ptr_eqb_refl. rewrite swapc_ne; [reflexivity|]. intros E. apply rootp_cnt in E. lia.
    + eapply linked_same; [|exact H2]. intros k Hk. apply Ho; [lia|]. intros ->. lia.
    + rewrite Efa, H1. cbn [fmap option_fmap option_map]. unfold fixn. cbn [n_par n_left n_right n_h n_val].
      unfold swapc at 2. rewrite ptr_eqb_refl. rewrite swapc_ne; [reflexivity|]. intros E. apply rootp_cnt in E. lia.
    + eapply linked_same; [|exact H2]. intros k Hk. apply Ho; [lia|]. intros ->. lia.
  - eapply linkedC_same; [|exact HC]. intros k Hk. rewrite Hs by lia. apply lookup_alter_ne. intros <-. specialize (Hn (fa F)). lia.
Qed.
Lemma avl_plug_same C : forall t t', avl (plug C t) -> avl t' -> depth t' = depth t -> avl (plug C t').
Proof.
  induction C as [|F C IH]; intros t t' H Ht' Hd; cbn [plug] in *; [exact Ht'|].
  apply (IH (fill1 F t)); [exact H| |].
  - apply avl_unplug in H. destruct F; cbn [fill1] in *; rewrite avl_Br in *; rewrite Hd; tauto.
  - destruct F; cbn [fill1 depth]; rewrite Hd; reflexivity.
Qed.

Lemma delete_target_ok C l a hh v r fl h f z :
  let t := plug C (Br l a hh v r) in
  nd t -> linked h None t -> avl t -> (C <> [] \/ (l <> Lf /\ r <> Lf)) -> (1 < fl)%nat ->
  exists h' t' q, avl_delete_target fl (Some a) (TSt h f (rootp t) z) = Ok (q, TSt h' (al_gave a f) (rootp t') (z - 1)) /\
    linked h' None t' /\ avl t' /\ elems t' = elemsL C ++ (elems l ++ elems r) ++ elemsR C /\
    pairs t' = pairsL C ++ (pairs l ++ pairs r) ++ pairsR C /\
    (forall k, cnt k t' + one k a = cnt k t)%nat /\ h' !! a = None /\ forall k, cnt k t = 0%nat -> h' !! k = h !! k.
Proof.
  intros t Hn H Hav Hok Hfl.
  destruct (decide (negb (is_null (rootp l)) && negb (is_null (rootp r)) = true)) as [Ebo|Ebo].
  - (* two children: swap with the successor first *)
    assert (l <> Lf) as Hnl by (intros ->; discriminate).
    assert (r <> Lf) as Hnr by (intros ->; destruct l; discriminate).
    destruct (min_zip r Hnr) as (Cr & b & hb & y & br & Er & HCr & Hm & Hset).
    set (t1 := Br l b hh y (setmin r a v)).
    assert (forall k, cntC k C + cnt k (Br l a hh v r) <= 1)%nat as Hcn.
    { intros k. specialize (Hn k). unfold t in Hn. rewrite cnt_plug in Hn. exact Hn. }
    assert (nd (Br l a hh v r)) as Hn0 by (intros k; specialize (Hcn k); lia).
    pose proof H as H'. unfold t in H'. apply linked_plug in H' as [HC H0]. cbn [rootp] in HC.
    destruct (swap_ok h f (rootp t) z (hpar None C) l a hh v r b y Hn0 H0 Hm) as (h1 & Es & Hs & Fs).
    { intros p Ep. destruct C as [|F C]; [discriminate|]. cbn [hpar] in Ep. injection Ep as <-.
      split.
      - destruct HC as [HF _]. destruct F; cbn [flinked fa] in *; destruct HF as [-> _]; eauto.
      - specialize (Hcn (fa F)). cbn [cntC] in Hcn. pose proof (fa_cnt F). lia. }
    destruct (minA_cnt _ _ _ Hm) as [Hmc1 Hmc2].
    assert (forall k, cnt k t1 = cnt k (Br l a hh v r)) as Hct1.
    { intros k. unfold t1. cbn [cnt]. specialize (Hmc2 k a v). lia. }
    assert (linkedC h1 None C (Some b)) as HC1.
    { destruct C as [|F C]; [exact I|]. eapply (linkedC_fixp h h1 F C a b); [| |exact HC|].
      - intros k. specialize (Hcn k). lia.
      - specialize (Hcn a). cbn [cnt cntC] in Hcn. rewrite one_eq in Hcn. lia.
      - intros k Hk. apply Fs. specialize (Hcn k). lia. }
    assert (linked h1 None (plug C t1)) as Hl1 by (apply linked_plug; split; [exact HC1|exact Hs]).
    assert (plug C t1 = plug (Cr ++ FR l b hh y :: C) (Br Lf a hb v br)) as Eplug.
    { rewrite plug_app. cbn [plug fill1]. unfold t1. rewrite Hset. reflexivity. }
    assert (avl (plug C t1)) as Hav1.
    { apply (avl_plug_same C (Br l a hh v r)); [exact Hav| |].
      - pose proof (avl_unplug _ _ Hav) as Hv. unfold t1. rewrite avl_Br in *. rewrite depth_setmin.
        destruct Hv as (? & ? & ? & ?). split; [assumption|]. split; [assumption|]. split; [assumption|]. apply avl_setmin; assumption.
      - unfold t1. cbn [depth]. rewrite depth_setmin. reflexivity. }
    assert (nd (plug C t1)) as Hnp by (intros k; rewrite cnt_plug, Hct1; apply Hcn).
    assert (match hpar None C with None => Some b | Some _ => rootp t end = rootp (plug C t1)) as Ert.
    { unfold t. rewrite !rootp_plug. destruct C as [|F C]; [reflexivity|]. cbn [hpar]. rewrite last_cons. destruct (last C); reflexivity. }
    destruct fl as [|fl]; [lia|].
    destruct (Cr ++ FR l b hh y :: C) as [|F' C'] eqn:EC'; [destruct Cr; discriminate|].
    rewrite Eplug in Hnp, Hl1, Hav1, Ert.
    destruct (delete_target_small F' C' Lf a hb v br fl h1 f z Hnp Hl1 Hav1 ltac:(left; reflexivity) ltac:(lia)) as (h2 & q & E2 & H2 & Ha2 & F2).
    exists h2, (delat F' C' Lf br), q. split_and!.
    + cbn [avl_delete_target is_null]. pose proof H0 as (Ha & Hl & Hr).
      erewrite bind_ok by hacc. erewrite bind_ok by hacc. erewrite bind_ok by hacc. cbn [n_par n_left n_right].
      assert ((is_null (rootp l) && is_null (rootp r)) = false) as -> by (destruct l; [congruence|reflexivity]).
      rewrite Ebo. erewrite bind_ok by (eapply first_node_ok; eauto; apply (nd_r _ _ _ _ _ Hn0)).
      rewrite (bind_ok _ _ _ _ _ Es). cbn [snd]. rewrite Ert. exact E2.
    + exact H2.
    + apply (delat_avl F' C' Lf a hb v br); [left; reflexivity|exact Hav1].
    + rewrite delat_elems by (left; reflexivity). rewrite <- EC', elemsL_app, elemsR_app.
      cbn [elemsL elemsR elems app]. rewrite (elemsL_FL _ HCr), app_nil_r. rewrite Er, elems_plug, (elemsL_FL _ HCr).
      cbn [elems app]. rewrite <- !app_assoc. cbn [app]. rewrite <- ?app_assoc. reflexivity.
    + rewrite pairs_delat by (left; reflexivity). rewrite <- EC', pairsL_app, pairsR_app.
      change (pairsL (FR l b hh y :: C)) with (pairsL C ++ pairs l ++ [(b, y)]). change (pairsR (FR l b hh y :: C)) with (pairsR C).
      rewrite (pairs_FL _ HCr), app_nil_r. rewrite Er, pairs_plug, (pairs_FL _ HCr).
      rewrite pairs_Br. change (pairs Lf) with (@nil (nat * A)). cbn [app]. rewrite <- !app_assoc. cbn [app]. rewrite <- ?app_assoc. reflexivity.
    + intros k. rewrite (delat_cnt k F' C' Lf a hb v br) by (left; reflexivity). rewrite <- Eplug. unfold t.
      rewrite !cnt_plug, Hct1. reflexivity.
    + exact Ha2.
    + intros k Hk. unfold t in Hk. rewrite cnt_plug in Hk. rewrite F2 by (rewrite <- Eplug, cnt_plug, Hct1; exact Hk).
      rewrite Fs by lia. apply fp_ne. intros E. destruct C as [|F C]; [discriminate|]. cbn [hpar] in E. injection E as <-.
      cbn [cntC] in Hk. pose proof (fa_cnt F). lia.
  - assert (l = Lf \/ r = Lf) as Hlr.
    { destruct l; [left; reflexivity|]. destruct r; [right; reflexivity|]. cbn in Ebo. congruence. }
    destruct C as [|F C]; [exfalso; destruct Hok as [?|[? ?]]; [congruence|destruct Hlr; congruence]|].
    destruct (delete_target_small F C l a hh v r fl h f z Hn H Hav Hlr ltac:(lia)) as (h' & q & E & H' & Ha' & F').
    exists h', (delat F C l r), q. split_and!; try assumption.
    + apply (delat_avl F C l a hh v r); assumption.
    + apply delat_elems, Hlr.
    + apply pairs_delat, Hlr.
    + intros k. apply delat_cnt, Hlr.
Qed.

(** erase of the element found *)
Definition root_small t (a : nat) : Prop := match t with Lf => True | Br l b _ _ r => a = b /\ (l = Lf \/ r = Lf) end.
Lemma erase_full h f z t x a : wf h f t -> atF cmp x t = Some a -> ~ root_small t a ->
  exists h' t', avl_erase cmp (Some a) (TSt h f (rootp t) z) =
      Ok (match next_set cmp x (elems t) with Some y => atF cmp y t' | None => None end, TSt h' (al_gave a f) (rootp t') (z - 1)) /\
    goes h f t h' (al_gave a f) t' /\ elems t' = remove_set cmp x (elems t) /\ (forall k, (cnt k t' + one k a = cnt k t)%nat) /\
    forall n, pairs t' = remove_set (tcmp cmp) (n, x) (pairs t).
Proof.
  intros W Hat Hrs. pose proof W as [Hl Hn Hav Hs Hf].
  destruct (atF_zip x t a Hat) as (C & l & hh & v & r & Et & He).
  assert (elems t = (elemsL C ++ elems l) ++ v :: (elems r ++ elemsR C)) as Eel.
  { rewrite Et, elems_plug. cbn [elems]. rewrite <- !app_assoc. reflexivity. }
  pose proof Hs as Hs'. rewrite Eel in Hs'.
  assert (elemsL C ++ (elems l ++ elems r) ++ elemsR C = remove_set cmp x (elems t)) as Erem.
  { rewrite Eel, (remove_eq cmp Hc _ _ _ Hs' _ He), <- !app_assoc. reflexivity. }
  assert (next_set cmp x (elems t) = head (elems r ++ elemsR C)) as Enext by (rewrite Eel; apply (next_eq cmp Hc _ _ _ Hs' _ He)).
  destruct (delete_target_ok C l a hh v r (S (S (size h))) h f z) as (h' & t' & q & E & H' & Hav' & He' & Hpa & Hcn & Han & Fr).
  { rewrite <- Et. exact Hn. } { rewrite <- Et. exact Hl. } { rewrite <- Et. exact Hav. }
  { destruct C as [|F C]; [right|left; discriminate]. cbn [plug] in Et. subst t. cbn [root_small] in Hrs. split; intros ->; tauto. }
  { lia. }
  rewrite <- Et in *. rewrite Erem in He'.
  assert (goes h f t h' (al_gave a f) t') as Hgo.
  { split; [split|reflexivity| |].
    - exact H'.
    - intros k. specialize (Hcn k). specialize (Hn k). lia.
    - exact Hav'.
    - rewrite He'. apply remove_asc; assumption.
    - apply (alok_less h f t h' t' a Hf Hl H' Hn Hcn Han Fr).
    - intros k Hk. specialize (Hcn k). destruct (decide (k = a)) as [->|Hka].
      + rewrite one_eq in Hcn. rewrite Han. destruct (decide _); [lia|reflexivity].
      + rewrite one_ne in Hcn by congruence. rewrite Fr by lia. destruct (decide _); [reflexivity|lia].
    - intros k Hk. specialize (Hcn k). left. lia. }
  assert (forall n, pairs t' = remove_set (tcmp cmp) (n, x) (pairs t)) as Hpairs.
  { intros n. rewrite Hpa. assert (pairs t = (pairsL C ++ pairs l) ++ (a, v) :: (pairs r ++ pairsR C)) as Ep.
    { rewrite Et, pairs_plug, pairs_Br, <- !app_assoc. reflexivity. }
    pose proof (pairs_asc cmp _ Hs) as Ha. rewrite Ep in Ha |- *.
    rewrite (remove_eq (tcmp cmp) (tcmp_swo cmp Hc) _ _ _ Ha (n, x) He), <- !app_assoc. reflexivity. }
  exists h', t'. split_and!; [|exact Hgo|exact He'|exact Hcn|exact Hpairs].
  unfold avl_erase. pose proof Hn as Hn2. pose proof Hl as Hl2. rewrite Et in Hn2, Hl2.
  rewrite (bind_ok _ _ _ _ _ (next_inorder_ok C h f (rootp t) z l a hh v r Hn2 Hl2)).
  pose proof (next_pos_ok C l a hh v r) as Hnp. rewrite Enext. destruct (next_pos C r) as [b|].
  - destruct Hnp as (C2 & l2 & hb & y & r2 & Ep & Eh). rewrite Eh. cbn [head is_null].
    rewrite Ep in Hl2. apply linked_unplug in Hl2 as (Hb & _). erewrite bind_ok by hacc. cbn [n_val].
    erewrite bind_ok by reflexivity. cbn [t_heap]. rewrite (bind_ok _ _ _ _ _ E).
    apply find_ok; [apply (wf_nd _ _ _ (go_wf _ _ _ _ _ _ Hgo))|exact H'].
  - rewrite Hnp. cbn [head is_null]. erewrite bind_ok by reflexivity. cbn [t_heap]. rewrite (bind_ok _ _ _ _ _ E). reflexivity.
Qed.
Lemma erase_ok h f z t x a : wf h f t -> atF cmp x t = Some a -> ~ root_small t a ->
  exists h' t', avl_erase cmp (Some a) (TSt h f (rootp t) z) =
      Ok (match next_set cmp x (elems t) with Some y => atF cmp y t' | None => None end, TSt h' (al_gave a f) (rootp t') (z - 1)) /\
    goes h f t h' (al_gave a f) t' /\ elems t' = remove_set cmp x (elems t) /\ forall k, (cnt k t' + one k a = cnt k t)%nat.
Proof.
  intros W Hat Hrs. destruct (erase_full h f z t x a W Hat Hrs) as (h' & t' & E & G & Ee & Hk & _). eauto 10.
Qed.

(** clear *)
Lemma alok_gaves t : forall h f par, nd t -> linked h par t -> alok h f -> alok (remove_tree h t) (gaves t f) /\ al_pol (gaves t f) = al_pol f.
Proof.
  induction t as [|l IHl a hh x r IHr]; intros h f par Hn H Hf.
  - split; [|reflexivity]. apply (alok_same h _ _ Hf). intros k. rewrite lookup_remove_tree. cbn [cnt]. destruct (decide _); [reflexivity|lia].
  - destruct H as (Ha & Hl & Hr). pose proof (Hn a) as Hna. cbn [cnt] in Hna. rewrite one_eq in Hna.
    destruct (IHl h f _ (nd_l _ _ _ _ _ Hn) Hl Hf) as [H1 P1].
    assert (linked (remove_tree h l) (Some a) r) as Hr1.
    { eapply linked_same; [|exact Hr]. intros k Hk. rewrite lookup_remove_tree. destruct (decide _); [reflexivity|]. specialize (Hn k). cbn [cnt] in Hn. lia. }
    destruct (IHr _ _ _ (nd_r _ _ _ _ _ Hn) Hr1 H1) as [H2 P2]. cbn [gaves]. split; [|cbn [al_gave al_pol]; congruence].
    assert (forall k, remove_tree (remove_tree h l) r !! k = if decide (cnt k l + cnt k r = 0)%nat then h !! k else None) as E2.
    { intros k. rewrite !lookup_remove_tree. repeat destruct (decide _); try reflexivity; lia. }
    apply (alok_gave _ _ a _ H2).
    + rewrite E2. destruct (decide _); [eauto|lia].
    + intros k. rewrite E2, lookup_remove_tree. cbn [cnt]. destruct (decide (k = a)) as [->|Hka].
      * rewrite one_eq. destruct (decide (cnt a l + 1 + cnt a r = 0)%nat); [lia|]. split; [intros [? [=]]|tauto].
      * rewrite one_ne by congruence. repeat destruct (decide _); try lia; [tauto|]. split; [intros [? [=]]|intros [_ [? [=]]]].
Qed.
Lemma clear_goes h f z t : wf h f t -> exists h' f', bt_clear (TSt h f (rootp t) z) = Ok (tt, TSt h' f' None 0) /\ goes h f t h' f' Lf.
Proof.
  intros W. pose proof W as [Hl Hn Hav Hs Hf]. exists (remove_tree h t), (gaves t f). split; [apply clear_ok; assumption|].
  destruct (alok_gaves t h f None Hn Hl Hf) as [Hf' Hp].
  split; [split|exact Hp| |].
  - exact I.
  - intros k. cbn. lia.
  - split; exact I.
  - constructor.
  - exact Hf'.
  - intros k _. apply lookup_remove_tree.
  - intros k Hk. cbn in Hk. lia.
Qed.
Lemma avl_height_ok h f z t : wf h f t -> avl_height (TSt h f (rootp t) z) = Ok (depth t, TSt h f (rootp t) z).
Proof.
  intros [Hl _ [Hh _] _ _]. unfold avl_height. erewrite bind_ok by reflexivity. cbn [t_root].
  pose proof (hd_depth t Hh) as E. destruct t as [|l a hh x r]; [reflexivity|]. cbn [rootp is_null hd] in *.
  destruct Hl as (Ha & _). rewrite (ld_h_ok _ _ _ _ _ _ Ha). cbn [n_h]. rewrite E. reflexivity.
Qed.

(** The erased root with fewer than two children: mRootPtr_d still points at the
    freed node. *)
Lemma delete_root_small l a hh v r fl h f z : nd (Br l a hh v r) -> linked h None (Br l a hh v r) -> l = Lf \/ r = Lf -> (0 < fl)%nat ->
  exists h', avl_delete_target fl (Some a) (TSt h f (Some a) z) = Ok (rootp (subt l r), TSt h' (al_gave a f) (Some a) (z - 1)) /\ h' !! a = None.
Proof.
  intros Hn (Ha & Hl & Hr) Hlr Hfl. destruct fl as [|fl]; [lia|].
  cbn [avl_delete_target is_null]. erewrite bind_ok by hacc. erewrite bind_ok by hacc. erewrite bind_ok by hacc. cbn [n_par n_left n_right].
  specialize (Hn a). cbn [cnt] in Hn. rewrite one_eq in Hn.
  destruct (subt l r) as [|s1 c hc w s2] eqn:Es.
  - assert (l = Lf) as -> by (destruct l; [reflexivity|discriminate]).
    assert (r = Lf) as -> by exact Es.
    cbn [rootp is_null andb negb when]. rewrite bind_ret. unfold avl_real_delete. rewrite bind_assoc. unfold free_node.
    erewrite bind_ok. 2:{ cbn [t_heap]. rewrite Ha. reflexivity. } eexists. split; [reflexivity|]. cbn [t_heap]. apply lookup_delete.
  - assert (linked h (Some a) (Br s1 c hc w s2)) as Hsub by (rewrite <- Es; destruct l; assumption).
    assert (c <> a) as Hca.
    { intros ->. assert (cnt a (subt l r) <= cnt a l + cnt a r)%nat by (destruct l; cbn [subt cnt]; lia).
      rewrite Es in *. cbn [cnt] in *. rewrite one_eq in *. lia. }
    assert ((is_null (rootp l) && is_null (rootp r)) = false) as ->.
    { destruct l; [|reflexivity]. cbn [subt] in Es. subst r. reflexivity. }
    assert ((negb (is_null (rootp l)) && negb (is_null (rootp r))) = false) as ->.
    { destruct Hlr as [->| ->]; [reflexivity|]. destruct l; reflexivity. }
    assert ((if negb (is_null (rootp l)) then rootp l else rootp r) = Some c) as ->.
    { destruct l; cbn [subt] in Es; [subst r; reflexivity|rewrite Es; reflexivity]. }
    cbn zeta. destruct Hsub as (Hc0 & _). rewrite (bind_ok _ _ _ _ _ (st_par_al _ _ _ _ _ _ _ Hc0)). cbn [is_null negb when].
    rewrite bind_ret. unfold avl_real_delete. rewrite bind_assoc. unfold free_node.
    erewrite bind_ok. 2:{ cbn [t_heap]. rewrite lookup_alter_ne by congruence. rewrite Ha. reflexivity. }
    eexists. split; [reflexivity|]. cbn [t_heap]. apply lookup_delete.
Qed.
(** ... so the next use of the root is undefined. *)
Lemma dangling_root h f a z : h !! a = None ->
  bt_destroy (TSt h f (Some a) z) = UB /\ bt_clear (TSt h f (Some a) z) = UB /\ avl_height (TSt h f (Some a) z) = UB /\
  (forall x, bt_find cmp x (TSt h f (Some a) z) = UB) /\ (forall x, avl_push cmp x (TSt h f (Some a) z) = UB) /\
  avl_iterate InOrder (TSt h f (Some a) z) = UB.
Proof.
  intros Ha.
  assert (forall k (m : node A -> M (tst A) k), (nn <- ldn (Some a) ;; m nn) (TSt h f (Some a) z) = UB) as HU.
  { intros k m. apply bind_ub. unfold ldn. cbn [t_heap]. rewrite Ha. reflexivity. }
  assert (bt_clear_nodes (TSt h f (Some a) z) = UB) as Hcl.
  { unfold bt_clear_nodes. erewrite bind_ok by reflexivity. cbn [t_root is_null negb when]. rewrite bind_assoc.
    erewrite bind_ok by reflexivity. cbn [t_heap traverse is_null]. rewrite bind_assoc. apply bind_ub. unfold ld_left. rewrite bind_assoc. apply HU. }
  split_and!.
  - unfold bt_destroy. apply bind_ub, Hcl.
  - unfold bt_clear. apply bind_ub, Hcl.
  - unfold avl_height. erewrite bind_ok by reflexivity. apply HU.
  - intros x. unfold bt_find. erewrite bind_ok by reflexivity. erewrite bind_ok by reflexivity.
    cbn [t_root t_heap find_loop is_null]. unfold ld_val. rewrite bind_assoc. apply HU.
  - intros x. unfold avl_push. erewrite bind_ok by reflexivity. erewrite bind_ok by reflexivity.
    cbn [t_root t_heap avl_insert is_null]. unfold ld_val. rewrite !bind_assoc. apply HU.
  - unfold avl_iterate, avl_begin, bt_begin. rewrite bind_assoc. erewrite bind_ok by reflexivity. cbn [t_root first_node].
    rewrite bind_assoc. erewrite bind_ok by reflexivity. cbn [t_heap down_left]. unfold ld_left. rewrite !bind_assoc. apply HU.
Qed.
Lemma erase_root_small h f z t x a : wf h f t -> atF cmp x t = Some a -> root_small t a ->
  match next_set cmp x (elems t) with
  | Some _ => avl_erase cmp (Some a) (TSt h f (rootp t) z) = UB
  | None => exists h', avl_erase cmp (Some a) (TSt h f (rootp t) z) = Ok (None, TSt h' (al_gave a f) (Some a) (z - 1)) /\ h' !! a = None
  end.
Proof.
  intros W Hat Hrs. pose proof W as [Hl Hn Hav Hs Hf].
  destruct t as [|l b hh v r]; [discriminate|]. destruct Hrs as [-> Hlr].
  assert (equiv cmp x v) as He.
  { destruct (atF_zip x _ _ Hat) as (C & l2 & hh2 & v2 & r2 & Et & He). pose proof Hl as Hl2. rewrite Et in Hl2.
    destruct (linked_lookup _ _ _ _ _ _ _ _ Hl2) as (n & E1 & E2 & _). destruct Hl as (Hb & _). rewrite Hb in E1. injection E1 as <-.
    cbn in E2. subst v2. exact He. }
  destruct (delete_root_small l b hh v r (S (S (size h))) h f z Hn Hl Hlr ltac:(lia)) as (h' & E & Hb').
  unfold avl_erase. cbn [rootp].
  rewrite (bind_ok _ _ _ _ _ (next_inorder_ok [] h f (Some b) z l b hh v r Hn Hl)).
  pose proof (next_pos_ok [] l b hh v r) as Hnp. cbn [elems] in *.
  rewrite (next_eq cmp Hc _ _ _ Hs _ He). cbn [elemsR] in Hnp. rewrite app_nil_r in Hnp. cbn [plug] in Hnp.
  destruct (next_pos [] r) as [c|].
  - destruct Hnp as (C2 & l2 & hb & y & r2 & Ep & Eh). rewrite Eh. cbn [head is_null].
    pose proof Hl as Hl2. rewrite Ep in Hl2. apply linked_unplug in Hl2 as (Hb & _). erewrite bind_ok by hacc. cbn [n_val].
    erewrite bind_ok by reflexivity. cbn [t_heap]. rewrite (bind_ok _ _ _ _ _ E). apply (dangling_root _ _ _ _ Hb').
  - rewrite Hnp. cbn [head is_null]. exists h'. split; [|exact Hb']. erewrite bind_ok by reflexivity. cbn [t_heap]. rewrite (bind_ok _ _ _ _ _ E). reflexivity.
Qed.
End Obj.
