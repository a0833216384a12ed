(** References and iterators into maps keep their entry. *)
From Verif Require Import Base Alloc AllocProofs VectorModel VectorSpec Adapter Hist.
From Verif Require Import TreeModel TreeSpec TreeBase TreeSets TreeRot TreeIns TreeZip TreeSwap TreeDel TreeErase TreeIter TreeTag TreeObj TreeWorld TreeWSpec TreeHist MapHist.
From Verif Require Import ListIterSpec ListIterProofs TreeIterModel TreeIterSpec TreeIterProofs AlgoIterTree MapIterModel MapIterSpec.
Local Open Scope nat_scope.

Lemma on_bind {A X Y} id (a : M (tst A) X) (b : X -> M (tst A) Y) w : on id (bind a b) w = bind (on id a) (fun x => on id (b x)) w.
Proof.
  unfold on, bind. destruct (tw_objs w !! id) as [[r n]|]; [|reflexivity].
  destruct (a _) as [[x s]| | |]; try reflexivity. cbn [tw_objs tw_heap tw_al]. rewrite lookup_insert.
  destruct s as [h f r' n']. cbn [t_heap t_al t_root t_size]. destruct (b x _) as [[y s]| | |]; try reflexivity. rewrite insert_insert. reflexivity.
Qed.
Lemma total_same {A} id (l l' : list (nat * A)) (m : gmap nat (list (nat * A))) : m !! id = Some l -> length l' = length l -> total (strip (<[id := l']> m)) = total (strip m).
Proof.
  intros E El. unfold total. rewrite strip_ins.
  rewrite <- (insert_id (strip m) id l.*2) at 2 by (unfold strip; rewrite lookup_fmap, E; reflexivity).
  rewrite <- insert_delete_insert. rewrite <- (insert_delete_insert _ _ l.*2).
  rewrite !map_to_list_insert by apply lookup_delete. cbn [mbind list_bind snd]. rewrite !app_length, !fmap_length, El. reflexivity.
Qed.

Section Proofs.
Context {K V : Type} (lt : K -> K -> bool) (dflt : V) (Hlt : swo lt) (pol : policy).
Notation A := (K * V)%type.
Notation cmp := (kv_cmp (V := V) lt).
Notation kRf := (kRf cmp pol).
Notation kR := (kR cmp pol).
Notation F := (fun s : kspec (A := A) => refuses pol (total (strip (k_sets s)))).
Implicit Types (s : kspec (A := A)) (f : nat -> nat) (l : list (nat * A)).
Let Hc : swo cmp := kv_swo lt Hlt.

Lemma find_key key l : at_key lt key l = fst <$> List.find (fun p => equivb cmp (key, dflt) (snd p)) l.
Proof. reflexivity. Qed.

(** find, in a map that does not change. *)
Lemma m_find f s (w : kworld A) id l key : kRf f s w -> k_sets s !! id = Some l ->
  exists w', on id (map_find lt dflt key) (fst w) = Ok (f <$> at_key lt key l, w') /\ kRf f s (w', snd w).
Proof.
  intros H Es. pose proof (kR_lookup cmp pol f s w id H) as P. rewrite Es in P. destruct P as (T & t & H1 & H2 & Ht & Er & W).
  destruct (on_query cmp pol T (fst w) id t (map_find lt dflt key) _ H1 Ht (find_ok cmp (key, dflt) t _ _ _ (wf_nd _ _ _ _ W) (wf_linked _ _ _ _ W))) as (w' & E & H').
  assert (atF cmp (key, dflt) t = f <$> at_key lt key l) as Ea.
  { rewrite find_key, (at_first cmp Hc (key, dflt) t 0 (wf_asc _ _ _ _ W)), <- Er. apply (find_ren cmp). }
  exists w'. rewrite Ea in E. split; [exact E|]. destruct H as (T0 & _ & _ & H3 & H4 & H5). exists T. split_and!; assumption.
Qed.
Lemma at_key_in key l n : at_key lt key l = Some n -> exists us k v vs, l = us ++ (n, (k, v)) :: vs /\ same_key lt key k = true.
Proof.
  unfold at_key. destruct (List.find _ l) as [[m [k v]]|] eqn:E; [|discriminate]. intros [= <-]. apply find_some in E as [Hi Hk].
  apply in_split in Hi as (us & vs & ->). exists us, k, v, vs. split; [reflexivity|exact Hk].
Qed.
Lemma at_key_add key n l : at_key lt key l = None -> at_key lt key (add_set (by_val cmp) (n, (key, dflt)) l) = Some n.
Proof.
  unfold at_key. assert (Hs : same_key lt key key = true) by (unfold same_key; rewrite (c_irr lt Hlt); reflexivity).
  induction l as [|[m [k v]] l IH]; cbn [add_set List.find].
  - cbn [snd fst]. rewrite Hs. reflexivity.
  - change (by_val cmp (n, (key, dflt)) (m, (k, v))) with (lt key k). cbn [snd fst]. destruct (same_key lt key k) eqn:Ek; [discriminate|]. intros H.
    destruct (lt key k); cbn [List.find snd fst]; [rewrite Hs; reflexivity|]. rewrite Ek. exact (IH H).
Qed.

(** m[key], as an entry. *)
Lemma m_ref f s (w : kworld A) id key : kRf f s w ->
  match ref_of lt dflt id key s with
  | SVal (n, s') => (exists w' g, on_trees (on id (map_index lt dflt key)) w = Ok (Some (g n), w') /\ kRf g s' w' /\
       (exists us k v vs, k_sets s' !! id = Some (us ++ (n, (k, v)) :: vs) /\ same_key lt key k = true)) \/
      (on_trees (on id (map_index lt dflt key)) w = Abort /\ F s')
  | SAbort => False
  | SUnspec => True
  end.
Proof.
  intros H. unfold ref_of, with_set. destruct (k_sets s !! id) as [l|] eqn:Es; [|exact I].
  destruct (m_find f s w id l key H Es) as (w1 & E1 & H1'). unfold map_index, on_trees. rewrite on_bind, (bind_ok _ _ _ _ _ E1).
  destruct (at_key lt key l) as [n|] eqn:Ek; cbn [fmap option_fmap option_map is_null].
  - destruct (m_find f s (w1, snd w) id l key H1' Es) as (w2 & E2 & H2'). left. exists (w2, snd w), f. cbn [fst snd] in *. rewrite E2, Ek.
    split; [reflexivity|]. split; [exact H2'|]. destruct (at_key_in _ _ _ Ek) as (us & k & v & vs & -> & Hk). exists us, k, v, vs. auto.
  - rewrite on_bind. pose proof (kt_step_or cmp Hc pol (KTree (TPush id (key, dflt))) s (w1, snd w)) as P. cbn [ks_step kt_step t_step] in P.
    destruct H1' as (T & HT & HR & Hb & Hit & Hw). destruct s as [sets nxt its]. cbn [k_sets k_next k_its fst snd] in *.
    pose proof (k_trees cmp Hc pol (TPush id (key, dflt)) T w1 sets nxt f its HT HR Hb) as L. unfold trees_step in L. cbn [k_sets k_next k_its top_map ts_step] in L.
    unfold with_set in L. rewrite Es in L.
    assert (lookup_set (by_val cmp) (nxt, (key, dflt)) l = None) as El.
    { unfold at_key in Ek. unfold lookup_set. change (List.find (equivb (by_val cmp) (nxt, (key, dflt))) l) with (List.find (fun p => same_key lt key (fst (snd p))) l).
      destruct (List.find _ l); [discriminate|reflexivity]. }
    rewrite El in L. cbn [tagree tout_map t_step k_sets k_next k_its] in L.
    destruct L as [(w' & T' & g & R & HT' & HR' & Hb' & Hn & Hg & _)|[R HF]].
    + apply bind_inv in R as ([] & w2 & R & R2). injection R2 as ->. rewrite (bind_ok _ _ _ _ _ R).
      set (s' := KSpec (<[id := add_set (by_val cmp) (nxt, (key, dflt)) l]> sets) (S nxt) its) in *.
      assert (kRf g s' (w', snd w)) as Hs'.
      { exists T'. cbn [s' k_sets k_next k_its fst snd]. split_and!; try assumption.
        - intros k p Ep. specialize (Hit _ _ Ep). destruct p; cbn in *; [lia|exact I].
        - rewrite Hw. apply map_fmap_ext. intros k p Ep. specialize (Hit _ _ Ep). destruct p; cbn in *; [rewrite Hg by exact Hit|]; reflexivity. }
      destruct (m_find g s' (w', snd w) id (add_set (by_val cmp) (nxt, (key, dflt)) l) key Hs' (lookup_insert _ _ _)) as (w3 & E3 & H3).
      pose proof (at_key_add key nxt l Ek) as Ea. left. exists (w3, snd w), g. cbn [fst snd] in *. rewrite E3, Ea. split; [reflexivity|]. split; [exact H3|].
      destruct (at_key_in _ _ _ Ea) as (us & k & v & vs & Eq & Hk). exists us, k, v, vs. split; [|exact Hk]. cbn [s' k_sets]. rewrite lookup_insert, Eq. reflexivity.
    + right. split; [|exact HF]. destruct (on id (avl_push cmp (key, dflt)) w1) as [[[] ?]| | |] eqn:Ep; unfold bind in R |- *; rewrite Ep in R |- *; try discriminate R. reflexivity.
Qed.

(** Reading and assigning through a reference. *)
Lemma m_get f s (w : kworld A) id us n k v vs : kRf f s w -> k_sets s !! id = Some (us ++ (n, (k, v)) :: vs) ->
  exists nn, tw_heap (fst w) !! f n = Some nn /\ n_val nn = (k, v).
Proof.
  intros H E. destruct (kR_at _ _ _ _ _ _ _ _ _ _ H (kR_where _ _ _ _ _ _ _ _ _ _ H E)) as (T & t & C & l0 & hh & r & H1 & _ & Ht & W & Et & Ev & _).
  pose proof (wf_linked _ _ _ _ W) as Hl. rewrite Et in Hl. destruct (linked_lookup _ _ _ _ _ _ _ _ Hl) as (nn & Hn & Hv & _). exists nn. auto.
Qed.
Lemma m_put f s (w : kworld A) id us n k v v' vs : kRf f s w -> k_sets s !! id = Some (us ++ (n, (k, v)) :: vs) ->
  exists h', (forall r z, (kv <- ld_val (Some (f n)) ;; st_val (Some (f n)) (fst kv, v')) (TSt (tw_heap (fst w)) (tw_al (fst w)) r z) = Ok (tt, TSt h' (tw_al (fst w)) r z)) /\
    kRf f (KSpec (<[id := us ++ (n, (k, v')) :: vs]> (k_sets s)) (k_next s) (k_its s)) (TW h' (tw_al (fst w)) (tw_objs (fst w)), snd w).
Proof.
  intros H E. destruct (m_get _ _ _ _ _ _ _ _ _ H E) as (nn & Hn & Hv).
  pose proof (kR_lookup cmp pol f s w id H) as P. rewrite E in P. destruct P as (T & t & H1 & HR & Ht & Ep & W).
  symmetry in Ep. rewrite renl_app, renl_cons in Ep. destruct (pairs_zip _ _ _ _ _ Ep) as (C & l0 & hh & r0 & Et & Eu & Ev).
  eexists. split.
  - intros r z. rewrite (bind_ok _ _ _ _ _ (ld_val_ok _ _ _ _ _ _ Hn)), (st_val_ok _ _ _ _ _ _ _ Hn), Hv. reflexivity.
  - subst t. pose proof (set_val_goes lt Hlt C l0 (f n) hh (k, v) (k, v') r0 _ _ nn W eq_refl Hn) as G.
    pose proof (RT_goes cmp pol _ _ _ _ _ _ _ H1 Ht G) as H1'.
    destruct H as (T0 & _ & _ & Hb & Hit & Hw). exists (<[id := plug C (Br l0 (f n) hh (k, v') r0)]> T). cbn [k_sets k_next k_its fst snd].
    split_and!; [ | | |exact Hit|exact Hw].
    + match goal with |- TreeHist.RT _ _ _ ?x => match type of H1' with TreeHist.RT _ _ _ ?y => replace x with y; [exact H1'|] end end.
      f_equal. apply insert_id. rewrite (RT_lookup cmp pol _ _ _ _ H1 Ht). unfold ob. rewrite !rootp_plug, !nodes_len, !elems_plug. cbn [elems]. rewrite !app_length. reflexivity.
    + rewrite ren_insert, fmap_insert, HR. f_equal. rewrite renl_app, renl_cons, pairs_plug, pairs_Br, Eu, Ev, <- !app_assoc. reflexivity.
    + eapply below_insert; [exact Hb|reflexivity|]. intros m Hm. apply (Hb _ _ _ E). rewrite fmap_app in Hm |- *. exact Hm.
Qed.

Lemma answer_or (r : sres (tout A * kspec)) (c : M (kworld A) (tout A)) w : magree_or kR F r (c w) -> magree_or kR F (as_answer r) ((x <- c ;; ret (as_mout x)) w).
Proof.
  destruct r as [[x s']| |]; cbn [magree_or as_answer sthen fst snd]; [|intros H; apply bind_abort, H|auto].
  intros [(w' & E & H)|[E H]]; [left; exists w'; rewrite (bind_ok _ _ _ _ _ E); auto|right; split; [apply bind_abort, E|exact H]].
Qed.
Lemma m_as_top o o' w : as_top dflt o = Some o' -> on_trees (m_step lt dflt o) w = (x <- kt_step cmp (KTree o') ;; ret (as_mout x)) w.
Proof.
  unfold on_trees, kt_step. destruct o; cbn [as_top]; intros [= <-]; cbn [m_step t_step]; unfold bind, ret, on_trees, map_push, map_pop, map_find;
    repeat match goal with |- context [match ?c (fst w) with _ => _ end] => destruct (c (fst w)) as [[? ?]| | |] end; reflexivity.
Qed.
Lemma put_or f s (w : kworld A) id us n k v vs v' : kRf f s w -> k_sets s !! id = Some (us ++ (n, (k, v)) :: vs) ->
  put_val n v' s = SVal (KSpec (<[id := us ++ (n, (k, v')) :: vs]> (k_sets s)) (k_next s) (k_its s)).
Proof. intros H E. unfold put_val. rewrite (kR_where _ _ _ _ _ _ _ _ _ _ H E). reflexivity. Qed.
Lemma on_at_id f s (w : kworld A) id l : kRf f s w -> k_sets s !! id = Some l -> exists r z, tw_objs (fst w) !! id = Some (r, z).
Proof.
  intros H E. pose proof (kR_lookup cmp pol f s w id H) as P. rewrite E in P. destruct P as (T & t & H1 & _ & Ht & _). do 2 eexists. exact (RT_lookup cmp pol _ _ _ _ H1 Ht).
Qed.

Theorem n_step_or o s (w : kworld A) : kR s w -> magree_or kR F (ns_step lt dflt o s) (n_step lt dflt o w).
Proof.
  intros H. destruct o; cbn [ns_step n_step]; try (apply answer_or, (kt_step_or cmp Hc pol), H).
  - assert (G : forall o', as_top dflt o = Some o' -> magree_or kR F (as_answer (trees_step cmp o' s)) (on_trees (m_step lt dflt o) w)).
    { intros o' E. rewrite (m_as_top _ _ _ E). apply answer_or. exact (kt_step_or cmp Hc pol (KTree o') s w H). }
    destruct o; cbn [maps_step]; try (apply G; reflexivity); clear G; destruct H as (f & H); pose proof (m_ref f s w id k H) as P;
      (destruct (ref_of lt dflt id k s) as [[n s1]| |]; [|destruct P|exact I]); cbn [sthen fst snd m_step].
    + destruct P as [(w1 & g & E & H1 & us & k' & v' & vs & El & Hk)|[E HF]].
      * rewrite (put_or _ _ _ _ _ _ _ _ _ v H1 El). cbn [sthen]. destruct (m_put _ _ _ _ _ _ _ _ v _ H1 El) as (h' & Ew & Hw).
        destruct (on_at_id _ _ _ _ _ H1 El) as (r & z & Eo). left. eexists. split; [|exists g; exact Hw].
        unfold on_trees in E |- *. unfold bind at 1. unfold map_set. rewrite on_bind. destruct (on id (map_index lt dflt k) (fst w)) as [[p w2]| | |] eqn:Ei; try discriminate E.
        injection E as -> <-. cbn [fst snd] in *. rewrite (bind_ok _ _ _ _ _ Ei). unfold on. rewrite Eo, Ew. cbn [t_heap t_al t_root t_size].
        unfold ret. rewrite (insert_id _ _ _ Eo). reflexivity.
      * assert (G : on_trees (on id (map_set lt dflt k v) ;;; ret (@MUnit K V)) w = Abort).
        { unfold on_trees in E |- *. destruct (on id (map_index lt dflt k) (fst w)) as [[p w2]| | |] eqn:Ei; try discriminate E.
          erewrite bind_abort; [reflexivity|]. unfold map_set. rewrite on_bind. apply bind_abort, Ei. }
        destruct (put_val n v s1) as [s2| |] eqn:Ep; cbn [sthen magree_or]; [|exact G|exact I]. right. split; [exact G|].
        unfold put_val in Ep. destruct (where_is n (k_sets s1)) as [[i [[us [k' v']] vs]]|] eqn:Ew; [|discriminate]. injection Ep as <-. apply where_is_some in Ew.
        cbn [k_sets]. erewrite total_same; [exact HF|exact Ew|]. rewrite !app_length. reflexivity.
    + assert (Hg : forall us k' v vs (w1 : kworld A) g, kRf g s1 w1 -> k_sets s1 !! id = Some (us ++ (n, (k', v)) :: vs) -> get_val n s1 = SVal v).
      { intros us k' v vs w1 g H1 El. unfold get_val. rewrite (kR_where _ _ _ _ _ _ _ _ _ _ H1 El). reflexivity. }
      destruct P as [(w1 & g & E & H1 & us & k' & v & vs & El & Hk)|[E HF]].
      * rewrite (Hg _ _ _ _ _ _ H1 El). cbn [sthen]. destruct (m_get _ _ _ _ _ _ _ _ _ H1 El) as (nn & Hn & Hv). destruct (on_at_id _ _ _ _ _ H1 El) as (r & z & Eo).
        left. exists w1. split; [|exists g; exact H1].
        unfold on_trees in E |- *. unfold bind at 1. unfold map_get. rewrite on_bind. destruct (on id (map_index lt dflt k) (fst w)) as [[p w2]| | |] eqn:Ei; try discriminate E.
        injection E as -> <-. cbn [fst snd] in *. rewrite (bind_ok _ _ _ _ _ Ei). unfold on. rewrite Eo, (bind_ok _ _ _ _ _ (ld_val_ok _ _ _ _ _ _ Hn)), Hv. cbn [t_heap t_al t_root t_size ret snd].
        unfold ret. cbn [t_heap t_al t_root t_size]. rewrite (insert_id _ _ _ Eo). destruct w2; reflexivity.
      * assert (G : on_trees (v <- on id (map_get lt dflt k) ;; ret (@MVal K V v)) w = Abort).
        { unfold on_trees in E |- *. destruct (on id (map_index lt dflt k) (fst w)) as [[p w2]| | |] eqn:Ei; try discriminate E.
          erewrite bind_abort; [reflexivity|]. unfold map_get. rewrite on_bind. apply bind_abort, Ei. }
        destruct (get_val n s1) as [v| |] eqn:Ep; cbn [sthen magree_or]; [|exact G|exact I]. right. split; [exact G|exact HF].
  - destruct H as (f & H). pose proof (m_ref f s w id key H) as P. destruct (ref_of lt dflt id key s) as [[n s1]| |]; [|destruct P|exact I]. cbn [sthen fst snd magree_or].
    destruct P as [(w1 & g & E & H1 & us & k' & v & vs & El & Hk)|[E HF]]; [|right; split; [apply bind_abort, E|exact HF]].
    left. rewrite (bind_ok _ _ _ _ _ E). eexists. split; [reflexivity|]. exists g. apply (kR_set cmp pol g s1 w1 k (Some n) H1).
    destruct H1 as (_ & _ & _ & Hb & _). apply (Hb _ _ _ El). rewrite fmap_app. apply elem_of_app. right. left.
  - destruct H as (f & H). unfold with_kt, get_val. destruct (k_its s !! k) as [[n|]|] eqn:E; try exact I.
    destruct (where_is n (k_sets s)) as [[id [[us [key v]] vs]]|] eqn:Ew; [|exact I]. apply where_is_some in Ew. cbn [sthen magree_or].
    rewrite (bind_ok _ _ _ _ _ (get_kt_ok _ _ _ _ _ _ _ H E)). destruct (m_get _ _ _ _ _ _ _ _ _ H Ew) as (nn & Hn & Hv). left. exists w. split; [|exists f; exact H].
    erewrite bind_ok by (apply on_nodes_same; cbn zeta; apply ld_val_ok; exact Hn). rewrite Hv. reflexivity.
  - destruct H as (f & H). unfold with_kt. destruct (k_its s !! k) as [[n|]|] eqn:E; try exact I. unfold put_val.
    destruct (where_is n (k_sets s)) as [[id [[us [key v']] vs]]|] eqn:Ew; [|exact I]. apply where_is_some in Ew. cbn [sthen magree_or].
    rewrite (bind_ok _ _ _ _ _ (get_kt_ok _ _ _ _ _ _ _ H E)). destruct (m_put _ _ _ _ _ _ _ _ v _ H Ew) as (h' & Ee & Hw). left. eexists. split; [|exists f; exact Hw].
    unfold on_trees, on_nodes, bind at 1. cbn [fmap option_fmap option_map]. rewrite Ee. reflexivity.
Qed.

Lemma n_run ops : sound pol ->
  match srun (ns_step lt dflt) ops kspec0 with
  | SVal (rs, s) => (exists w, mrun (n_step lt dflt) ops (tw_init pol, ∅) = Ok (rs, w) /\ kR s w) \/
      (mrun (n_step lt dflt) ops (tw_init pol, ∅) = Abort /\
       exists ops1 ops2 rs1 s1, ops = ops1 ++ ops2 /\ srun (ns_step lt dflt) ops1 kspec0 = SVal (rs1, s1) /\ F s1)
  | SAbort => mrun (n_step lt dflt) ops (tw_init pol, ∅) = Abort
  | SUnspec => True
  end.
Proof. intros Hs. exact (mrun_agree_or (n_step lt dflt) (ns_step lt dflt) kR F n_step_or ops kspec0 (tw_init pol, ∅) (kR_init cmp pol Hs)). Qed.
End Proofs.

Theorem n_history_or : forall (K V : Type) (lt : K -> K -> bool) (dflt : V), swo lt -> forall pol, sound pol -> forall ops : list (nop K V),
  match srun (ns_step lt dflt) ops kspec0 with
  | SVal (rs, _) => (exists w, mrun (n_step lt dflt) ops (tw_init pol, ∅) = Ok (rs, w)) \/
      (mrun (n_step lt dflt) ops (tw_init pol, ∅) = Abort /\
       exists ops1 ops2 rs1 s1, ops = ops1 ++ ops2 /\ srun (ns_step lt dflt) ops1 kspec0 = SVal (rs1, s1) /\ refuses pol (total (strip (k_sets s1))))
  | SAbort => mrun (n_step lt dflt) ops (tw_init pol, ∅) = Abort
  | SUnspec => True
  end.
Proof.
  intros K V lt dflt Hc pol Hs ops. pose proof (n_run lt dflt Hc pol ops Hs) as H. destruct (srun _ ops kspec0) as [[rs s]| |]; [|exact H|exact I].
  destruct H as [(w & R & _)|H]; eauto.
Qed.
Theorem n_history : forall (K V : Type) (lt : K -> K -> bool) (dflt : V), swo lt -> forall pol, sound pol -> grants pol -> forall ops : list (nop K V),
  match srun (ns_step lt dflt) ops kspec0 with
  | SVal (rs, _) => exists w, mrun (n_step lt dflt) ops (tw_init pol, ∅) = Ok (rs, w)
  | SAbort => mrun (n_step lt dflt) ops (tw_init pol, ∅) = Abort
  | SUnspec => True
  end.
Proof.
  intros K V lt dflt Hc pol Hs Hg ops. pose proof (n_history_or K V lt dflt Hc pol Hs ops) as H. destruct (srun _ ops kspec0) as [[rs s]| |]; [|exact H|exact I].
  destruct H as [H|(_ & ops1 & ops2 & rs1 & s1 & _ & _ & Hr)]; [exact H|]. destruct (grants_refuses _ _ Hg Hr).
Qed.
Lemma n_reached {K V} (lt : K -> K -> bool) (dflt : V) : swo lt -> forall (ops : list (nop K V)) rs s, srun (ns_step lt dflt) ops kspec0 = SVal (rs, s) ->
  exists f (w : kworld (K * V)), kRf (kv_cmp lt) bump f s w.
Proof.
  intros Hc ops rs s E. pose proof (n_run lt dflt Hc bump ops bump_sound) as H. rewrite E in H.
  destruct H as [(w & _ & f & HR)|(_ & ops1 & ops2 & rs1 & s1 & _ & _ & Hr)]; [eauto|destruct (grants_refuses _ _ bump_grants Hr)].
Qed.

(** An entry keeps its number, its key and, but for assignments, its value until a
    step removes it. *)
Section Kept.
Context {K V : Type} (lt : K -> K -> bool) (dflt : V) (Hlt : swo lt).
Notation A := (K * V)%type.
Notation cmp := (kv_cmp (V := V) lt).
Notation run ops := (srun (ns_step lt dflt) ops kspec0).
Implicit Types (s : kspec (A := A)) (ops : list (nop K V)).

Lemma n_asc ops rs s id l : run ops = SVal (rs, s) -> k_sets s !! id = Some l -> ascending (by_val cmp) l /\ ascending cmp l.*2.
Proof.
  intros E El. destruct (n_reached lt dflt Hlt _ _ _ E) as (f & w & H). pose proof (kR_lookup _ _ f s w id H) as P. rewrite El in P.
  destruct P as (T & t & _ & _ & _ & Er & W). assert (ascending cmp l.*2) as Ha by (rewrite <- (renl_snd f), Er, pairs_snd; exact (wf_asc _ _ _ _ W)).
  split; [apply asc_snd, Ha|exact Ha].
Qed.
Lemma n_where ops rs s id us n x vs : run ops = SVal (rs, s) -> k_sets s !! id = Some (us ++ (n, x) :: vs) -> where_is n (k_sets s) = Some (id, (us, x, vs)).
Proof. intros E El. destruct (n_reached lt dflt Hlt _ _ _ E) as (f & w & H). exact (kR_where _ _ _ _ _ _ _ _ _ _ H El). Qed.
Lemma same_equiv k key v v' : same_key lt k key = true <-> equiv cmp (k, v) (key, v').
Proof. unfold same_key, equiv, kv_cmp. cbn [fst]. rewrite andb_true_iff, !negb_true_iff. reflexivity. Qed.
Lemma n_at_key ops rs s id us n key v vs k : run ops = SVal (rs, s) -> k_sets s !! id = Some (us ++ (n, (key, v)) :: vs) -> same_key lt k key = true ->
  at_key lt k (us ++ (n, (key, v)) :: vs) = Some n.
Proof.
  intros E El Hk. destruct (n_asc _ _ _ _ _ E El) as [Ha _].
  pose proof (lookup_eq (by_val cmp) (tcmp_swo cmp (kv_swo lt Hlt)) _ _ _ Ha (n, (k, v)) (proj1 (same_equiv k key v v) Hk)) as P.
  unfold at_key. change (List.find (fun p => same_key lt k (fst (snd p))) ?l) with (lookup_set (by_val cmp) (n, (k, v)) l). rewrite P. reflexivity.
Qed.

(** The state in which a reference has been taken. *)
Lemma n_ref_run ops rs s id k m s1 : run ops = SVal (rs, s) -> ref_of lt dflt id k s = SVal (m, s1) ->
  run (ops ++ [NRef 0 id k]) = SVal (rs ++ [MUnit], put_kt s1 0 (Some m)).
Proof. intros E Er. rewrite srun_app, E. cbn [srun ns_step]. rewrite Er. reflexivity. Qed.
Lemma ref_keeps s id k m s1 : ref_of lt dflt id k s = SVal (m, s1) ->
  (exists us k' v' vs, k_sets s1 !! id = Some (us ++ (m, (k', v')) :: vs) /\ same_key lt k k' = true) /\
  forall i n x l, k_sets s !! i = Some l -> In (n, x) l -> exists l', k_sets s1 !! i = Some l' /\ In (n, x) l'.
Proof.
  unfold ref_of, with_set. destruct (k_sets s !! id) as [l|] eqn:El; [|discriminate]. destruct (at_key lt k l) as [n|] eqn:Ea; intros [= <- <-].
  - split; [|eauto]. destruct (at_key_in lt _ _ _ Ea) as (us & k' & v & vs & -> & Hk). exists us, k', v, vs. auto.
  - cbn [k_sets]. split.
    + rewrite lookup_insert. destruct (at_key_in lt _ _ _ (at_key_add lt dflt Hlt k (k_next s) l Ea)) as (us & k' & v & vs & Eq & Hk). exists us, k', v, vs. rewrite Eq. auto.
    + intros i n x l0 Ei Hi. destruct (decide (i = id)) as [->|Hne].
      * rewrite lookup_insert. eexists. split; [reflexivity|]. apply in_add. right. congruence.
      * rewrite lookup_insert_ne by congruence. eauto.
Qed.
(** Assigning to an entry leaves the others alone. *)
Lemma put_keeps s m v s' i n x l : put_val m v s = SVal s' -> k_sets s !! i = Some l -> In (n, x) l -> n <> m -> exists l', k_sets s' !! i = Some l' /\ In (n, x) l'.
Proof.
  unfold put_val. destruct (where_is m (k_sets s)) as [[j [[us [k v']] vs]]|] eqn:Ew; [|discriminate]. intros [= <-] El Hi Hn. apply where_is_some in Ew. cbn [k_sets].
  destruct (decide (i = j)) as [->|Hne]; [|rewrite lookup_insert_ne by congruence; eauto]. rewrite lookup_insert. eexists. split; [reflexivity|].
  rewrite Ew in El. injection El as <-. apply in_app_or in Hi as [Hi|[[= -> _]|Hi]]; [|congruence|]; apply in_or_app; cbn; auto.
Qed.

Lemma n_kept ops rs s id us n key v vs o r s' : run ops = SVal (rs, s) -> where_is n (k_sets s) = Some (id, (us, (key, v), vs)) ->
  ns_step lt dflt o s = SVal (r, s') -> nremoves lt o id key = false ->
  exists us' vs', where_is n (k_sets s') = Some (id, (us', (key, match nassigned lt o s id n key with Some v' => v' | None => v end), vs')).
Proof.
  intros E Hw Ho Hr.
  assert (E' : run (ops ++ [o]) = SVal (rs ++ [r], s')) by (rewrite srun_app, E; cbn [srun]; rewrite Ho; reflexivity).
  set (v' := match nassigned lt o s id n key with Some v' => v' | None => v end).
  assert (G : exists l, k_sets s' !! id = Some l /\ In (n, (key, v')) l).
  2: { destruct G as (l & G & Gin). apply in_split in Gin as (us' & vs' & ->). exists us', vs'. eapply n_where; eassumption. }
  pose proof Hw as Hw0. apply where_is_some in Hw. set (l := us ++ (n, (key, v)) :: vs) in *.
  assert (Hin : In (n, (key, v)) l) by (apply in_or_app; right; left; reflexivity).
  assert (same : exists l, k_sets s !! id = Some l /\ In (n, (key, v)) l) by eauto.
  assert (put : forall i ps, (i = id -> In (n, (key, v)) ps) -> exists l, <[i := ps]> (k_sets s) !! id = Some l /\ In (n, (key, v)) l).
  { intros i ps Hi. destruct (decide (i = id)) as [->|Hne]; [rewrite lookup_insert; eauto|rewrite lookup_insert_ne by exact Hne; exact same]. }
  assert (tree : forall o', as_answer (trees_step cmp o' s) = SVal (r, s') -> v' = v ->
    match o' with TDestroy i | TClear i => Nat.eqb i id = false | TPop i y => Nat.eqb i id && equivb cmp y (key, v) = false | TErase _ _ => False | _ => True end ->
    exists l, k_sets s' !! id = Some l /\ In (n, (key, v')) l).
  { intros o' Ho' -> Hno. destruct (trees_step cmp o' s) as [[x s1]| |] eqn:Et; [|discriminate|discriminate]. injection Ho' as _ <-. cbn [snd]. clear E' Ho.
    unfold trees_step in Et.
    destruct o' as [i|i|i y|i y|i y|i y|i|i|i|i|i|i|i tt0|i src|i src]; cbn [top_map ts_step] in Et; unfold no_set, with_set in Et;
      try contradiction; (destruct (k_sets s !! i) as [ps|] eqn:Ei; try discriminate).
    + injection Et as <- <-. apply put. congruence.
    + injection Et as <- <-. cbn [k_sets]. rewrite lookup_delete_ne by (apply Nat.eqb_neq, Hno). exact same.
    + destruct (lookup_set _ _ ps); [discriminate|]. injection Et as <- <-. apply put. intros ->. apply in_add. right. congruence.
    + assert (k_sets s1 = <[i := remove_set (by_val cmp) (k_next s, y) ps]> (k_sets s)) as ->.
      { destruct ps as [|p ps]; [|destruct (lookup_set _ _ (p :: ps)); [|discriminate]]; injection Et as <- <-; reflexivity. }
      apply put. intros ->. rewrite Nat.eqb_refl in Hno. cbn [andb] in Hno. apply filter_In. split; [congruence|].
      change (equivb (by_val cmp) (k_next s, y) (n, (key, v))) with (equivb cmp y (key, v)). rewrite Hno. reflexivity.
    + injection Et as <- <-. exact same.
    + injection Et as <- <-. exact same.
    + injection Et as <- <-. exact same.
    + injection Et as <- <-. exact same.
    + destruct ps; [discriminate|]. injection Et as <- <-. exact same.
    + injection Et as <- <-. apply put. intros ->. rewrite Nat.eqb_refl in Hno. discriminate.
    + destruct (k_sets s !! src) as [[|]|]; try discriminate. injection Et as <- <-. apply put. congruence.
    + destruct (k_sets s !! src) as [ps'|]; [|discriminate]. destruct (Nat.eqb i src); [|destruct ps, ps'; try discriminate]; injection Et as <- <-; exact same. }
  assert (iter : k_sets s' = k_sets s -> v' = v -> exists l, k_sets s' !! id = Some l /\ In (n, (key, v')) l).
  { intros -> ->. exact same. }
  destruct o as [o|k i k0|k|k v0|k i|k i|k i k0|k j|k|k j|k|k j|k j].
  2: { cbn [ns_step] in Ho. destruct (ref_of lt dflt i k0 s) as [[m s1]| |] eqn:Er; [|discriminate|discriminate]. injection Ho as <- <-. cbn [put_kt k_sets fst snd].
       exact (proj2 (ref_keeps _ _ _ _ _ Er) _ _ _ _ Hw Hin). }
  3: { cbn [ns_step] in Ho. unfold with_kt in Ho. destruct (k_its s !! k) as [[m|]|] eqn:Ek; try discriminate.
       destruct (put_val m v0 s) as [s1| |] eqn:Ep; [|discriminate|discriminate]. injection Ho as <- <-. unfold v'. cbn [nassigned]. rewrite Ek.
       destruct (Nat.eqb_spec m n) as [->|Hne]; [|eapply put_keeps; try eassumption; congruence].
       unfold put_val in Ep. rewrite Hw0 in Ep. injection Ep as <-. cbn [k_sets]. rewrite lookup_insert. eexists. split; [reflexivity|]. apply in_or_app. right. left. reflexivity. }
  2-11: cbn [ns_step ks_step] in Ho; unfold with_set, with_kt, move_kt, get_val in Ho;
    apply iter; [|reflexivity]; cbn [as_answer sthen] in Ho;
    repeat (match type of Ho with context [match ?x with _ => _ end] => destruct x end; cbn [sthen as_answer fst snd] in Ho; try discriminate Ho);
    injection Ho as <- <-; reflexivity.
  cbn [ns_step] in Ho. destruct o as [i|i|i k v0|i k|i k v0|i k|i k|i|i|i|i|i src|i src]; cbn [maps_step as_top] in Ho; cbn [nremoves] in Hr;
    try (eapply tree; [exact Ho|reflexivity|try exact I; try exact Hr]).
  - destruct (ref_of lt dflt i k s) as [[m s1]| |] eqn:Er; [|discriminate|discriminate]. cbn [sthen fst snd] in Ho.
    destruct (put_val m v0 s1) as [s2| |] eqn:Ep; [|discriminate|discriminate]. injection Ho as <- <-.
    pose proof (n_ref_run _ _ _ _ _ _ _ E Er) as E1. destruct (ref_keeps _ _ _ _ _ Er) as [(us1 & k' & v1 & vs1 & El & Hk) Hks].
    destruct (Hks _ _ _ _ Hw Hin) as (l1 & El1 & Hin1).
    unfold v'. cbn [nassigned]. destruct (Nat.eqb_spec i id) as [->|Hne]; cbn [andb].
    + destruct (same_key lt k key) eqn:Esk.
      * assert (m = n) as ->.
        { unfold ref_of, with_set in Er. rewrite Hw in Er. unfold l in Er. rewrite (n_at_key _ _ _ _ _ _ _ _ _ _ E Hw Esk) in Er. injection Er as <- _. reflexivity. }
        unfold put_val in Ep. pose proof (n_where _ _ _ _ _ _ _ _ E1 El) as Ew. cbn [put_kt k_sets] in Ew. rewrite Ew in Ep. injection Ep as <-. cbn [k_sets].
        rewrite lookup_insert. eexists. split; [reflexivity|]. apply in_or_app. right. left.
        apply in_split in Hin1 as (us2 & vs2 & ->). pose proof (n_where _ _ _ _ _ _ _ _ E1 El1) as Ew2. cbn [put_kt k_sets] in Ew2. congruence.
      * eapply put_keeps; try eassumption. intros ->. apply in_split in Hin1 as (us2 & vs2 & ->).
        pose proof (n_where _ _ _ _ _ _ _ _ E1 El) as Ew. pose proof (n_where _ _ _ _ _ _ _ _ E1 El1) as Ew2. congruence.
    + eapply put_keeps; try eassumption. intros ->. apply in_split in Hin1 as (us2 & vs2 & ->).
      pose proof (n_where _ _ _ _ _ _ _ _ E1 El) as Ew. pose proof (n_where _ _ _ _ _ _ _ _ E1 El1) as Ew2. congruence.
  - destruct (ref_of lt dflt i k s) as [[m s1]| |] eqn:Er; [|discriminate|discriminate]. cbn [sthen fst snd] in Ho.
    destruct (get_val m s1) as [v1| |]; [|discriminate|discriminate]. injection Ho as <- <-. exact (proj2 (ref_keeps _ _ _ _ _ Er) _ _ _ _ Hw Hin).
Qed.

(** Without the numbers the calls do what [ms_step] says. *)
Lemma ms_as_top o o' x : as_top dflt o = Some o' -> ms_step lt dflt o x = match ts_step cmp o' x with SVal (r, y) => SVal (as_mout r, y) | SAbort => SAbort | SUnspec => SUnspec end.
Proof.
  destruct o; cbn [as_top]; intros [= <-]; cbn [ms_step ts_step]; unfold no_set, with_set; try (destruct (x !! id) as [l|]; try reflexivity).
  - destruct (lookup_set cmp (k, v) l) eqn:El; change (lookup_set cmp (k, v) l) with (get_key lt k l) in El; rewrite El; [reflexivity|]. rewrite put_key_add by exact El. reflexivity.
  - destruct l as [|p l]; [reflexivity|]. destruct (lookup_set cmp (k, dflt) (p :: l)) eqn:El; change (lookup_set cmp (k, dflt) (p :: l)) with (get_key lt k (p :: l)) in El; rewrite El; reflexivity.
  - destruct l; reflexivity.
  - destruct (x !! src) as [[|]|]; reflexivity.
  - destruct (x !! src) as [l'|]; [|reflexivity]. destruct (Nat.eqb id src); [reflexivity|]. destruct l, l'; reflexivity.
Qed.
Lemma n_maps ops rs s o : run ops = SVal (rs, s) ->
  ms_step lt dflt o (strip (k_sets s)) = match ns_step lt dflt (NMap o) s with SVal (r, s') => SVal (r, strip (k_sets s')) | SAbort => SAbort | SUnspec => SUnspec end.
Proof.
  intros E. cbn [ns_step].
  assert (G : forall o', as_top dflt o = Some o' -> ms_step lt dflt o (strip (k_sets s)) =
    match as_answer (trees_step cmp o' s) with SVal (r, s') => SVal (r, strip (k_sets s')) | SAbort => SAbort | SUnspec => SUnspec end).
  { intros o' Eo. rewrite (ms_as_top _ _ _ Eo), k_trees_strip. destruct (trees_step cmp o' s) as [[r s']| |]; reflexivity. }
  destruct o; try (apply G; reflexivity); clear G; cbn [ms_step maps_step]; unfold ref_of, with_set; unfold strip at 1; rewrite lookup_fmap;
    (destruct (k_sets s !! id) as [l|] eqn:El; [|reflexivity]); cbn [fmap option_fmap option_map];
    change (list_fmap (nat * A)%type A snd l) with l.*2; destruct (n_asc _ _ _ _ _ E El) as [_ Ha];
    destruct (at_key lt k l) as [n|] eqn:Ea; cbn [sthen fst snd].
  - destruct (at_key_in lt _ _ _ Ea) as (us & k' & v' & vs & -> & Hk). unfold put_val. rewrite (n_where _ _ _ _ _ _ _ _ E El). cbn [sthen k_sets]. rewrite strip_ins.
    rewrite !fmap_app, !fmap_cons in *. cbn [snd] in *. rewrite (put_key_eq lt Hlt k v _ (k', v') _ Ha); [reflexivity|]. apply same_equiv, Hk.
  - assert (Er : ref_of lt dflt id k s = SVal (k_next s, KSpec (<[id := add_set (by_val cmp) (k_next s, (k, dflt)) l]> (k_sets s)) (S (k_next s)) (k_its s)))
      by (unfold ref_of, with_set; rewrite El, Ea; reflexivity).
    pose proof (n_ref_run _ _ _ _ _ _ _ E Er) as E1. destruct (ref_keeps _ _ _ _ _ Er) as [(us & k' & v' & vs & El1 & Hk) _]. cbn [k_sets] in El1.
    pose proof (n_where _ _ _ _ _ _ _ _ E1 El1) as Ew. cbn [put_kt k_sets] in Ew. unfold put_val. cbn [k_sets]. rewrite Ew. cbn [sthen k_sets].
    rewrite strip_ins, strip_ins, insert_insert. rewrite lookup_insert in El1. injection El1 as El1.
    destruct (n_asc _ _ _ id _ E1 (lookup_insert _ _ _)) as [_ Ha1]. 
    assert (get_key lt k l.*2 = None) as Eg.
    { unfold get_key. pose proof (lookup_snd cmp 0 (k, dflt) l) as P. unfold at_key in Ea. 
      change (List.find (fun p => same_key lt k (fst (snd p))) l) with (lookup_set (tcmp cmp) (0, (k, dflt)) l) in Ea.
      destruct (lookup_set (tcmp cmp) _ l); [discriminate|]. symmetry in P. exact P. }
    pose proof (add_snd cmp (k_next s) (k, dflt) l) as Hadd. change (tcmp cmp) with (by_val cmp) in Hadd. rewrite <- (put_key_add lt k dflt _ Eg), El1 in Hadd.
    rewrite El1 in Ha1. rewrite <- (put_put lt dflt Hlt k v l.*2 (get_put lt dflt Hlt k _ Eg) Eg Ha), <- Hadd.
    rewrite !fmap_app, !fmap_cons in *. cbn [snd] in *. rewrite (put_key_eq lt Hlt k v _ (k', v') _ Ha1); [reflexivity|]. apply same_equiv, Hk.
  - destruct (at_key_in lt _ _ _ Ea) as (us & k' & v' & vs & -> & Hk). unfold get_val. rewrite (n_where _ _ _ _ _ _ _ _ E El). cbn [sthen].
    rewrite (get_key_eq lt k dflt), fmap_app, fmap_cons. cbn [snd]. rewrite fmap_app, fmap_cons in Ha. cbn [snd] in Ha.
    rewrite (lookup_eq cmp (kv_swo lt Hlt) _ _ _ Ha); [reflexivity|]. apply same_equiv, Hk.
  - assert (Er : ref_of lt dflt id k s = SVal (k_next s, KSpec (<[id := add_set (by_val cmp) (k_next s, (k, dflt)) l]> (k_sets s)) (S (k_next s)) (k_its s)))
      by (unfold ref_of, with_set; rewrite El, Ea; reflexivity).
    pose proof (n_ref_run _ _ _ _ _ _ _ E Er) as E1.
    assert (get_key lt k l.*2 = None) as Eg.
    { unfold get_key. pose proof (lookup_snd cmp 0 (k, dflt) l) as P. unfold at_key in Ea. 
      change (List.find (fun p => same_key lt k (fst (snd p))) l) with (lookup_set (tcmp cmp) (0, (k, dflt)) l) in Ea.
      destruct (lookup_set (tcmp cmp) _ l); [discriminate|]. symmetry in P. exact P. }
    assert (In (k_next s, (k, dflt)) (add_set (by_val cmp) (k_next s, (k, dflt)) l)) as Hi by (apply in_add; left; reflexivity).
    apply in_split in Hi as (us & vs & Ei). assert (Ew : where_is (k_next s) (<[id := add_set (by_val cmp) (k_next s, (k, dflt)) l]> (k_sets s)) = Some (id, (us, (k, dflt), vs))).
    { apply (n_where _ _ _ _ _ _ _ _ E1). cbn [put_kt k_sets]. rewrite lookup_insert, Ei. reflexivity. }
    unfold get_val. cbn [k_sets]. rewrite Ew. cbn [sthen k_sets]. rewrite Eg, strip_ins.
    pose proof (add_snd cmp (k_next s) (k, dflt) l) as Hadd. change (tcmp cmp) with (by_val cmp) in Hadd. rewrite Hadd, (put_key_add lt k dflt _ Eg). reflexivity.
Qed.
End Kept.
