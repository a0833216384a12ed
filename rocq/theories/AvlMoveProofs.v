(** Iterators of AVL trees that are moved from. *)
From Verif Require Import Base Alloc AllocProofs VectorSpec Adapter Hist.
From Verif Require Import TreeModel TreeSpec TreeWorld BstWorld BstSpec BstHist TreeWSpec ListIterSpec TreeIterModel TreeIterSpec TreeIterProofs BstIterModel BstIterSpec.
From Verif Require Import IterMoveModel IterMoveSpec BstMoveProofs.
Local Open Scope nat_scope.

Section Moves.
Context {A : Type} (cmp : A -> A -> bool) (Hc : swo cmp) (pol : policy).
Implicit Types (s : am_spec (A := A)) (w : mworld A) (lost : gset nat) (m : gmap nat mvar).

Notation seena := v_dat.
Definition goodA lost m : Prop := forall k v, m !! k = Some v ->
  if bool_decide (k ∈ lost) then v_fn v = None /\ v_link v = None else exists l, v = MV (Some InOrder) l l.
Definition RA s w : Prop :=
  kR cmp pol (fst s) (fst w, seena <$> snd w) /\ goodA (snd s) (snd w) /\ forall k, k ∈ snd s -> exists v, snd w !! k = Some v.

Lemma goodA_set lost m k l : goodA lost m -> goodA (found [k] lost) (<[k := MV (Some InOrder) l l]> m).
Proof.
  intros H i v [[-> <-]|[Hne Hi]]%lookup_insert_Some.
  - rewrite bool_decide_false; [eauto|]. unfold found. set_solver.
  - specialize (H _ _ Hi). rewrite (bool_decide_ext _ (i ∈ lost)); [exact H|]. unfold found. set_solver.
Qed.
Lemma goodA_same lost m k l : goodA lost m -> k ∉ lost -> goodA lost (<[k := MV (Some InOrder) l l]> m).
Proof.
  intros H Hk i v [[-> <-]|[Hne Hi]]%lookup_insert_Some; [|exact (H _ _ Hi)]. rewrite bool_decide_false by exact Hk. eauto.
Qed.
Lemma goodA_lose lost m k d : goodA lost m -> goodA (lose k lost) (<[k := MV None None d]> m).
Proof.
  intros H i v [[-> <-]|[Hne Hi]]%lookup_insert_Some.
  - rewrite bool_decide_true; [auto|]. unfold lose. set_solver.
  - specialize (H _ _ Hi). rewrite (bool_decide_ext _ (i ∈ lost)); [exact H|]. unfold lose. set_solver.
Qed.
Lemma on_tw_trees {X} (c : M (tworld A) X) t m (J : gmap nat (option nat)) :
  match on_trees c (t, J) with
  | Ok (x, (t', J')) => J' = J /\ on_tw c (t, m) = Ok (x, (t', m))
  | Abort => on_tw c (t, m) = Abort | UB => on_tw c (t, m) = UB | Diverge => on_tw c (t, m) = Diverge
  end.
Proof. unfold on_trees, on_tw. cbn [fst snd]. destruct (c t) as [[x t']| | |]; auto. Qed.

(** Calls that do not involve lost iterators do what they did before. *)
Lemma am_sim (o : kop A) t m lost : goodA lost m -> any_lost (k_moves o) lost = false ->
  (forall k j, o = KCopy k j -> j ∉ lost) ->
  match kt_step cmp o (t, seena <$> m) with
  | Ok (r, (t', J)) => exists m', am_step cmp (MOp o) (t, m) = Ok (r, (t', m')) /\ seena <$> m' = J /\ goodA (found (k_sets_of o) lost) m' /\
      forall i v, m !! i = Some v -> exists v', m' !! i = Some v'
  | Abort => am_step cmp (MOp o) (t, m) = Abort
  | _ => True
  end.
Proof.
  intros Hg Hl Hcp.
  assert (Gmove : forall j, any_lost [j] lost = false -> forall v, m !! j = Some v -> exists l, v = MV (Some InOrder) l l).
  { intros j Hj v Ev. specialize (Hg _ _ Ev). unfold any_lost in Hj. simpl in Hj. rewrite orb_false_r in Hj. rewrite Hj in Hg. exact Hg. }
  assert (Dins : forall k u, forall i v, m !! i = Some v -> exists v', <[k := u]> m !! i = Some v').
  { intros k u i v Ei. destruct (decide (k = i)) as [<-|Hne]; [rewrite lookup_insert; eauto|]. rewrite lookup_insert_ne by exact Hne. eauto. }
  destruct o as [o|k id|k id|k id x|k id j|k j|k|k j|k|k j|k j]; cbn [kt_step am_step k_moves k_sets_of] in *.
  - pose proof (on_tw_trees (t_step cmp o) t m (seena <$> m)) as P. destruct (on_trees (t_step cmp o) (t, seena <$> m)) as [[x [t' J]]| | |]; auto.
    destruct P as [-> P]. exists m. rewrite found_nil. split_and!; eauto.
  - unfold kt_begin, bind. pose proof (on_tw_trees (on id (avl_begin InOrder)) t m (seena <$> m)) as P.
    destruct (on_trees _ (t, seena <$> m)) as [[p [t' J]]| | |]; try exact I; [|rewrite P; reflexivity]. destruct P as [-> P]. rewrite P. cbn.
    eexists. split_and!; [reflexivity|rewrite fmap_insert; reflexivity|apply goodA_set, Hg|apply Dins].
  - unfold kt_end, bind. pose proof (on_tw_trees (on id (ret (X := option nat) None)) t m (seena <$> m)) as P.
    destruct (on_trees _ (t, seena <$> m)) as [[p [t' J]]| | |]; try exact I; [|rewrite P; reflexivity]. destruct P as [-> P]. rewrite P. cbn.
    eexists. split_and!; [reflexivity|rewrite fmap_insert; reflexivity|apply goodA_set, Hg|apply Dins].
  - unfold kt_find, bind. pose proof (on_tw_trees (on id (bt_find cmp x)) t m (seena <$> m)) as P.
    destruct (on_trees _ (t, seena <$> m)) as [[p [t' J]]| | |]; try exact I; [|rewrite P; reflexivity]. destruct P as [-> P]. rewrite P. cbn.
    eexists. split_and!; [reflexivity|rewrite fmap_insert; reflexivity|apply goodA_set, Hg|apply Dins].
  - unfold get_kt, get_mv, bind. cbn [snd]. rewrite lookup_fmap. destruct (m !! j) as [v|] eqn:Ej; cbn [fmap option_fmap option_map]; [|exact I].
    destruct (Gmove j Hl v Ej) as (l & ->). unfold kt_erase, av_erase, bind. cbn [seena v_fn v_link v_dat default fst snd].
    pose proof (on_tw_trees (on id (avl_erase cmp l)) t m (seena <$> m)) as P. destruct (on_trees _ (t, seena <$> m)) as [[p [t' J]]| | |]; try exact I; [|rewrite P; reflexivity].
    destruct P as [-> P]. rewrite P. cbn. eexists. split_and!; [reflexivity|rewrite fmap_insert; reflexivity|apply goodA_set, Hg|apply Dins].
  - unfold get_kt, get_mv, bind. cbn [snd]. rewrite lookup_fmap. destruct (m !! j) as [v|] eqn:Ej; cbn [fmap option_fmap option_map]; [|exact I].
    pose proof (Hg _ _ Ej) as Hv. rewrite bool_decide_false in Hv by (eapply Hcp; reflexivity). destruct Hv as (l & ->). cbn.
    eexists. split_and!; [reflexivity|rewrite fmap_insert; reflexivity|apply goodA_set, Hg|apply Dins].
  - unfold get_kt, get_mv, bind. cbn [snd]. rewrite lookup_fmap. destruct (m !! k) as [v|] eqn:Ej; cbn [fmap option_fmap option_map]; [|exact I].
    destruct (Gmove k Hl v Ej) as (l & ->). unfold kt_next, mv_next, bind. cbn [seena v_fn v_link v_dat default fst snd].
    change (next_of InOrder l) with (next_inorder (A := A) l). pose proof (on_tw_trees (on_nodes (next_inorder l)) t m (seena <$> m)) as P. destruct (on_trees _ (t, seena <$> m)) as [[p [t' J]]| | |]; try exact I; [|rewrite P; reflexivity].
    destruct P as [-> P]. rewrite P. cbn. eexists. split_and!; [reflexivity|rewrite fmap_insert; reflexivity| |apply Dins].
    rewrite found_nil. apply goodA_same; [exact Hg|]. unfold any_lost in Hl. simpl in Hl. rewrite orb_false_r in Hl. apply bool_decide_eq_false_1 in Hl. exact Hl.
  - unfold get_kt, get_mv, bind. cbn [snd]. rewrite lookup_fmap. destruct (m !! j) as [v|] eqn:Ej; cbn [fmap option_fmap option_map]; [|exact I].
    destruct (Gmove j Hl v Ej) as (l & ->). unfold kt_next, mv_next, bind. cbn [seena v_fn v_link v_dat default fst snd].
    change (next_of InOrder l) with (next_inorder (A := A) l). pose proof (on_tw_trees (on_nodes (next_inorder l)) t m (seena <$> m)) as P. destruct (on_trees _ (t, seena <$> m)) as [[p [t' J]]| | |]; try exact I; [|rewrite P; reflexivity].
    destruct P as [-> P]. rewrite P. cbn. eexists. split_and!; [reflexivity|rewrite !fmap_insert; reflexivity| |].
    + apply goodA_set, goodA_same; [exact Hg|]. unfold any_lost in Hl. simpl in Hl. rewrite orb_false_r in Hl. apply bool_decide_eq_false_1 in Hl. exact Hl.
    + intros i v Ei. destruct (Dins j (mv_at (Some InOrder) p) i v Ei) as (v1 & E1). destruct (decide (k = i)) as [<-|Hne]; [rewrite lookup_insert; eauto|]. rewrite lookup_insert_ne by exact Hne. eauto.
  - unfold get_kt, get_mv, bind. cbn [snd]. rewrite lookup_fmap. destruct (m !! k) as [v|] eqn:Ej; cbn [fmap option_fmap option_map]; [|exact I].
    cbn [seena snd]. pose proof (on_tw_trees (on_nodes (ld_val (v_dat v))) t m (seena <$> m)) as P. destruct (on_trees _ (t, seena <$> m)) as [[p [t' J]]| | |]; try exact I; [|rewrite P; reflexivity].
    destruct P as [-> P]. rewrite P. cbn. exists m. rewrite found_nil. split_and!; eauto.
  - unfold get_kt, get_mv, bind. cbn [snd]. rewrite !lookup_fmap. destruct (m !! k) as [v|] eqn:Ek; cbn [fmap option_fmap option_map]; [|exact I].
    cbn [snd]. rewrite !lookup_fmap. destruct (m !! j) as [u|] eqn:Ej; cbn [fmap option_fmap option_map]; [|exact I]. cbn. exists m. rewrite found_nil. split_and!; eauto.
  - unfold get_kt, get_mv, bind. cbn [snd]. rewrite !lookup_fmap. destruct (m !! k) as [v|] eqn:Ek; cbn [fmap option_fmap option_map]; [|exact I].
    cbn [snd]. rewrite !lookup_fmap. destruct (m !! j) as [u|] eqn:Ej; cbn [fmap option_fmap option_map]; [|exact I]. cbn. exists m. rewrite found_nil. split_and!; eauto.
Qed.

Notation F := (fun s : am_spec (A := A) => refuses pol (total (strip (k_sets (fst s))))).
Lemma am_other (o : kop A) s w : RA s w -> any_lost (k_moves o) (snd s) = false -> (forall k j, o = KCopy k j -> j ∉ snd s) ->
  magree_or RA F
    (match ks_step cmp o (fst s) with SVal (r, t) => SVal (r, (t, found (k_sets_of o) (snd s))) | SAbort => SAbort | SUnspec => SUnspec end)
    (am_step cmp (MOp o) w).
Proof.
  intros (HR & Hg & Hd) Hl Hcp. destruct s as [t lost], w as [tw m]. cbn [fst snd] in *.
  pose proof (kt_step_or cmp Hc pol o t (tw, seena <$> m) HR) as P. pose proof (am_sim o tw m lost Hg Hl Hcp) as Q.
  destruct (ks_step cmp o t) as [[r t']| |]; cbn [magree_or] in *; [|rewrite P in Q; exact Q|exact I].
  destruct P as [([tw' J] & P & HR')|[P HF]]; rewrite P in Q; [|right; auto]. left. destruct Q as (m' & Q & <- & Hg' & Hk). exists (tw', m'). split; [exact Q|].
  split_and!; [exact HR'|exact Hg'|]. cbn [fst snd]. intros k Hk'%found_sub. destruct (Hd _ Hk') as (v & Ev). exact (Hk _ _ Ev).
Qed.

Lemma kR_put t tw m k p l : kR cmp pol t (tw, seena <$> m) -> (exists j, k_its t !! j = Some p /\ (seena <$> m) !! j = Some l) ->
  kR cmp pol (put_kt t k p) (tw, <[k := l]> (seena <$> m)).
Proof.
  intros (f & H) (j & Ej & El). exists f. destruct H as (T & H1 & H2 & H3 & H4 & H5). cbn [snd] in *.
  assert (l = f <$> p) as ->. { rewrite H5, lookup_fmap, Ej in El. cbn in El. congruence. }
  refine (kR_set cmp pol f t (tw, seena <$> m) k p _ (H4 _ _ Ej)). exists T. split_and!; assumption.
Qed.
Lemma kR_has t tw m k p : kR cmp pol t (tw, seena <$> m) -> k_its t !! k = Some p -> exists v, m !! k = Some v.
Proof.
  intros (f & T & H1 & H2 & H3 & H4 & H5) E. cbn [snd] in H5. assert ((seena <$> m) !! k = Some (f <$> p)) as L by (rewrite H5, lookup_fmap, E; reflexivity).
  rewrite lookup_fmap in L. destruct (m !! k); [eauto|discriminate].
Qed.

Theorem am_step_or (o : mop (kop A)) s w : RA s w -> magree_or RA F (ams_step cmp o s) (am_step cmp o w).
Proof.
  intros H. destruct s as [t lost]. pose proof H as (HR & Hg & Hd). destruct w as [tw m]. cbn [fst snd] in *.
  assert (Put : forall k j p v, k_its t !! j = Some p -> m !! j = Some v ->
     RA (put_kt t k p, if bool_decide (j ∈ lost) then lose k lost else found [k] lost) (tw, <[k := v]> m)).
  { intros k j p v Ep Ev. pose proof (Hg _ _ Ev) as Hv. split_and!; cbn [fst snd].
    - rewrite fmap_insert. apply kR_put; [exact HR|]. exists j. split; [exact Ep|]. rewrite lookup_fmap, Ev. reflexivity.
    - destruct (bool_decide (j ∈ lost)); [destruct v as [fn l d]; cbn in Hv; destruct Hv as [-> ->]; apply goodA_lose, Hg|]. destruct Hv as (l & ->). apply goodA_set, Hg.
    - destruct (bool_decide (j ∈ lost)); [apply dom_set, Hd|]. intros i Hi%found_sub. destruct (Hd _ Hi) as (u & Eu).
      destruct (decide (k = i)) as [<-|Hki]; [rewrite lookup_insert; eauto|]. rewrite lookup_insert_ne by exact Hki. eauto. }
  destruct o as [o|k j].
  - assert (Hno : (forall k j, o = KCopy k j -> j ∉ lost) ->
      magree_or RA F (if any_lost (k_moves o) lost then SUnspec else match ks_step cmp o t with SVal (r, t) => SVal (r, (t, found (k_sets_of o) lost)) | SAbort => SAbort | SUnspec => SUnspec end) (am_step cmp (MOp o) (tw, m))).
    { intros Hcp. destruct (any_lost (k_moves o) lost) eqn:El; [exact I|]. exact (am_other o (t, lost) (tw, m) H El Hcp). }
    destruct o as [o|k id|k id|k id x|k id j|k j|k|k j|k|k j|k j]; try (apply Hno; intros; discriminate).
    cbn [ams_step]. unfold with_kt. destruct (k_its t !! j) as [p|] eqn:Ep; [|exact I]. destruct (kR_has _ _ _ _ _ HR Ep) as (v & Ev).
    left. exists (tw, <[k := v]> m). split; [|exact (Put k j p v Ep Ev)]. cbn [am_step]. unfold get_mv, bind. cbn [snd]. rewrite Ev. reflexivity.
  - cbn [ams_step]. unfold with_kt. destruct (k_its t !! j) as [p|] eqn:Ep; [|exact I]. destruct (kR_has _ _ _ _ _ HR Ep) as (v & Ev).
    pose proof (Put k j p v Ep Ev) as (HR' & Hg' & Hd'). cbn [fst snd] in *. left.
    assert (Es : exists u : mvar, (<[k := v]> m) !! j = Some u /\ v_dat u = v_dat v).
    { destruct (decide (k = j)) as [->|Hne]; [rewrite lookup_insert; eauto|]. rewrite lookup_insert_ne by exact Hne. eauto. }
    destruct Es as (u & Eu & Ed). exists (tw, <[j := MV None None (v_dat v)]> (<[k := v]> m)). split.
    + cbn [am_step]. unfold av_move, get_mv, set_mv, bind, ret. cbn [fst snd]. rewrite Ev. cbn [fst snd]. rewrite Eu, Ed. reflexivity.
    + split_and!; cbn [fst snd].
      * rewrite fmap_insert. cbn [v_dat]. rewrite insert_id; [exact HR'|]. rewrite lookup_fmap, Eu. cbn. congruence.
      * apply goodA_lose, Hg'.
      * apply dom_set, Hd'.
Qed.

Lemma RA_init : sound pol -> RA (kspec0, ∅) (tw_init pol, ∅).
Proof.
  intros Hs. split_and!; cbn [fst snd]; [rewrite fmap_empty; apply kR_init, Hs| |].
  - intros k v E. rewrite lookup_empty in E. discriminate.
  - intros k Hk. set_solver.
Qed.
Lemma am_run ops : sound pol ->
  match srun (ams_step cmp) ops (kspec0, ∅) with
  | SVal (rs, s) => (exists w, mrun (am_step cmp) ops (tw_init pol, ∅) = Ok (rs, w) /\ RA s w) \/
      (mrun (am_step cmp) ops (tw_init pol, ∅) = Abort /\
       exists ops1 ops2 rs1 s1, ops = ops1 ++ ops2 /\ srun (ams_step cmp) ops1 (kspec0, ∅) = SVal (rs1, s1) /\ F s1)
  | SAbort => mrun (am_step cmp) ops (tw_init pol, ∅) = Abort
  | SUnspec => True
  end.
Proof. intros Hs. exact (mrun_agree_or (am_step cmp) (ams_step cmp) RA F am_step_or ops (kspec0, ∅) (tw_init pol, ∅) (RA_init Hs)). Qed.
Lemma am_after ops rs s : sound pol -> grants pol -> srun (ams_step cmp) ops (kspec0, ∅) = SVal (rs, s) ->
  exists w, mrun (am_step cmp) ops (tw_init pol, ∅) = Ok (rs, w) /\ RA s w.
Proof.
  intros Hs Hg E. pose proof (am_run ops Hs) as P. rewrite E in P. destruct P as [P|(_ & ops1 & ops2 & rs1 & s1 & _ & _ & Hr)]; [exact P|]. destruct (grants_refuses _ _ Hg Hr).
Qed.
End Moves.
