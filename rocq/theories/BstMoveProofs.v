(** Iterators of binary search trees that are moved from. *)
From Verif Require Import Base Alloc AllocProofs VectorSpec Adapter Hist.
From Verif Require Import TreeModel TreeSpec TreeWorld BstWorld BstSpec BstHist ListIterSpec TreeIterModel TreeIterSpec TreeIterProofs BstIterModel BstIterSpec BstIterProofs BstIterHist BstIterRun.
From Verif Require Import IterMoveModel IterMoveSpec.
Local Open Scope nat_scope.

Lemma dom_set (lost : gset nat) (m : gmap nat mvar) k v : (forall i, i ∈ lost -> exists v, m !! i = Some v) -> forall i, i ∈ lose k lost -> exists u, <[k := v]> m !! i = Some u.
Proof.
  intros H i Hi. destruct (decide (k = i)) as [<-|Hne]; [rewrite lookup_insert; eauto|]. rewrite lookup_insert_ne by exact Hne.
  apply H. unfold lose in Hi. set_solver.
Qed.
Lemma found_sub ks (lost : gset nat) i : i ∈ found ks lost -> i ∈ lost.
Proof. unfold found. set_solver. Qed.
Lemma found_nil (lost : gset nat) : found [] lost = lost.
Proof. unfold found. apply set_eq. set_solver. Qed.

Section Moves.
Context {A : Type} (cmp : A -> A -> bool) (Hc : swo cmp) (pol : policy).
Implicit Types (s : bm_spec (A := A)) (w : mworld A) (lost : gset nat) (m : gmap nat mvar).

(** What reading and comparing see. *)
Definition seenb (v : mvar) : ttype * option nat := (default InOrder (v_fn v), v_dat v).
Definition good lost m : Prop := forall k v, m !! k = Some v ->
  if bool_decide (k ∈ lost) then v_fn v = None /\ v_link v = None else exists o l, v = MV (Some o) l l.
Definition RM s w : Prop :=
  jR cmp pol (fst s) (fst w, seenb <$> snd w) /\ good (snd s) (snd w) /\ forall k, k ∈ snd s -> exists v, snd w !! k = Some v.

Lemma good_set lost m k o l : good lost m -> good (found [k] lost) (<[k := MV (Some o) l l]> m).
Proof.
  intros H i v [[-> <-]|[Hne Hi]]%lookup_insert_Some.
  - rewrite bool_decide_false; [eauto|]. unfold found. set_solver.
  - specialize (H _ _ Hi). rewrite (bool_decide_ext _ (i ∈ lost)); [exact H|]. unfold found. set_solver.
Qed.
Lemma good_same lost m k o l : good lost m -> k ∉ lost -> good lost (<[k := MV (Some o) l l]> m).
Proof.
  intros H Hk i v [[-> <-]|[Hne Hi]]%lookup_insert_Some; [|exact (H _ _ Hi)]. rewrite bool_decide_false by exact Hk. eauto.
Qed.
Lemma good_lose lost m k d : good lost m -> good (lose k lost) (<[k := MV None None d]> m).
Proof.
  intros H i v [[-> <-]|[Hne Hi]]%lookup_insert_Some.
  - rewrite bool_decide_true; [auto|]. unfold lose. set_solver.
  - specialize (H _ _ Hi). rewrite (bool_decide_ext _ (i ∈ lost)); [exact H|]. unfold lose. set_solver.
Qed.
Lemma on_tw_bst {X} (c : M (tworld A) X) t m (J : gmap nat (ttype * option nat)) :
  match on_bst c (t, J) with
  | Ok (x, (t', J')) => J' = J /\ on_tw c (t, m) = Ok (x, (t', m))
  | Abort => on_tw c (t, m) = Abort | UB => on_tw c (t, m) = UB | Diverge => on_tw c (t, m) = Diverge
  end.
Proof. unfold on_bst, on_tw. cbn [fst snd]. destruct (c t) as [[x t']| | |]; auto. Qed.

(** Calls that do not involve lost iterators do what they did before. *)
Lemma bm_sim (o : jop A) t m lost : good lost m -> any_lost (j_moves o) lost = false ->
  (forall k j, o = JCopy k j -> j ∉ lost) ->
  match jt_step cmp o (t, seenb <$> m) with
  | Ok (r, (t', J)) => exists m', bm_step cmp (MOp o) (t, m) = Ok (r, (t', m')) /\ seenb <$> m' = J /\ good (found (j_sets o) lost) m' /\
      forall i v, m !! i = Some v -> exists v', m' !! i = Some v'
  | Abort => bm_step cmp (MOp o) (t, m) = Abort
  | _ => True
  end.
Proof.
  intros Hg Hl Hcp.
  assert (Gmove : forall j, any_lost [j] lost = false -> forall v, m !! j = Some v -> exists oo l, v = MV (Some oo) l l).
  { intros j Hj v Ev. specialize (Hg _ _ Ev). unfold any_lost in Hj. simpl in Hj. rewrite orb_false_r in Hj. rewrite Hj in Hg. exact Hg. }
  assert (Dins : forall k u, forall i v, m !! i = Some v -> exists v', <[k := u]> m !! i = Some v').
  { intros k u i v Ei. destruct (decide (k = i)) as [<-|Hne]; [rewrite lookup_insert; eauto|]. rewrite lookup_insert_ne by exact Hne. eauto. }
  destruct o as [o|k id o|k id o|k id x|k id j|k j|k|k j|k|k j|k j]; cbn [jt_step bm_step j_moves j_sets] in *.
  - pose proof (on_tw_bst (b_step cmp o) t m (seenb <$> m)) as P. destruct (on_bst (b_step cmp o) (t, seenb <$> m)) as [[x [t' J]]| | |]; auto.
    destruct P as [-> P]. exists m. rewrite found_nil. split_and!; eauto.
  - unfold jt_begin, bind. pose proof (on_tw_bst (on id (bt_begin o)) t m (seenb <$> m)) as P.
    destruct (on_bst _ (t, seenb <$> m)) as [[p [t' J]]| | |]; try exact I; [|rewrite P; reflexivity]. destruct P as [-> P]. rewrite P. cbn.
    eexists. split_and!; [reflexivity|rewrite fmap_insert; reflexivity|apply good_set, Hg|apply Dins].
  - unfold jt_end, bind. pose proof (on_tw_bst (on id (ret (X := option nat) None)) t m (seenb <$> m)) as P.
    destruct (on_bst _ (t, seenb <$> m)) as [[p [t' J]]| | |]; try exact I; [|rewrite P; reflexivity]. destruct P as [-> P]. rewrite P. cbn.
    eexists. split_and!; [reflexivity|rewrite fmap_insert; reflexivity|apply good_set, Hg|apply Dins].
  - unfold jt_find, bind. pose proof (on_tw_bst (on id (bt_find cmp x)) t m (seenb <$> m)) as P.
    destruct (on_bst _ (t, seenb <$> m)) as [[p [t' J]]| | |]; try exact I; [|rewrite P; reflexivity]. destruct P as [-> P]. rewrite P. cbn.
    eexists. split_and!; [reflexivity|rewrite fmap_insert; reflexivity|apply good_set, Hg|apply Dins].
  - unfold get_jt, get_mv, bind. cbn [snd]. rewrite lookup_fmap. destruct (m !! j) as [v|] eqn:Ej; cbn [fmap option_fmap option_map]; [|exact I].
    destruct (Gmove j Hl v Ej) as (oo & l & ->). unfold jt_erase, bv_erase, bind. cbn [seenb v_fn v_link v_dat default fst snd].
    pose proof (on_tw_bst (on id (bst_erase cmp oo l)) t m (seenb <$> m)) as P. destruct (on_bst _ (t, seenb <$> m)) as [[p [t' J]]| | |]; try exact I; [|rewrite P; reflexivity].
    destruct P as [-> P]. rewrite P. cbn. eexists. split_and!; [reflexivity|rewrite fmap_insert; reflexivity|apply good_set, Hg|apply Dins].
  - unfold get_jt, get_mv, bind. cbn [snd]. rewrite lookup_fmap. destruct (m !! j) as [v|] eqn:Ej; cbn [fmap option_fmap option_map]; [|exact I].
    pose proof (Hg _ _ Ej) as Hv. rewrite bool_decide_false in Hv by (eapply Hcp; reflexivity). destruct Hv as (oo & l & ->). cbn.
    eexists. split_and!; [reflexivity|rewrite fmap_insert; reflexivity|apply good_set, Hg|apply Dins].
  - unfold get_jt, get_mv, bind. cbn [snd]. rewrite lookup_fmap. destruct (m !! k) as [v|] eqn:Ej; cbn [fmap option_fmap option_map]; [|exact I].
    destruct (Gmove k Hl v Ej) as (oo & l & ->). unfold jt_next, mv_next, bind. cbn [seenb v_fn v_link v_dat default fst snd].
    pose proof (on_tw_bst (on_nodes (next_of oo l)) t m (seenb <$> m)) as P. destruct (on_bst _ (t, seenb <$> m)) as [[p [t' J]]| | |]; try exact I; [|rewrite P; reflexivity].
    destruct P as [-> P]. rewrite P. cbn. eexists. split_and!; [reflexivity|rewrite fmap_insert; reflexivity| |apply Dins].
    rewrite found_nil. apply good_same; [exact Hg|]. unfold any_lost in Hl. simpl in Hl. rewrite orb_false_r in Hl. apply bool_decide_eq_false_1 in Hl. exact Hl.
  - unfold get_jt, get_mv, bind. cbn [snd]. rewrite lookup_fmap. destruct (m !! j) as [v|] eqn:Ej; cbn [fmap option_fmap option_map]; [|exact I].
    destruct (Gmove j Hl v Ej) as (oo & l & ->). unfold jt_next, mv_next, bind. cbn [seenb v_fn v_link v_dat default fst snd].
    pose proof (on_tw_bst (on_nodes (next_of oo l)) t m (seenb <$> m)) as P. destruct (on_bst _ (t, seenb <$> m)) as [[p [t' J]]| | |]; try exact I; [|rewrite P; reflexivity].
    destruct P as [-> P]. rewrite P. cbn. eexists. split_and!; [reflexivity|rewrite !fmap_insert; reflexivity| |].
    + apply good_set, good_same; [exact Hg|]. unfold any_lost in Hl. simpl in Hl. rewrite orb_false_r in Hl. apply bool_decide_eq_false_1 in Hl. exact Hl.
    + intros i v Ei. destruct (Dins j (mv_at (Some oo) p) i v Ei) as (v1 & E1). destruct (decide (k = i)) as [<-|Hne]; [rewrite lookup_insert; eauto|]. rewrite lookup_insert_ne by exact Hne. eauto.
  - unfold get_jt, get_mv, bind. cbn [snd]. rewrite lookup_fmap. destruct (m !! k) as [v|] eqn:Ej; cbn [fmap option_fmap option_map]; [|exact I].
    cbn [seenb snd]. pose proof (on_tw_bst (on_nodes (ld_val (v_dat v))) t m (seenb <$> m)) as P. destruct (on_bst _ (t, seenb <$> m)) as [[p [t' J]]| | |]; try exact I; [|rewrite P; reflexivity].
    destruct P as [-> P]. rewrite P. cbn. exists m. rewrite found_nil. split_and!; eauto.
  - unfold get_jt, get_mv, bind. cbn [snd]. rewrite !lookup_fmap. destruct (m !! k) as [v|] eqn:Ek; cbn [fmap option_fmap option_map]; [|exact I].
    cbn [snd]. rewrite !lookup_fmap. destruct (m !! j) as [u|] eqn:Ej; cbn [fmap option_fmap option_map]; [|exact I]. cbn. exists m. rewrite found_nil. split_and!; eauto.
  - unfold get_jt, get_mv, bind. cbn [snd]. rewrite !lookup_fmap. destruct (m !! k) as [v|] eqn:Ek; cbn [fmap option_fmap option_map]; [|exact I].
    cbn [snd]. rewrite !lookup_fmap. destruct (m !! j) as [u|] eqn:Ej; cbn [fmap option_fmap option_map]; [|exact I]. cbn. exists m. rewrite found_nil. split_and!; eauto.
Qed.

Notation F := (fun s : bm_spec (A := A) => refuses pol (btotal (bstrip (j_trees (fst s))))).
Lemma bm_other (o : jop A) s w : RM s w -> any_lost (j_moves o) (snd s) = false -> (forall k j, o = JCopy k j -> j ∉ snd s) ->
  magree_or RM F
    (match js_step cmp o (fst s) with SVal (r, t) => SVal (r, (t, found (j_sets o) (snd s))) | SAbort => SAbort | SUnspec => SUnspec end)
    (bm_step cmp (MOp o) w).
Proof.
  intros (HR & Hg & Hd) Hl Hcp. destruct s as [t lost], w as [tw m]. cbn [fst snd] in *.
  pose proof (jt_step_or cmp Hc pol o t (tw, seenb <$> m) HR) as P. pose proof (bm_sim o tw m lost Hg Hl Hcp) as Q.
  destruct (js_step cmp o t) as [[r t']| |]; cbn [magree_or] in *; [|rewrite P in Q; exact Q|exact I].
  destruct P as [([tw' J] & P & HR')|[P HF]]; rewrite P in Q; [|right; auto]. left. destruct Q as (m' & Q & <- & Hg' & Hk). exists (tw', m'). split; [exact Q|].
  split_and!; [exact HR'|exact Hg'|]. cbn [fst snd]. intros k Hk'%found_sub. destruct (Hd _ Hk') as (v & Ev). exact (Hk _ _ Ev).
Qed.

Lemma jR_put t tw m k p l : jR cmp pol t (tw, seenb <$> m) -> (exists j, j_its t !! j = Some p /\ (seenb <$> m) !! j = Some l) ->
  jR cmp pol (put_jt t k p) (tw, <[k := l]> (seenb <$> m)).
Proof.
  intros (f & H) (j & Ej & El). exists f. destruct H as (T & H1 & H2 & H3 & H4 & H5). cbn [snd] in *.
  assert (l = place_of f p) as ->. { rewrite H5, lookup_fmap, Ej in El. cbn in El. congruence. }
  refine (jR_set cmp pol f t (tw, seenb <$> m) k p _ (H4 _ _ Ej)). exists T. split_and!; assumption.
Qed.
Lemma jR_order t tw m k o p l : jR cmp pol t (tw, seenb <$> m) -> (exists j q, j_its t !! j = Some q /\ snd q = p /\ exists oo, (seenb <$> m) !! j = Some (oo, l)) ->
  jR cmp pol (put_jt t k (o, p)) (tw, <[k := (o, l)]> (seenb <$> m)).
Proof.
  intros (f & H) (j & q & Ej & <- & oo & El). exists f. destruct H as (T & H1 & H2 & H3 & H4 & H5). cbn [snd] in *.
  assert (l = f <$> snd q) as ->. { rewrite H5, lookup_fmap, Ej in El. cbn in El. injection El. congruence. }
  refine (jR_set cmp pol f t (tw, seenb <$> m) k (o, snd q) _ (H4 _ _ Ej)). exists T. split_and!; assumption.
Qed.
Lemma jR_none t tw m k : jR cmp pol t (tw, seenb <$> m) -> jR cmp pol (put_jt t k (InOrder, None)) (tw, <[k := (InOrder, None)]> (seenb <$> m)).
Proof. intros (f & H). exists f. exact (jR_set cmp pol f t (tw, seenb <$> m) k (InOrder, None) H I). Qed.
Lemma jR_has t tw m k p : jR cmp pol t (tw, seenb <$> m) -> j_its t !! k = Some p -> exists v, m !! k = Some v.
Proof.
  intros (f & T & H1 & H2 & H3 & H4 & H5) E. cbn [snd] in H5. assert ((seenb <$> m) !! k = Some (place_of f p)) as L by (rewrite H5, lookup_fmap, E; reflexivity).
  rewrite lookup_fmap in L. destruct (m !! k); [eauto|discriminate].
Qed.

Theorem bm_step_or (o : mop (jop A)) s w : RM s w -> magree_or RM F (bms_step cmp o s) (bm_step cmp o w).
Proof.
  intros H. destruct s as [t lost]. pose proof H as (HR & Hg & Hd). destruct w as [tw m]. cbn [fst snd] in *.
  destruct o as [o|k j].
  - assert (Hno : (forall k j, o = JCopy k j -> j ∉ lost) ->
      magree_or RM F (if any_lost (j_moves o) lost then SUnspec else match js_step cmp o t with SVal (r, t) => SVal (r, (t, found (j_sets o) lost)) | SAbort => SAbort | SUnspec => SUnspec end) (bm_step cmp (MOp o) (tw, m))).
    { intros Hcp. destruct (any_lost (j_moves o) lost) eqn:El; [exact I|]. exact (bm_other o (t, lost) (tw, m) H El Hcp). }
    destruct o as [o|k id o|k id o|k id x|k id j|k j|k|k j|k|k j|k j]; try (apply Hno; intros; discriminate).
    cbn [bms_step]. destruct (bool_decide (j ∈ lost)) eqn:Ej; [|apply Hno; intros k' j' [= <- <-]; exact (bool_decide_eq_false_1 _ Ej)].
    apply bool_decide_eq_true_1 in Ej. destruct (Hd _ Ej) as (v & Ev). pose proof (Hg _ _ Ev) as Hv. rewrite bool_decide_true in Hv by exact Ej. destruct Hv as [Hf Hk].
    cbn [magree_or bm_step]. left. exists (tw, <[k := MV None None None]> m). split.
    + unfold get_mv, bind. cbn [snd]. rewrite Ev. unfold bv_copy. rewrite Hf, Hk. reflexivity.
    + split_and!; cbn [fst snd]; [rewrite fmap_insert; apply jR_none, HR|apply good_lose, Hg|apply dom_set, Hd].
  - cbn [bms_step]. unfold with_jt. destruct (j_its t !! j) as [p|] eqn:Ep; [|exact I]. destruct (jR_has _ _ _ _ _ HR Ep) as (v & Ev).
    pose proof (Hg _ _ Ev) as Hv. destruct (decide (k = j)) as [->|Hne].
    + rewrite Nat.eqb_refl, orb_true_r. left. exists (tw, <[j := MV None None None]> m). split.
      * cbn [bm_step]. unfold bv_move, get_mv, set_mv, bind, ret. cbn [fst snd]. rewrite Ev. cbn [fst snd]. rewrite lookup_insert. cbn [fst snd]. rewrite lookup_insert. cbn [fst snd]. rewrite !insert_insert. reflexivity.
      * split_and!; cbn [fst snd]; [rewrite fmap_insert; apply jR_none, HR|apply good_lose, Hg|apply dom_set, Hd].
    + rewrite (proj2 (Nat.eqb_neq k j) Hne), orb_false_r.
      assert (Hst : bm_step cmp (MMove k j) (tw, m) = Ok (OUnit, (tw, <[j := MV None None (v_dat v)]> (<[k := MV (v_fn v) (v_link v) (v_link v)]> m)))).
      { cbn [bm_step]. unfold bv_move, get_mv, set_mv, bind, ret. cbn [fst snd]. rewrite Ev. cbn [fst snd]. rewrite lookup_insert_ne, Ev by exact Hne. cbn [fst snd].
        rewrite lookup_insert_ne, lookup_insert by congruence. cbn [fst snd v_fn v_link]. rewrite (insert_commute _ k j) by exact Hne. rewrite insert_insert. reflexivity. }
      destruct (bool_decide (j ∈ lost)) eqn:Ej; cbn [magree_or].
      * destruct Hv as [Hf Hk]. left. exists (tw, <[k := MV None None None]> m). split.
        -- rewrite Hst, Hf, Hk. rewrite insert_commute by congruence. rewrite (insert_id m j); [reflexivity|]. rewrite Ev. destruct v. simpl in *. subst. reflexivity.
        -- split_and!; cbn [fst snd]; [rewrite fmap_insert; apply jR_none, HR|apply good_lose, Hg|apply dom_set, Hd].
      * destruct Hv as (oo & l & ->). cbn [v_fn v_link v_dat] in Hst. left. eexists. split; [exact Hst|]. split_and!; cbn [fst snd].
        -- rewrite fmap_insert. change (seenb (MV None None l)) with (InOrder, l). apply jR_order.
           ++ rewrite fmap_insert. apply jR_put; [exact HR|]. exists j. split; [exact Ep|]. rewrite lookup_fmap, Ev. reflexivity.
           ++ exists j, p. split_and!; [cbn [put_jt j_its]; rewrite lookup_insert_ne by exact Hne; exact Ep|reflexivity|]. exists oo. rewrite lookup_fmap, lookup_insert_ne, Ev by exact Hne. reflexivity.
        -- apply good_lose, good_set, Hg.
        -- apply dom_set. intros i Hi%found_sub. destruct (Hd _ Hi) as (u & Eu). destruct (decide (k = i)) as [<-|Hki]; [rewrite lookup_insert; eauto|]. rewrite lookup_insert_ne by exact Hki. eauto.
Qed.

Lemma RM_init : sound pol -> RM (jspec0, ∅) (tw_init pol, ∅).
Proof.
  intros Hs. split_and!; cbn [fst snd]; [rewrite fmap_empty; apply jR_init, Hs| |].
  - intros k v E. rewrite lookup_empty in E. discriminate.
  - intros k Hk. set_solver.
Qed.
Lemma bm_run ops : sound pol ->
  match srun (bms_step cmp) ops (jspec0, ∅) with
  | SVal (rs, s) => (exists w, mrun (bm_step cmp) ops (tw_init pol, ∅) = Ok (rs, w) /\ RM s w) \/
      (mrun (bm_step cmp) ops (tw_init pol, ∅) = Abort /\
       exists ops1 ops2 rs1 s1, ops = ops1 ++ ops2 /\ srun (bms_step cmp) ops1 (jspec0, ∅) = SVal (rs1, s1) /\ F s1)
  | SAbort => mrun (bm_step cmp) ops (tw_init pol, ∅) = Abort
  | SUnspec => True
  end.
Proof. intros Hs. exact (mrun_agree_or (bm_step cmp) (bms_step cmp) RM F bm_step_or ops (jspec0, ∅) (tw_init pol, ∅) (RM_init Hs)). Qed.
Lemma bm_after ops rs s : sound pol -> grants pol -> srun (bms_step cmp) ops (jspec0, ∅) = SVal (rs, s) ->
  exists w, mrun (bm_step cmp) ops (tw_init pol, ∅) = Ok (rs, w) /\ RM s w.
Proof.
  intros Hs Hg E. pose proof (bm_run ops Hs) as P. rewrite E in P. destruct P as [P|(_ & ops1 & ops2 & rs1 & s1 & _ & _ & Hr)]; [exact P|]. destruct (grants_refuses _ _ Hg Hr).
Qed.
End Moves.
