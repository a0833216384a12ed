(** Removing the entry at hand from a map under for_each, and programs in general. *)
From Verif Require Import Base Alloc AllocProofs VectorModel VectorSpec Adapter Hist.
From Verif Require Import TreeModel TreeSpec TreeBase TreeSets TreeTag TreeObj TreeWorld TreeWSpec TreeHist MapHist.
From Verif Require Import ListIterSpec ListIterProofs TreeIterModel TreeIterSpec TreeIterProofs TreeEachModel TreeEachSpec TreeEachProofs MapIterModel MapIterSpec MapIterProofs BstWorld BstSpec BstIterModel BstIterSpec BstIterTop KeyEachModel KeyEachSpec KeyEachProofs.
Local Open Scope nat_scope.

Section Pop.
Context {K V : Type} (lt : K -> K -> bool) (dflt : V) (Hlt : swo lt) (pol : policy) (Hs : sound pol) (Hg : grants pol).
Notation A := (K * V)%type.
Notation cmp := (kv_cmp (V := V) lt).
Notation step := (ns_step lt dflt).

Lemma pop_run ops rs (s : kspec (A := A)) b e it x id l fuel ops2 : NoDup [b; e; it; x] -> srun step ops kspec0 = SVal (rs, s) -> k_sets s !! id = Some l -> l <> [] ->
  (rs1 <- mrun (n_step lt dflt) (ops ++ [NBegin b id; NEnd e id]) ;; c <- prun (n_step lt dflt) (meach (S fuel) b e it x (popping x id) []) ;; rs2 <- mrun (n_step lt dflt) ops2 ;; ret (rs1, c, rs2)) (tw_init pol, ∅) = UB.
Proof.
  intros Hnd E El Hl. destruct (m_start lt dflt ops rs s b e it x id l (popping x id) (S fuel) Hnd E El Hl) as (s1 & E1 & _ & Hr & Hk & Hi & He).
  set (s2 := put_kt s1 it (first_num l)) in *. pose proof El as El0. rewrite <- Hk in El. clear Hk. rewrite !NoDup_cons, !elem_of_cons in Hnd.
  destruct l as [|[n [k v]] vs]; [contradiction|]. cbn [first_num head fmap option_fmap option_map fst] in Hi.
  assert (Hb : k_its s1 !! b = Some (Some n)).
  { pose proof E1 as E1'. rewrite srun_app, E in E1'. cbn [srun ns_step ks_step] in E1'. unfold with_set in E1'. rewrite El0 in E1'.
    cbn [as_answer sthen fst snd move_kt put_kt k_sets] in E1'. rewrite El0 in E1'. cbn in E1'. injection E1' as <-. cbn [put_kt k_its].
    rewrite lookup_insert_ne, lookup_insert by naive_solver. reflexivity. }
  assert (Ws : where_is n (k_sets s2) = Some (id, ([], (k, v), vs))) by exact (r_where lt dflt Hlt s2 id [] n (k, v) vs Hr El).
  set (s3 := put_kt s2 x (Some n)). change (where_is n (k_sets s3) = Some (id, ([], (k, v), vs))) in Ws.
  assert (H0 : step (NCopy it b) s1 = SVal (MUnit, s2)) by (cbn [ns_step ks_step]; unfold with_kt; rewrite Hb; reflexivity).
  assert (H1 : step (NNe it e) s2 = SVal (MBool true, s2)) by (cbn [ns_step ks_step]; unfold with_kt; rewrite Hi, He; cbn [valid_num]; change (k_sets s2) with (k_sets s3); rewrite Ws; reflexivity).
  assert (H2 : step (NRead it) s2 = SVal (MOpt (Some (k, v)), s2)) by (cbn [ns_step ks_step]; unfold with_kt; rewrite Hi; change (k_sets s2) with (k_sets s3); rewrite Ws; reflexivity).
  assert (H3 : step (NCopy x it) s2 = SVal (MUnit, s3)) by (cbn [ns_step ks_step]; unfold with_kt; rewrite Hi; reflexivity).
  assert (H4 : step (NRead x) s3 = SVal (MOpt (Some (k, v)), s3)) by (cbn [ns_step ks_step]; unfold with_kt; cbn [s3 put_kt k_its]; rewrite lookup_insert; fold s3; rewrite Ws; reflexivity).
  pose proof (fun o (s : kspec (A := A)) w (H : kR cmp pol s w) => magree_or_no _ _ _ _ (fun s' Hr => grants_refuses _ _ Hg Hr) (n_step_or lt dflt Hlt pol o s w H)) as Hst.
  pose proof (n_run lt dflt Hlt pol (ops ++ [NBegin b id; NEnd e id]) Hs) as R. rewrite E1 in R.
  destruct R as [(w1 & R1 & K1)|(_ & o1 & o2 & r1 & sx & _ & _ & Hx)]; [|destruct (grants_refuses _ _ Hg Hx)].
  rewrite (bind_ok _ _ _ _ _ R1). apply bind_ub.
  unfold meach. cbn [prun].
  pose proof (Hst (NCopy it b) s1 w1 K1) as Q. rewrite H0 in Q. destruct Q as (w2 & Q0 & K2). rewrite (bind_ok _ _ _ _ _ Q0). clear Q0.
  cbn [meach_loop prun].
  pose proof (Hst (NNe it e) s2 w2 K2) as Q. rewrite H1 in Q. destruct Q as (w3 & Q0 & K3). rewrite (bind_ok _ _ _ _ _ Q0). clear Q0. cbn [prun].
  pose proof (Hst (NRead it) s2 w3 K3) as Q. rewrite H2 in Q. destruct Q as (w4 & Q0 & K4). rewrite (bind_ok _ _ _ _ _ Q0). clear Q0. cbn [prun].
  pose proof (Hst (NCopy x it) s2 w4 K4) as Q. rewrite H3 in Q. destruct Q as (w5 & Q0 & K5). rewrite (bind_ok _ _ _ _ _ Q0). clear Q0. unfold popping at 1, entry. cbn [prun pthen].
  pose proof (Hst (NRead x) s3 w5 K5) as Q. rewrite H4 in Q. destruct Q as (w6 & Q0 & K6). rewrite (bind_ok _ _ _ _ _ Q0). clear Q0. cbn [prun pthen].
  destruct K6 as (f & K6).
  pose proof (client_near cmp (kv_swo lt Hlt) pol Hg (TDo (KTree (TPop id (k, dflt))) (fun _ => TDone tt)) f s3 w6 K6) as Q.
  assert (Hr3 : reach step kspec0 s3) by exact (reach_step _ _ _ _ _ _ Hr H3).
  pose proof (pop_first lt dflt Hlt s3 id n k v vs Hr3 El) as Hp. cbn [ns_step maps_step as_top] in Hp. cbn [tclient_spec ks_step] in Q.
  destruct (trees_step cmp (TPop id (k, dflt)) s3) as [[r s4]| |] eqn:Et; [|discriminate|discriminate]. cbn in Hp. injection Hp as _ ->. cbn [magree tclient_run] in Q.
  destruct Q as (w7 & Q0 & Hn & g & Hgf & K7).
  assert (Q1 : n_step lt dflt (NMap (MPop id (fst (k, v)))) w6 = Ok (MUnit, w7)).
  { cbn [fst]. revert Q0. cbn [n_step kt_step]. unfold bind, on_trees. cbn [m_step t_step]. unfold bind, map_pop. destruct (on id (avl_pop cmp (k, dflt)) (fst w6)) as [[[] w']| | |]; try discriminate.
    cbn. intros [= <-]. reflexivity. }
  rewrite (bind_ok _ _ _ _ _ Q1). cbn [prun]. apply bind_ub.
  set (s5 := KSpec (<[id := vs]> (k_sets s3)) (k_next s3) (k_its s3)) in *.
  assert (Hi5 : k_its s5 !! it = Some (Some n)) by (cbn [s5 k_its s3 put_kt]; rewrite lookup_insert_ne by naive_solver; exact Hi).
  assert (Hgone : where_is n (k_sets s5) = None).
  { destruct (where_is n (k_sets s5)) as [[j [[us a] vs']]|] eqn:Ew; [exfalso|reflexivity]. apply where_is_some in Ew. cbn [s5 k_sets] in Ew.
    destruct (decide (j = id)) as [->|Hj].
    - rewrite lookup_insert in Ew. injection Ew as ->. pose proof (r_where lt dflt Hlt s3 id ((n, (k, v)) :: us) n a vs' Hr3 El) as Ew2. rewrite Ws in Ew2. discriminate.
    - rewrite lookup_insert_ne in Ew by congruence. pose proof (r_where lt dflt Hlt s3 j us n a vs' Hr3 Ew) as Ew2. rewrite Ws in Ew2. congruence. }
  assert (Hold : old s3 s5).
  { eapply old_put; [cbn; lia|reflexivity|]. intros m y Hin _. exists ((n, (k, v)) :: vs). split; [exact El|right; exact Hin]. }
  pose proof (kt_next_gone cmp pol f g s3 s5 w6 w7 n id [] (k, v) vs K6 K7 Hold eq_refl Hgf Ws Hgone) as Q.
  pose proof (get_kt_ok cmp pol g s5 w7 it (Some n) K7 Hi5) as Q2.
  assert (Hnb : n < k_next s3) by exact (kt_below cmp pol g s5 w7 it (Some n) K7 Hi5).
  cbn [fmap option_fmap option_map] in Q2. rewrite (Hgf n Hnb) in Q2.
  cbn [n_step]. unfold n_it. cbn [kt_step]. apply bind_ub. rewrite (bind_ok _ _ _ _ _ Q2). apply bind_ub. exact Q.
Qed.
End Pop.

(** ** Any program *)
Lemma map_program {K V : Type} (lt : K -> K -> bool) (dflt : V) : swo lt -> forall pol, sound pol -> grants pol -> forall (C : Type) (p : prog (nop K V) (mout (K := K) (V := V)) C),
  match pspec (ns_step lt dflt) p kspec0 with
  | GEnd (c, _) => exists w, prun (n_step lt dflt) p (tw_init pol, ∅) = Ok (c, w)
  | GMore => prun (n_step lt dflt) p (tw_init pol, ∅) = Diverge
  | GAbort => prun (n_step lt dflt) p (tw_init pol, ∅) = Abort
  | GUnspec => True
  end.
Proof. intros Hlt pol Hs Hg C p. apply prog_history. apply m_hist; assumption. Qed.
Lemma tree_program {A : Type} (cmp : A -> A -> bool) : swo cmp -> forall pol, sound pol -> grants pol -> forall (C : Type) (p : prog (jop A) (tout A) C),
  match pspec (js_step cmp) p jspec0 with
  | GEnd (c, _) => exists w, prun (jt_step cmp) p (tw_init pol, ∅) = Ok (c, w)
  | GMore => prun (jt_step cmp) p (tw_init pol, ∅) = Diverge
  | GAbort => prun (jt_step cmp) p (tw_init pol, ∅) = Abort
  | GUnspec => True
  end.
Proof. intros Hlt pol Hs Hg C p. apply prog_history. intros ops. apply j_history; assumption. Qed.
