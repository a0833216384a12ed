(** Client programs do what their specification says, and what particular callbacks of
    for_each come to. *)
From Coq Require Import Sorted.
From Verif Require Import Base Alloc AllocProofs VectorModel VectorSpec Adapter Hist ListSpec.
From Verif Require Import TreeModel TreeSpec TreeBase TreeSets TreeTag TreeObj TreeWorld TreeWSpec TreeHist MapHist BstWorld BstSpec BstObj BstHist.
From Verif Require Import ListIterSpec ListIterProofs TreeIterModel TreeIterSpec TreeIterProofs MapIterModel MapIterSpec MapIterProofs.
From Verif Require Import BstIterModel BstIterSpec BstIterProofs BstIterHist BstIterRun BstIterTop KeyEachModel KeyEachSpec.
Local Open Scope nat_scope.

(** ** From histories to programs: a program is a history chosen on the way *)
Section Programs.
Context {W S O P : Type} (step : O -> M W P) (sstep : O -> S -> sres (P * S)) (w0 : W) (s0 : S).
Definition histories : Prop := forall ops,
  match srun sstep ops s0 with
  | SVal (rs, _) => exists w, mrun step ops w0 = Ok (rs, w)
  | SAbort => mrun step ops w0 = Abort
  | SUnspec => True
  end.
Definition reach (s : S) : Prop := exists ops rs, srun sstep ops s0 = SVal (rs, s).
Lemma reach0 : reach s0.
Proof. exists [], []. reflexivity. Qed.
Lemma reach_step o s r s' : reach s -> sstep o s = SVal (r, s') -> reach s'.
Proof. intros (ops & rs & E) Eo. exists (ops ++ [o]), (rs ++ [r]). rewrite srun_app, E. cbn [srun]. rewrite Eo. reflexivity. Qed.
Lemma reach_prog {C} (p : prog O P C) : forall s c s', reach s -> pspec sstep p s = GEnd (c, s') -> reach s'.
Proof.
  induction p as [c|  |o k IH]; intros s c' s' Hr E; cbn [pspec] in E; [injection E as _ <-; exact Hr|discriminate|].
  destruct (sstep o s) as [[r s1]| |] eqn:Eo; try discriminate. exact (IH _ _ _ _ (reach_step _ _ _ _ Hr Eo) E).
Qed.
Lemma prog_after {C} (p : prog O P C) : histories -> forall ops rs s w, srun sstep ops s0 = SVal (rs, s) -> mrun step ops w0 = Ok (rs, w) ->
  match pspec sstep p s with
  | GEnd (c, _) => exists w', prun step p w = Ok (c, w')
  | GMore => prun step p w = Diverge
  | GAbort => prun step p w = Abort
  | GUnspec => True
  end.
Proof.
  intros Hh. induction p as [c|  |o k IH]; intros ops rs s w E R; cbn [pspec prun].
  - exists w. reflexivity.
  - reflexivity.
  - specialize (Hh (ops ++ [o])). rewrite srun_app, E in Hh. cbn [srun] in Hh. rewrite (mrun_app _ _ _ _ _ _ R) in Hh. cbn [mrun] in Hh.
    unfold bind in Hh |- *. destruct (sstep o s) as [[r s1]| |] eqn:Eo; [| |exact I].
    + destruct Hh as (w1 & Hh). destruct (step o w) as [[r' w']| | |] eqn:Ew; cbn in Hh; try discriminate. injection Hh as Hr _. apply app_inv_head in Hr. injection Hr as ->.
      apply (IH r (ops ++ [o]) (rs ++ [r]) s1 w').
      * rewrite srun_app, E. cbn [srun]. rewrite Eo. reflexivity.
      * rewrite (mrun_app _ _ _ _ _ _ R). cbn [mrun]. unfold bind. rewrite Ew. reflexivity.
    + destruct (step o w) as [[r' w']| | |]; cbn in Hh; try discriminate. reflexivity.
Qed.
Lemma prog_history {C} (p : prog O P C) : histories ->
  match pspec sstep p s0 with
  | GEnd (c, _) => exists w', prun step p w0 = Ok (c, w')
  | GMore => prun step p w0 = Diverge
  | GAbort => prun step p w0 = Abort
  | GUnspec => True
  end.
Proof. intros Hh. apply (prog_after p Hh [] []); reflexivity. Qed.
Lemma pspec_then {C D} (p : prog O P C) (k : C -> prog O P D) : forall s, pspec sstep (pthen p k) s =
  match pspec sstep p s with GEnd (c, s') => pspec sstep (k c) s' | GMore => GMore | GAbort => GAbort | GUnspec => GUnspec end.
Proof. induction p as [c|  |o f IH]; intros s; cbn [pthen pspec]; [reflexivity|reflexivity|]. destruct (sstep o s) as [[r s1]| |]; [apply IH|reflexivity|reflexivity]. Qed.
(** Calls, then a program, then calls. *)
Lemma run_around {C} (p : prog O P C) ops rs s ops2 c s' rs2 s2 : histories -> srun sstep ops s0 = SVal (rs, s) -> pspec sstep p s = GEnd (c, s') -> srun sstep ops2 s' = SVal (rs2, s2) ->
  exists w, (rs1 <- mrun step ops ;; c <- prun step p ;; rs2 <- mrun step ops2 ;; ret (rs1, c, rs2)) w0 = Ok (rs, c, rs2, w).
Proof.
  intros Hh E Ep E2. pose proof (Hh ops) as H1. rewrite E in H1. destruct H1 as [w R].
  set (calls := fix calls ops := match ops with [] => Done (O := O) (P := P) [] | o :: ops => Do o (fun r => pthen (calls ops) (fun rs => Done (r :: rs))) end).
  assert (Hc : forall ops s rs s', srun sstep ops s = SVal (rs, s') -> pspec sstep (calls ops) s = GEnd (rs, s')).
  { clear. induction ops as [|o ops IH]; intros s rs s'; cbn [srun calls pspec]; [intros [= <- <-]; reflexivity|]. destruct (sstep o s) as [[r s1]| |]; try discriminate.
    destruct (srun sstep ops s1) as [[rs1 s3]| |] eqn:E; try discriminate. intros [= <- <-]. rewrite pspec_then. fold calls. rewrite (IH _ _ _ E). reflexivity. }
  assert (Ht : forall D E (p : prog O P D) (k : D -> prog O P E) w, prun step (pthen p k) w = (x <- prun step p ;; prun step (k x)) w).
  { clear. intros D E p k. induction p as [c|  |o f IH]; intros w; cbn [pthen prun]; [reflexivity|reflexivity|]. unfold bind in *. destruct (step o w) as [[r w1]| | |]; [apply IH|reflexivity..]. }
  assert (Hm : forall ops w, prun step (calls ops) w = mrun step ops w).
  { clear - Ht. induction ops as [|o ops IH]; intros w; cbn [calls prun mrun]; [reflexivity|]. fold calls. unfold bind at 1 2. destruct (step o w) as [[r w1]| | |]; try reflexivity.
    rewrite Ht. unfold bind. rewrite IH. reflexivity. }
  pose proof (prog_after (pthen p (fun c => pthen (calls ops2) (fun rs2 => Done (c, rs2)))) Hh ops rs s w E R) as H. rewrite pspec_then, Ep, pspec_then, (Hc _ _ _ _ E2) in H. cbn [pspec] in H.
  destruct H as [w' H]. rewrite Ht in H. unfold bind in H |- *. rewrite R. destruct (prun step p w) as [[c1 w1]| | |]; try discriminate. rewrite Ht in H. unfold bind in H. rewrite Hm in H.
  destruct (mrun step ops2 w1) as [[rs1 w3]| | |]; try discriminate. injection H as -> -> ->. exists w'. reflexivity.
Qed.
End Programs.

(** ** Maps *)
Section Maps.
Context {K V : Type} (lt : K -> K -> bool) (dflt : V) (Hlt : swo lt).
Notation A := (K * V)%type.
Notation cmp := (kv_cmp (V := V) lt).
Notation step := (ns_step lt dflt).
Notation kspec := (kspec (A := A)).
Notation reach := (reach step kspec0).
Implicit Types (s : kspec) (vs us : list (nat * A)).

Lemma r_where s id us n a vs : reach s -> k_sets s !! id = Some (us ++ (n, a) :: vs) -> where_is n (k_sets s) = Some (id, (us, a, vs)).
Proof. intros (ops & rs & E). exact (n_where lt dflt Hlt ops rs s id us n a vs E). Qed.
Lemma r_asc s id l : reach s -> k_sets s !! id = Some l -> ascending (by_val cmp) l.
Proof. intros (ops & rs & E) El. exact (proj1 (n_asc lt dflt Hlt ops rs s id l E El)). Qed.
Lemma r_put s k p : reach s -> (exists j, k_its s !! j = Some p) -> reach (put_kt s k p).
Proof. intros Hr [j Hj]. apply (reach_step _ _ (NCopy k j) s MUnit _ Hr). cbn [ns_step ks_step]. unfold with_kt. rewrite Hj. reflexivity. Qed.

Lemma m_end {C} fuel e it x (cb : C -> prog _ _ C) c s : k_its s !! it = Some None -> k_its s !! e = Some None -> pspec step (meach_loop fuel e it x cb c) s = GEnd (c, s).
Proof. intros Hi He. destruct fuel; cbn [meach_loop pspec ns_step ks_step]; unfold with_kt; rewrite Hi, He; cbn; reflexivity. Qed.
Lemma m_round {C} fuel e it x (cb : C -> prog _ _ C) c s id n us a vs c' s' id' us' a' vs' : reach s ->
  k_its s !! it = Some (Some n) -> k_its s !! e = Some None -> k_sets s !! id = Some (us ++ (n, a) :: vs) ->
  pspec step (cb c) (put_kt s x (Some n)) = GEnd (c', s') -> k_its s' !! it = Some (Some n) -> k_sets s' !! id' = Some (us' ++ (n, a') :: vs') ->
  pspec step (meach_loop (S fuel) e it x cb c) s = pspec step (meach_loop fuel e it x cb c') (put_kt s' it (first_num vs')) /\ reach (put_kt s' it (first_num vs')).
Proof.
  intros Hr Hi He El Ecb Hi' El'. pose proof (r_where _ _ _ _ _ _ Hr El) as Hw.
  assert (Hr1 : reach (put_kt s x (Some n))) by (apply r_put; [exact Hr|exists it; exact Hi]).
  pose proof (reach_prog _ _ _ _ _ _ Hr1 Ecb) as Hr2. pose proof (r_where _ _ _ _ _ _ Hr2 El') as Hw'.
  assert (En : step (NNext it) s' = SVal (MUnit, put_kt s' it (first_num vs'))).
  { cbn [ns_step ks_step]. unfold with_kt. rewrite Hi'. cbn [next_num]. rewrite Hw'. reflexivity. }
  split; [|exact (reach_step _ _ _ _ _ _ Hr2 En)].
  cbn [meach_loop pspec]. 
  assert (E1 : step (NNe it e) s = SVal (MBool true, s)).
  { cbn [ns_step ks_step]. unfold with_kt. rewrite Hi, He. cbn [valid_num]. rewrite Hw. cbn. reflexivity. }
  assert (E2 : step (NRead it) s = SVal (MOpt (Some a), s)).
  { cbn [ns_step ks_step]. unfold with_kt. rewrite Hi, Hw. reflexivity. }
  assert (E3 : step (NCopy x it) s = SVal (MUnit, put_kt s x (Some n))).
  { cbn [ns_step ks_step]. unfold with_kt. rewrite Hi. reflexivity. }
  rewrite E1. cbn [pspec]. rewrite E2. cbn [pspec]. rewrite E3. rewrite pspec_then, Ecb. cbn [pspec]. rewrite En. reflexivity.
Qed.
(** What the callback sees through its parameter. *)
Lemma m_entry x seen k s id n us a vs : reach s -> k_its s !! x = Some (Some n) -> k_sets s !! id = Some (us ++ (n, a) :: vs) -> pspec step (entry x seen k) s = pspec step (k a) s.
Proof.
  intros Hr Hx El. unfold entry. cbn [pspec ns_step ks_step]. unfold with_kt. rewrite Hx, (r_where _ _ _ _ _ _ Hr El). reflexivity.
Qed.
Definition news_of (f : K -> V -> V) vs : list (nat * A) := map (fun p => (fst p, (fst (snd p), f (fst (snd p)) (snd (snd p))))) vs.

Lemma updating_spec f e it x id : NoDup [e; it; x] -> forall vs fuel us seen s, reach s -> length vs <= fuel ->
  k_its s !! it = Some (first_num vs) -> k_its s !! e = Some None -> k_sets s !! id = Some (us ++ vs) ->
  exists s', pspec step (meach_loop fuel e it x (updating x f) seen) s = GEnd (seen ++ vs.*2, s') /\ k_sets s' !! id = Some (us ++ news_of f vs).
Proof.
  intros Hnd. rewrite !NoDup_cons, !elem_of_cons in Hnd. induction vs as [|[n [k v]] vs IH]; intros fuel us seen s Hr Hf Hi He El.
  - exists s. split; [|exact El]. rewrite (m_end _ _ _ _ _ _ _ Hi He), app_nil_r. reflexivity.
  - destruct fuel as [|fuel]; [cbn in Hf; lia|]. cbn in Hf. cbn [first_num head fmap option_fmap option_map fst] in Hi.
    assert (Hr1 : reach (put_kt s x (Some n))) by (apply r_put; [exact Hr|exists it; exact Hi]).
    set (s1 := KSpec (<[id := us ++ (n, (k, f k v)) :: vs]> (k_sets s)) (k_next s) (<[x := Some n]> (k_its s))).
    destruct (m_round fuel e it x (updating x f) seen s id n us (k, v) vs (seen ++ [(k, v)]) s1 id us (k, f k v) vs Hr Hi He El) as [E Hr2].
    + unfold updating. rewrite (m_entry x seen _ _ id n us (k, v) vs Hr1 (lookup_insert _ _ _) El). cbn [pspec ns_step fst snd]. unfold with_kt. cbn [put_kt k_its]. rewrite lookup_insert.
      unfold put_val. rewrite (r_where _ _ _ _ _ _ Hr1 El). reflexivity.
    + cbn [s1 k_its]. rewrite lookup_insert_ne by naive_solver. exact Hi.
    + apply lookup_insert.
    + rewrite E. destruct (IH fuel (us ++ [(n, (k, f k v))]) (seen ++ [(k, v)]) _ Hr2 ltac:(lia)) as (s' & E' & El').
      * apply lookup_insert.
      * cbn [put_kt k_its s1]. rewrite !lookup_insert_ne by naive_solver. exact He.
      * cbn [put_kt k_sets s1]. rewrite lookup_insert, <- app_assoc. reflexivity.
      * exists s'. rewrite E', El', <- !app_assoc. split; reflexivity.
Qed.

(** Removing the first entry. *)
Lemma pop_first s id n k v vs : reach s -> k_sets s !! id = Some ((n, (k, v)) :: vs) ->
  step (NMap (MPop id k)) s = SVal (MUnit, KSpec (<[id := vs]> (k_sets s)) (k_next s) (k_its s)).
Proof.
  intros Hr El. pose proof (r_asc _ _ _ Hr El) as Ha. change ((n, (k, v)) :: vs) with ([] ++ (n, (k, v)) :: vs) in Ha.
  pose proof (tcmp_swo cmp (kv_swo lt Hlt)) as Hct.
  assert (Hq : equiv (by_val cmp) (k_next s, (k, dflt)) (n, (k, v))).
  { unfold equiv, by_val, kv_cmp. cbn [snd fst]. destruct Hlt as [Hl _]. destruct (lt k k) eqn:E; [|split; reflexivity]. pose proof (Hl _ _ E). congruence. }
  cbn [ns_step maps_step as_top]. unfold trees_step. cbn [top_map ts_step]. unfold with_set. rewrite El.
  pose proof (lookup_eq (by_val cmp) Hct _ _ _ Ha _ Hq) as P. cbn [app] in P. rewrite P.
  pose proof (remove_eq (by_val cmp) Hct _ _ _ Ha _ Hq) as P2. cbn [app] in P2. rewrite P2. reflexivity.
Qed.
Lemma dropping_spec e it x id : NoDup [e; it; x] -> forall vs fuel n k v seen s, reach s -> length vs <= fuel -> last seen = Some (k, v) ->
  k_its s !! it = Some (first_num vs) -> k_its s !! e = Some None -> k_sets s !! id = Some ((n, (k, v)) :: vs) ->
  exists s' m z, pspec step (meach_loop fuel e it x (dropping x id) seen) s = GEnd (seen ++ vs.*2, s') /\ k_sets s' !! id = Some [(m, z)] /\ last ((k, v) :: vs.*2) = Some z.
Proof.
  intros Hnd. rewrite !NoDup_cons, !elem_of_cons in Hnd. induction vs as [|[n [k v]] vs IH]; intros fuel n0 k0 v0 seen s Hr Hf Hs Hi He El.
  - exists s, n0, (k0, v0). split; [|split; [exact El|reflexivity]]. rewrite (m_end _ _ _ _ _ _ _ Hi He), app_nil_r. reflexivity.
  - destruct fuel as [|fuel]; [cbn in Hf; lia|]. cbn in Hf. cbn [first_num head fmap option_fmap option_map fst] in Hi.
    assert (Hr1 : reach (put_kt s x (Some n))) by (apply r_put; [exact Hr|exists it; exact Hi]).
    set (s1 := KSpec (<[id := (n, (k, v)) :: vs]> (k_sets s)) (k_next s) (<[x := Some n]> (k_its s))).
    destruct (m_round fuel e it x (dropping x id) seen s id n [(n0, (k0, v0))] (k, v) vs (seen ++ [(k, v)]) s1 id [] (k, v) vs Hr Hi He El) as [E Hr2].
    + unfold dropping. rewrite (m_entry x seen _ _ id n [(n0, (k0, v0))] (k, v) vs Hr1 (lookup_insert _ _ _) El). rewrite Hs. cbn [pspec fst].
      rewrite (pop_first _ id n0 k0 v0 ((n, (k, v)) :: vs) Hr1 El). reflexivity.
    + cbn [s1 k_its]. rewrite lookup_insert_ne by naive_solver. exact Hi.
    + apply lookup_insert.
    + rewrite E. destruct (IH fuel n k v (seen ++ [(k, v)]) _ Hr2 ltac:(lia)) as (s' & m & z & E' & El' & Hz).
      * apply last_snoc.
      * apply lookup_insert.
      * cbn [put_kt k_its s1]. rewrite !lookup_insert_ne by naive_solver. exact He.
      * cbn [put_kt k_sets s1]. apply lookup_insert.
      * exists s', m, z. rewrite E', <- !app_assoc. split; [reflexivity|]. split; [exact El'|exact Hz].
Qed.

(** Assigning to a map leaves the others and the iterators alone. *)
Lemma set_frame s i k v l : reach s -> k_sets s !! i = Some l -> exists s' l', step (NMap (MSet i k v)) s = SVal (MUnit, s') /\ k_its s' = k_its s /\
  k_sets s' !! i = Some l' /\ l'.*2 = put_key lt k v l.*2 /\ forall j, j <> i -> k_sets s' !! j = k_sets s !! j.
Proof.
  intros (ops & rs & E) El. pose proof (n_maps lt dflt Hlt ops rs s (MSet i k v) E) as P. cbn [ms_step] in P. unfold with_set in P.
  unfold strip in P at 1. rewrite lookup_fmap, El in P. cbn [fmap option_fmap option_map] in P.
  destruct (ns_step lt dflt (NMap (MSet i k v)) s) as [[r s']| |] eqn:Es; try discriminate. injection P as <- Hst. exists s'.
  assert (Hl : strip (k_sets s') !! i = Some (put_key lt k v l.*2)) by (rewrite <- Hst; apply lookup_insert).
  unfold strip in Hl. rewrite lookup_fmap in Hl. destruct (k_sets s' !! i) as [l'|] eqn:El'; [|discriminate]. injection Hl as Hl. exists l'. split; [reflexivity|].
  cbn [ns_step maps_step] in Es. destruct (ref_of lt dflt i k s) as [[m s1]| |] eqn:Er; [|discriminate|discriminate]. cbn [sthen fst snd] in Es.
  destruct (put_val m v s1) as [s2| |] eqn:Ep; [|discriminate|discriminate]. injection Es as <-.
  pose proof (n_ref_run lt dflt _ _ _ _ _ _ _ E Er) as E1. destruct (ref_keeps lt dflt Hlt _ _ _ _ _ Er) as [(us1 & k' & v1 & vs1 & El1 & _) _].
  pose proof (n_where lt dflt Hlt _ _ _ _ _ _ _ _ E1 El1) as Ew. cbn [put_kt k_sets] in Ew. unfold put_val in Ep. rewrite Ew in Ep. injection Ep as <-. cbn [k_its k_sets].
  assert (Hs1 : k_its s1 = k_its s /\ forall j, j <> i -> k_sets s1 !! j = k_sets s !! j).
  { unfold ref_of, with_set in Er. rewrite El in Er. destruct (at_key lt k l); injection Er as <- <-; [split; reflexivity|]. cbn [k_its k_sets]. split; [reflexivity|].
    intros j Hj. apply lookup_insert_ne. congruence. }
  destruct Hs1 as [Hs1 Hs2]. split; [exact Hs1|]. split; [reflexivity|]. split; [exact Hl|]. intros j Hj. rewrite lookup_insert_ne by congruence. apply Hs2, Hj.
Qed.
Lemma filling_spec g e it x id dst : NoDup [e; it; x] -> id <> dst -> forall vs fuel us seen s l, reach s -> length vs <= fuel ->
  k_its s !! it = Some (first_num vs) -> k_its s !! e = Some None -> k_sets s !! id = Some (us ++ vs) -> k_sets s !! dst = Some l ->
  exists s' l', pspec step (meach_loop fuel e it x (filling x dst g) seen) s = GEnd (seen ++ vs.*2, s') /\ k_sets s' !! id = Some (us ++ vs) /\
    k_sets s' !! dst = Some l' /\ l'.*2 = fold_left (fun l kv => put_key lt (fst (g kv)) (snd (g kv)) l) vs.*2 l.*2.
Proof.
  intros Hnd Hid. rewrite !NoDup_cons, !elem_of_cons in Hnd. induction vs as [|[n a] vs IH]; intros fuel us seen s l Hr Hf Hi He El Ed.
  - exists s, l. rewrite (m_end _ _ _ _ _ _ _ Hi He), app_nil_r in *. cbn. rewrite app_nil_r in *. auto.
  - destruct fuel as [|fuel]; [cbn in Hf; lia|]. cbn in Hf. cbn [first_num head fmap option_fmap option_map fst] in Hi.
    assert (Hr1 : reach (put_kt s x (Some n))) by (apply r_put; [exact Hr|exists it; exact Hi]).
    destruct (set_frame _ dst (fst (g a)) (snd (g a)) l Hr1 Ed) as (s1 & l1 & E1 & Hits & Ed1 & Hl1 & Ho).
    destruct (m_round fuel e it x (filling x dst g) seen s id n us a vs (seen ++ [a]) s1 id us a vs Hr Hi He El) as [E Hr2].
    + unfold filling. rewrite (m_entry x seen _ _ id n us a vs Hr1 (lookup_insert _ _ _) El). cbn [pspec]. rewrite E1. reflexivity.
    + rewrite Hits. cbn [put_kt k_its]. rewrite lookup_insert_ne by naive_solver. exact Hi.
    + rewrite Ho by exact Hid. exact El.
    + rewrite E. destruct (IH fuel (us ++ [(n, a)]) (seen ++ [a]) _ l1 Hr2 ltac:(lia)) as (s' & l' & E' & El' & Ed' & Hl').
      * apply lookup_insert.
      * cbn [put_kt k_its]. rewrite Hits. cbn [put_kt k_its]. rewrite !lookup_insert_ne by naive_solver. exact He.
      * cbn [put_kt k_sets]. rewrite Ho by exact Hid. cbn [put_kt k_sets]. rewrite El, <- app_assoc. reflexivity.
      * exact Ed1.
      * exists s', l'. rewrite E', El', Hl', <- !app_assoc. split; [reflexivity|]. split; [reflexivity|]. split; [exact Ed'|]. rewrite Hl1. reflexivity.
Qed.

(** ** Whole runs *)
Context (pol : policy) (Hs : sound pol) (Hg : grants pol).
Notation run ops b e fuel it x id cb ops2 :=
  ((rs1 <- mrun (n_step lt dflt) (ops ++ [NBegin b id; NEnd e id]) ;; c <- prun (n_step lt dflt) (meach fuel b e it x cb []) ;; rs2 <- mrun (n_step lt dflt) ops2 ;; ret (rs1, c, rs2)) (tw_init pol, ∅)).
Lemma m_start ops rs s b e it x id l (cb : list A -> prog _ _ (list A)) fuel : NoDup [b; e; it; x] -> srun step ops kspec0 = SVal (rs, s) -> k_sets s !! id = Some l -> l <> [] ->
  exists s1, srun step (ops ++ [NBegin b id; NEnd e id]) kspec0 = SVal (rs ++ [MUnit; MUnit], s1) /\
    let s2 := put_kt s1 it (first_num l) in
    pspec step (meach fuel b e it x cb []) s1 = pspec step (meach_loop fuel e it x cb []) s2 /\ reach s2 /\ k_sets s2 = k_sets s /\ k_its s2 !! it = Some (first_num l) /\ k_its s2 !! e = Some None.
Proof.
  intros Hnd E El Hl. rewrite !NoDup_cons, !elem_of_cons in Hnd. exists (put_kt (put_kt s b (first_num l)) e None).
  assert (E1 : srun step (ops ++ [NBegin b id; NEnd e id]) kspec0 = SVal (rs ++ [MUnit; MUnit], put_kt (put_kt s b (first_num l)) e None)).
  { rewrite srun_app, E. cbn [srun ns_step ks_step]. unfold with_set. rewrite El. destruct l; [contradiction|]. cbn [move_kt as_answer sthen fst snd as_mout put_kt k_sets]. rewrite El. reflexivity. }
  split; [exact E1|]. intros s2.
  assert (Hb : k_its (put_kt (put_kt s b (first_num l)) e None) !! b = Some (first_num l)) by (cbn [put_kt k_its]; rewrite lookup_insert_ne, lookup_insert by naive_solver; reflexivity).
  split; [|split; [|split; [reflexivity|split; [apply lookup_insert|]]]].
  - unfold meach. cbn [pspec ns_step ks_step]. unfold with_kt. rewrite Hb. reflexivity.
  - apply r_put; [exists (ops ++ [NBegin b id; NEnd e id]); eexists; exact E1|exists b; exact Hb].
  - cbn [s2 put_kt k_its]. rewrite lookup_insert_ne by naive_solver. apply lookup_insert.
Qed.
Lemma iter_ans s id l : k_sets s !! id = Some l -> l <> [] -> srun step [NMap (MIter id)] s = SVal ([MList l.*2], s).
Proof.
  intros El Hl. cbn [srun ns_step maps_step as_top]. unfold trees_step. cbn [top_map ts_step]. unfold with_set. rewrite El. destruct l; [contradiction|]. destruct s; reflexivity.
Qed.
Lemma m_hist : histories (n_step lt dflt) step (tw_init pol, ∅) kspec0.
Proof. intros ops. apply n_history; assumption. Qed.

Lemma update_run ops rs s b e it x id l f fuel : NoDup [b; e; it; x] -> srun step ops kspec0 = SVal (rs, s) -> k_sets s !! id = Some l -> l <> [] -> length l <= fuel ->
  exists w, run ops b e fuel it x id (updating x f) [NMap (MIter id)] = Ok (rs ++ [MUnit; MUnit], l.*2, [MList (map (fun kv => (fst kv, f (fst kv) (snd kv))) l.*2)], w).
Proof.
  intros Hnd E El Hl Hf. destruct (m_start ops rs s b e it x id l (updating x f) fuel Hnd E El Hl) as (s1 & E1 & E2 & Hr & Hk & Hi & He).
  apply NoDup_cons in Hnd as [_ Hnd]. rewrite <- Hk in El.
  destruct (updating_spec f e it x id Hnd l fuel [] [] _ Hr Hf Hi He El) as (s' & Es & Es2). eapply run_around; [apply m_hist|exact E1|rewrite E2; exact Es|].
  rewrite (iter_ans _ _ _ Es2).
  - unfold news_of. rewrite !map_map. cbn [app]. do 4 f_equal. clear. induction l as [|[n [k v]] l IH]; [reflexivity|]. cbn. f_equal. exact IH.
  - destruct l; [contradiction|discriminate].
Qed.
Lemma drop_run ops rs s b e it x id l z fuel : NoDup [b; e; it; x] -> srun step ops kspec0 = SVal (rs, s) -> k_sets s !! id = Some l -> last l.*2 = Some z -> length l <= fuel ->
  exists w, run ops b e fuel it x id (dropping x id) [NMap (MIter id)] = Ok (rs ++ [MUnit; MUnit], l.*2, [MList [z]], w).
Proof.
  intros Hnd E El Hz Hf. assert (Hl : l <> []) by (intros ->; discriminate).
  destruct (m_start ops rs s b e it x id l (dropping x id) fuel Hnd E El Hl) as (s1 & E1 & E2 & Hr & Hk & Hi & He).
  apply NoDup_cons in Hnd as [_ Hnd]. rewrite <- Hk in El. destruct l as [|[n [k v]] vs]; [contradiction|]. destruct fuel as [|fuel]; [cbn in Hf; lia|]. cbn in Hf.
  set (s2 := put_kt s1 it (first_num ((n, (k, v)) :: vs))) in *. cbn [first_num head fmap option_fmap option_map fst] in Hi.
  assert (Hr1 : reach (put_kt s2 x (Some n))) by (apply r_put; [exact Hr|exists it; exact Hi]).
  pose proof Hnd as Hnd'. rewrite !NoDup_cons, !elem_of_cons in Hnd'.
  destruct (m_round fuel e it x (dropping x id) [] s2 id n [] (k, v) vs [(k, v)] (put_kt s2 x (Some n)) id [] (k, v) vs Hr Hi He El) as [E3 Hr3].
  { unfold dropping. rewrite (m_entry x [] _ _ id n [] (k, v) vs Hr1 (lookup_insert _ _ _) El). reflexivity. }
  { cbn [put_kt k_its]. rewrite lookup_insert_ne by naive_solver. exact Hi. }
  { exact El. }
  destruct (dropping_spec e it x id Hnd vs fuel n k v [(k, v)] _ Hr3 ltac:(lia) eq_refl) as (s' & m & z' & Es & Es2 & Hz').
  { apply lookup_insert. }
  { cbn [put_kt k_its]. rewrite !lookup_insert_ne by naive_solver. exact He. }
  { exact El. }
  change (last ((k, v) :: vs.*2) = Some z) in Hz. rewrite Hz in Hz'. injection Hz' as <-.
  eapply run_around; [apply m_hist|exact E1|rewrite E2, E3; exact Es|]. rewrite (iter_ans _ _ _ Es2) by discriminate. reflexivity.
Qed.
Lemma fill_run ops rs s b e it x id dst l l2 g fuel : NoDup [b; e; it; x] -> id <> dst -> srun step ops kspec0 = SVal (rs, s) -> k_sets s !! id = Some l -> l <> [] -> k_sets s !! dst = Some l2 -> length l <= fuel ->
  exists w, run ops b e fuel it x id (filling x dst g) [NMap (MIter id); NMap (MIter dst)] =
    Ok (rs ++ [MUnit; MUnit], l.*2, [MList l.*2; MList (fold_left (fun l kv => put_key lt (fst (g kv)) (snd (g kv)) l) l.*2 l2.*2)], w).
Proof.
  intros Hnd Hid E El Hl Ed Hf. destruct (m_start ops rs s b e it x id l (filling x dst g) fuel Hnd E El Hl) as (s1 & E1 & E2 & Hr & Hk & Hi & He).
  apply NoDup_cons in Hnd as [_ Hnd]. rewrite <- Hk in El, Ed.
  destruct (filling_spec g e it x id dst Hnd Hid l fuel [] [] _ l2 Hr Hf Hi He El Ed) as (s' & l' & Es & Es2 & Es3 & Hl'). eapply run_around; [apply m_hist|exact E1|rewrite E2; exact Es|].
  change [NMap (MIter id); NMap (MIter dst)] with ([NMap (K := K) (V := V) (MIter id)] ++ [NMap (MIter dst)]). rewrite srun_app, (iter_ans _ _ _ Es2) by exact Hl.
  rewrite (iter_ans _ _ _ Es3); [rewrite Hl'; reflexivity|]. intros ->. cbn in Hl'. destruct l as [|a l] using rev_ind; [contradiction|].
  rewrite fmap_app, fold_left_app in Hl'. cbn in Hl'. destruct (fold_left _ _ _) as [|[k0 v0] l0]; cbn [put_key] in Hl'; [discriminate|]. repeat case_match; discriminate.
Qed.
End Maps.

(** ** Binary search trees *)
Section Plain.
Context {A : Type} (cmp : A -> A -> bool) (Hc : swo cmp).
Notation grow := (fold_left (fun t x => bins cmp x t)).
Lemma grow_left xs : forall l v r, Forall (fun x => cmp x v = true) xs -> grow xs (BN l v r) = BN (grow xs l) v r.
Proof. induction xs as [|x xs IH]; intros l v r H; [reflexivity|]. apply Forall_cons in H as [Hx H]. cbn [fold_left bins]. rewrite Hx. apply IH, H. Qed.
Lemma grow_right xs : forall l v r, Forall (fun x => cmp x v = false) xs -> grow xs (BN l v r) = BN l v (grow xs r).
Proof. induction xs as [|x xs IH]; intros l v r H; [reflexivity|]. apply Forall_cons in H as [Hx H]. cbn [fold_left bins]. rewrite Hx. apply IH, H. Qed.
Lemma asc_parts l x r : ascending cmp (l ++ x :: r) -> ascending cmp l /\ ascending cmp r /\ Forall (fun y => cmp y x = true) l /\ Forall (fun y => cmp y x = false) r.
Proof.
  unfold ascending. induction l as [|y l IH]; cbn [app]; intros H; apply StronglySorted_inv in H as [H Hf].
  - split; [constructor|]. split; [exact H|]. split; [constructor|]. eapply Forall_impl; [exact Hf|]. intros y Hy. exact (proj1 Hc _ _ Hy).
  - destruct (IH H) as (H1 & H2 & H3 & H4). split; [constructor; [exact H1|]|].
    + apply Forall_app in Hf as [Hf _]. exact Hf.
    + split; [exact H2|]. split; [|exact H4]. apply Forall_app in Hf as [_ Hf]. apply Forall_cons in Hf as [Hf _]. constructor; [exact Hf|exact H3].
Qed.
(** Pushing the elements in pre-order gives the tree again, in in-order a chain. *)
Lemma grow_pre u : ascending cmp (inorder u) -> grow (preorder u) BE = u.
Proof.
  induction u as [|l IHl x r IHr]; [reflexivity|]. cbn [inorder preorder]. intros H. apply asc_parts in H as (Hl & Hr & Fl & Fr).
  cbn [fold_left bins]. rewrite fold_left_app, grow_left, grow_right, (IHl Hl), (IHr Hr); [reflexivity| |].
  - rewrite Forall_forall in *. intros y Hy. apply Fr. rewrite <- pre_perm. exact Hy.
  - rewrite Forall_forall in *. intros y Hy. apply Fl. rewrite <- pre_perm. exact Hy.
Qed.
Lemma grow_in xs : ascending cmp xs -> preorder (grow xs BE) = xs.
Proof.
  induction xs as [|x xs IH]; [reflexivity|]. intros H. destruct (asc_parts [] x xs H) as (_ & Hx & _ & F). cbn [fold_left bins]. rewrite grow_right by exact F. cbn [preorder app]. rewrite (IH Hx). reflexivity.
Qed.
Lemma bins_vals n x (t : bt (nat * A)) : bmap snd (bins (by_val cmp) (n, x) t) = bins cmp x (bmap snd t).
Proof. induction t as [|l IHl [m v] r IHr]; [reflexivity|]. cbn [bins bmap snd]. unfold by_val at 1. cbn [snd]. destruct (cmp x v); cbn [bmap snd]; congruence. Qed.
Lemma in_grow x t y : In y (inorder (bins cmp x t)) -> y = x \/ In y (inorder t).
Proof.
  induction t as [|l IHl v r IHr]; cbn [bins inorder]; [intros [H|[]]; auto|].
  destruct (cmp x v); cbn [inorder]; intros H; apply in_app_or in H as [H|[H|H]].
  - destruct (IHl H); [auto|]. right. apply in_or_app. auto.
  - right. apply in_or_app. cbn. auto.
  - right. apply in_or_app. cbn. auto.
  - right. apply in_or_app. cbn. auto.
  - right. apply in_or_app. cbn. auto.
  - destruct (IHr H); [auto|]. right. apply in_or_app. cbn. auto.
Qed.
Lemma in_grow_all xs : forall t y, In y (inorder (grow xs t)) -> In y xs \/ In y (inorder t).
Proof. induction xs as [|x xs IH]; intros t y H; cbn [fold_left] in H; [auto|]. destruct (IH _ _ H) as [H1|H1]; [left; right; exact H1|]. destruct (in_grow _ _ _ H1) as [->|H2]; [left; left; reflexivity|auto]. Qed.
End Plain.

Section Trees.
Context {A : Type} (cmp : A -> A -> bool) (Hc : swo cmp).
Notation step := (js_step cmp).
Notation jspec := (jspec (A := A)).
Notation reach := (reach step jspec0).
Notation grow := (fold_left (fun t x => bins cmp x t)).
Implicit Types (s : jspec) (vs us : list (nat * A)) (u : bt (nat * A)).

Lemma t_where s o id u us n a vs : reach s -> j_trees s !! id = Some u -> walk o u = us ++ (n, a) :: vs -> where_at o n (j_trees s) = Some (id, (us, a, vs)).
Proof. intros (ops & rs & E). exact (j_unique1 cmp Hc ops rs s o id u us n a vs E). Qed.
Lemma walk_perm o u : o <> PostOrder -> walk o u ≡ₚ inorder u.
Proof. destruct o; intros H; [apply pre_perm|reflexivity|contradiction]. Qed.
Lemma t_in s o id u us n a vs : o <> PostOrder -> reach s -> j_trees s !! id = Some u -> walk o u = us ++ (n, a) :: vs -> exists us' vs', where_at InOrder n (j_trees s) = Some (id, (us', a, vs')).
Proof.
  intros Ho Hr El Hw. assert (H : (n, a) ∈ inorder u) by (rewrite <- (walk_perm o u Ho), Hw; apply elem_of_app; right; left).
  apply elem_of_list_In, in_split in H as (us' & vs' & H). exists us', vs'. exact (t_where s InOrder id u us' n a vs' Hr El H).
Qed.
(** No two elements of a tree are equivalent. *)
Lemma t_new s o id u us n a vs b : reach s -> j_trees s !! id = Some u -> o <> PostOrder -> walk o u = us ++ (n, a) :: vs -> In b us.*2 -> equivb cmp a b = false.
Proof.
  intros Hr El Ho Hw Hb. destruct (equivb cmp a b) eqn:Eq; [|reflexivity]. exfalso. apply elem_of_list_In, elem_of_list_fmap in Hb as ([m b'] & -> & Hb). cbn [snd] in Eq.
  pose proof Hr as (ops & rs & E).
  assert (Hp : forall p, p ∈ walk o u -> In p (inorder u)) by (intros p Hp; apply elem_of_list_In; rewrite <- (walk_perm o u Ho); exact Hp).
  assert (Hs : (m, b') = (n, a)).
  { eapply (same_elem cmp Hc ops rs s id u (n, a)); [exact E|exact El| | |exact Eq|].
    - apply Hp. rewrite Hw. apply elem_of_app. left. exact Hb.
    - apply Hp. rewrite Hw. apply elem_of_app. right. left.
    - unfold equivb, by_val. cbn [snd]. destruct (cmp a a) eqn:Ea; [|reflexivity]. pose proof (proj1 Hc _ _ Ea). congruence. }
  pose proof (walk_nodup o u (nums_nodup cmp Hc ops rs s id u E El)) as Hnd. rewrite Hw, fmap_app in Hnd. apply NoDup_app in Hnd as (_ & Hnd & _).
  apply (Hnd m); [apply elem_of_list_fmap; exists (m, b'); auto|]. injection Hs as -> _. left.
Qed.
Lemma t_asc s id u : reach s -> j_trees s !! id = Some u -> ascending cmp (inorder u).*2.
Proof.
  intros (ops & rs & E) Eu. destruct (j_reach cmp Hc _ _ _ E) as (f & w & (T & HT & HR & _)). pose proof (jlook f _ T id HR) as P. rewrite Eu in P.
  destruct P as (t & Ht & _ & _ & Hv). pose proof (bwf_asc _ _ _ _ (rb_wf _ _ _ _ HT _ _ Ht)) as Ha. rewrite <- Hv in Ha. exact Ha.
Qed.
Lemma find_none x (l : list (nat * A)) n : (forall b, In b l.*2 -> equivb cmp x b = false) -> lookup_set (by_val cmp) (n, x) l = None.
Proof.
  induction l as [|[m b] l IH]; intros H; [reflexivity|]. unfold lookup_set. cbn [List.find]. change (equivb (by_val cmp) (n, x) (m, b)) with (equivb cmp x b).
  rewrite (H b) by (left; reflexivity). apply IH. intros b' Hb. apply H. right. exact Hb.
Qed.

Lemma b_end {C} fuel e it x (cb : C -> prog _ _ C) c s o o' : j_its s !! it = Some (o, None) -> j_its s !! e = Some (o', None) -> pspec step (beach_loop fuel e it x cb c) s = GEnd (c, s).
Proof. intros Hi He. destruct fuel; cbn [beach_loop pspec js_step]; unfold with_jt; rewrite Hi, He; cbn; reflexivity. Qed.
Lemma cloning_spec o e it x id dst u : o <> PostOrder -> NoDup [e; it; x] -> id <> dst -> forall vs fuel us s o' d, reach s -> length vs <= fuel -> walk o u = us ++ vs ->
  j_its s !! it = Some (o, first_num vs) -> j_its s !! e = Some (o', None) -> j_trees s !! id = Some u -> j_trees s !! dst = Some d -> bmap snd d = grow us.*2 BE ->
  exists s' d', pspec step (beach_loop fuel e it x (cloning x dst) us.*2) s = GEnd ((walk o u).*2, s') /\ j_trees s' !! id = Some u /\
    j_trees s' !! dst = Some d' /\ bmap snd d' = grow (walk o u).*2 BE.
Proof.
  intros Ho Hnd Hid. rewrite !NoDup_cons, !elem_of_cons in Hnd. induction vs as [|[n a] vs IH]; intros fuel us s o' d Hr Hf Hw Hi He El Ed Hd.
  - rewrite app_nil_r in Hw. exists s, d. rewrite (b_end _ _ _ _ _ _ _ _ _ Hi He), Hw. auto.
  - destruct fuel as [|fuel]; [cbn in Hf; lia|]. cbn in Hf. cbn [first_num head fmap option_fmap option_map fst] in Hi.
    destruct (t_in s o id u us n a vs Ho Hr El Hw) as (us' & vs' & Hin). pose proof (t_where s o id u us n a vs Hr El Hw) as Hat.
    set (s1 := put_jt s x (o, Some n)).
    assert (E1 : step (JNe it e) s = SVal (OBool true, s)).
    { cbn [js_step]. unfold with_jt. rewrite Hi, He. unfold valid_at. cbn [snd]. rewrite Hin. cbn. reflexivity. }
    assert (E2 : step (JRead it) s = SVal (OOpt (Some a), s)).
    { cbn [js_step]. unfold with_jt. rewrite Hi. cbn [snd]. rewrite Hin. reflexivity. }
    assert (E3 : step (JCopy x it) s = SVal (OUnit, s1)).
    { cbn [js_step]. unfold with_jt. rewrite Hi. reflexivity. }
    assert (E4 : step (JRead x) s1 = SVal (OOpt (Some a), s1)).
    { cbn [js_step]. unfold with_jt. cbn [s1 put_jt j_its j_trees]. rewrite lookup_insert. cbn [snd]. rewrite Hin. reflexivity. }
    set (d1 := bins (by_val cmp) (j_next s, a) d). set (s2 := JSpec (<[dst := d1]> (j_trees s)) (j_next s + 1) (j_its s1)).
    assert (E5 : step (JTree (BPush dst a)) s1 = SVal (OUnit, s2)).
    { cbn [js_step]. unfold btrees_step. cbn [bop_num bs_step s1 put_jt j_next j_trees]. unfold with_bt. rewrite Ed. rewrite find_none; [reflexivity|].
      intros b Hb. rewrite <- inorder_bmap, Hd in Hb. destruct (in_grow_all cmp _ _ _ Hb) as [Hb'|[]]. exact (t_new s o id u us n a vs b Hr El Ho Hw Hb'). }
    assert (Hr2 : reach s2) by (eapply reach_step; [eapply reach_step; [exact Hr|exact E3]|exact E5]).
    assert (El2 : j_trees s2 !! id = Some u) by (cbn [s2 j_trees]; rewrite lookup_insert_ne by congruence; exact El).
    assert (E6 : step (JNext it) s2 = SVal (OUnit, put_jt s2 it (o, first_num vs))).
    { cbn [js_step]. unfold with_jt. cbn [s2 s1 put_jt j_its]. rewrite lookup_insert_ne by naive_solver. rewrite Hi. unfold next_at.
      rewrite (t_where s2 o id u us n a vs Hr2 El2 Hw). reflexivity. }
    cbn [beach_loop pspec]. rewrite E1. cbn [pspec]. rewrite E2. cbn [pspec]. rewrite E3. unfold cloning at 1. cbn [pthen pspec]. rewrite E4. cbn [pthen pspec]. rewrite E5. cbn [pspec pthen]. rewrite E6.
    replace (us.*2 ++ [a]) with (us ++ [(n, a)]).*2 by (rewrite fmap_app; reflexivity).
    apply (IH fuel (us ++ [(n, a)]) _ o' d1).
    + exact (reach_step _ _ _ _ _ _ Hr2 E6).
    + lia.
    + rewrite Hw, <- app_assoc. reflexivity.
    + apply lookup_insert.
    + cbn [put_jt j_its s2 s1]. rewrite !lookup_insert_ne by naive_solver. exact He.
    + exact El2.
    + cbn [put_jt j_trees s2]. apply lookup_insert.
    + unfold d1. rewrite bins_vals, Hd, fmap_app, fold_left_app. reflexivity.
Qed.

Context (pol : policy) (Hs : sound pol) (Hg : grants pol).
Lemma clone_run ops rs s b e it x id dst u o fuel : NoDup [b; e; it; x] -> id <> dst -> srun step ops jspec0 = SVal (rs, s) -> j_trees s !! id = Some u -> u <> BE -> o <> PostOrder ->
  j_trees s !! dst = Some BE -> length (inorder u) <= fuel ->
  exists w, (rs1 <- mrun (jt_step cmp) (ops ++ [JBegin b id o; JEnd e id o]) ;; c <- prun (jt_step cmp) (beach fuel b e it x (cloning x dst) []) ;;
    rs2 <- mrun (jt_step cmp) [JTree (BIter id PreOrder); JTree (BIter dst PreOrder); JTree (BIter dst InOrder)] ;; ret (rs1, c, rs2)) (tw_init pol, ∅) =
    Ok (rs ++ [OUnit; OUnit], (walk o u).*2, [OList (preorder u).*2; OList (walk o u).*2; OList (inorder u).*2], w).
Proof.
  intros Hnd Hid E El Hu Ho Ed Hf. pose proof Hnd as Hnd'. apply NoDup_cons in Hnd' as [_ Hnd']. rewrite !NoDup_cons, !elem_of_cons in Hnd.
  set (s1 := put_jt (put_jt s b (o, first_num (walk o u))) e (o, None)). set (s2 := put_jt s1 it (o, first_num (walk o u))).
  assert (E1 : srun step (ops ++ [JBegin b id o; JEnd e id o]) jspec0 = SVal (rs ++ [OUnit; OUnit], s1)).
  { rewrite srun_app, E. cbn [srun js_step]. unfold with_bt. rewrite El. destruct o; [|destruct u; [contradiction|]|contradiction]; cbn [move_jt put_jt j_trees]; rewrite El; reflexivity. }
  assert (Hb : j_its s1 !! b = Some (o, first_num (walk o u))) by (cbn [s1 put_jt j_its]; rewrite lookup_insert_ne, lookup_insert by naive_solver; reflexivity).
  assert (E2 : step (JCopy it b) s1 = SVal (OUnit, s2)) by (cbn [js_step]; unfold with_jt; rewrite Hb; reflexivity).
  assert (Hr : reach s2) by (eapply reach_step; [eexists _, _; exact E1|exact E2]).
  destruct (cloning_spec o e it x id dst u Ho Hnd' Hid (walk o u) fuel [] s2 o BE Hr) as (s' & d' & Es & El' & Ed' & Hd').
  { rewrite (walk_perm o u Ho). exact Hf. }
  { reflexivity. }
  { apply lookup_insert. }
  { cbn [s2 s1 put_jt j_its]. rewrite lookup_insert_ne by naive_solver. apply lookup_insert. }
  { exact El. }
  { exact Ed. }
  { reflexivity. }
  pose proof (t_asc _ _ _ Hr El) as Ha. rewrite <- inorder_bmap in Ha.
  assert (Hv : preorder (bmap snd d') = (walk o u).*2 /\ inorder (bmap snd d') = (inorder u).*2).
  { assert (Hi' : inorder (bmap snd u) = (inorder u).*2) by apply inorder_bmap. assert (Hp' : preorder (bmap snd u) = (preorder u).*2) by apply preorder_bmap.
    destruct o; [| |contradiction]; cbn [walk] in Hd' |- *.
    - rewrite <- Hp', (grow_pre cmp Hc _ Ha) in Hd'. rewrite Hd'. auto.
    - rewrite Hd'. rewrite Hi' in Ha. split; [exact (grow_in cmp Hc _ Ha)|].
      clear - Ha Hc. revert Ha. generalize (inorder u).*2 as xs. induction xs as [|y xs IH]; [reflexivity|]. intros H. destruct (asc_parts cmp Hc [] y xs H) as (_ & Hx & _ & F).
      cbn [fold_left bins]. rewrite grow_right by exact F. cbn [inorder app]. rewrite (IH Hx). reflexivity. }
  destruct Hv as [Hv1 Hv2]. rewrite preorder_bmap in Hv1. rewrite inorder_bmap in Hv2.
  assert (Hd0 : d' <> BE) by (intros ->; destruct u as [|ul ux ur]; [contradiction|]; cbn in Hv2; rewrite fmap_app in Hv2; destruct (inorder ul).*2; discriminate).
  eapply (run_around (jt_step cmp) step).
  - intros ops'. apply j_history; assumption.
  - exact E1.
  - unfold beach. cbn [pspec]. rewrite E2. exact Es.
  - cbn [srun js_step]. unfold btrees_step. cbn [bop_num bs_step news]. unfold with_bt. rewrite El'. cbn [tout_map j_trees j_next]. rewrite Ed'. cbn [tout_map j_trees j_next]. rewrite Ed'.
    destruct d' as [|dl dx dr]; [contradiction|]. cbn [tout_map]. rewrite Hv1, Hv2. reflexivity.
Qed.
End Trees.
