(** What for_each sees: ascending elements whatever the callback does, and what
    becomes of particular callbacks. *)
From Coq Require Import Sorted.
From Verif Require Import Base Alloc AllocProofs VectorModel VectorSpec Adapter Hist.
From Verif Require Import TreeModel TreeSpec TreeBase TreeSets TreeTag TreeObj TreeWorld TreeWSpec TreeHist.
From Verif Require Import ListIterSpec ListIterProofs TreeIterModel TreeIterSpec TreeIterProofs AlgoIterModel TreeEachModel TreeEachSpec TreeEachProofs.
Local Open Scope nat_scope.

Section Spec.
Context {A : Type} (cmp : A -> A -> bool) (Hc : swo cmp).
Definition reach (s : kspec (A := A)) : Prop := exists (ops : list (kop A)) rs, srun (ks_step cmp) ops kspec0 = SVal (rs, s).
Lemma reach_step o s r s' : reach s -> ks_step cmp o s = SVal (r, s') -> reach s'.
Proof. intros (ops & rs & E) Eo. exists (ops ++ [o]), (rs ++ [r]). rewrite srun_app, E. cbn [srun]. rewrite Eo. reflexivity. Qed.
Lemma reach_client {C} (p : tclient A C) : forall s c s', reach s -> tclient_spec cmp p s = SVal (c, s') -> reach s'.
Proof.
  induction p as [c|o k IH]; intros s c' s' Hr E; cbn [tclient_spec] in E; [injection E as _ <-; exact Hr|].
  destruct (ks_step cmp o s) as [[r s1]| |] eqn:Eo; try discriminate. exact (IH _ _ _ _ (reach_step _ _ _ _ Hr Eo) E).
Qed.
Lemma reach_at s id us n x vs : reach s -> k_sets s !! id = Some (us ++ (n, x) :: vs) -> where_is n (k_sets s) = Some (id, (us, x, vs)).
Proof. intros (ops & rs & E). apply (k_unique A cmp Hc ops rs s id us n x vs E). Qed.
Lemma reach_in s id ps n x : reach s -> k_sets s !! id = Some ps -> In (n, x) ps -> exists us vs, ps = us ++ (n, x) :: vs /\ where_is n (k_sets s) = Some (id, (us, x, vs)).
Proof. intros Hr E Hin. apply in_split in Hin as (us & vs & ->). exists us, vs. split; [reflexivity|]. exact (reach_at _ _ _ _ _ _ Hr E). Qed.
Lemma reach_facts s : reach s -> below (k_next s) (k_sets s) /\ forall id ps, k_sets s !! id = Some ps -> ascending cmp (ps.*2).
Proof.
  intros (ops & rs & E). pose proof (k_run cmp Hc bump ops bump_sound) as H. rewrite E in H.
  destruct H as [(w & _ & f & HR)|(_ & ops1 & ops2 & rs1 & s1 & _ & _ & Hr)]; [|destruct (grants_refuses _ _ bump_grants Hr)].
  destruct HR as (T & HT & Hs & Hb & _). split; [exact Hb|]. intros id ps Ei. pose proof (ren_look f _ T id Hs) as P. rewrite Ei in P. destruct P as (t & Ht & _ & Hv).
  rewrite Hv. exact (wf_asc _ _ _ _ (rt_wf _ _ _ _ HT _ _ Ht)).
Qed.
Lemma where_below s n id us x vs : reach s -> where_is n (k_sets s) = Some (id, (us, x, vs)) -> n < k_next s.
Proof. intros Hr E. apply where_is_some in E. apply (proj1 (reach_facts s Hr) _ _ _ E). rewrite fmap_app. apply elem_of_app. right. left. Qed.
(** An element keeps its value. *)
Lemma same_value {C} (p : tclient A C) s c s' n id us x vs id' us' x' vs' : reach s -> tclient_spec cmp p s = SVal (c, s') ->
  where_is n (k_sets s) = Some (id, (us, x, vs)) -> where_is n (k_sets s') = Some (id', (us', x', vs')) -> id' = id /\ x' = x.
Proof.
  intros Hr E W W'. destruct (client_old cmp p s c s' E) as [_ Ho]. apply where_is_some in W'.
  destruct (Ho _ _ n x' W') as (qs & Eq & Hq); [apply in_or_app; right; left; reflexivity|exact (where_below _ _ _ _ _ _ Hr W)|].
  destruct (reach_in _ _ _ _ _ Hr Eq Hq) as (us2 & vs2 & _ & W2). rewrite W in W2. injection W2 as -> _ -> _. auto.
Qed.
(** What comes next is larger. *)
Lemma next_above s n id us x vs m : reach s -> where_is n (k_sets s) = Some (id, (us, x, vs)) -> first_num vs = Some m ->
  exists y vs', where_is m (k_sets s) = Some (id, (us ++ [(n, x)], y, vs')) /\ cmp x y = true.
Proof.
  intros Hr W F. destruct vs as [|[m' y] vs']; [discriminate|]. cbn in F. injection F as ->. exists y, vs'. pose proof W as W0. apply where_is_some in W.
  split; [apply reach_at; [exact Hr|rewrite <- app_assoc; exact W]|].
  pose proof (proj2 (reach_facts s Hr) _ _ W) as Ha. rewrite fmap_app in Ha. change (((n, x) :: (m, y) :: vs').*2) with (x :: y :: vs'.*2) in Ha. revert Ha. unfold ascending. clear.
  induction (us.*2) as [|z zs IH]; cbn [app]; intros Ha; [|apply StronglySorted_inv in Ha as [Ha _]; exact (IH Ha)].
  apply StronglySorted_inv in Ha as [_ Ha]. apply Forall_inv in Ha. exact Ha.
Qed.

Lemma asc_snoc l x : ascending cmp l -> Forall (fun y => cmp y x = true) l -> ascending cmp (l ++ [x]).
Proof.
  unfold ascending. induction l as [|y l IH]; cbn [app]; intros Ha Hf; [constructor; constructor|].
  apply StronglySorted_inv in Ha as [Ha Hy]. apply Forall_cons in Hf as [Hx Hf]. constructor; [exact (IH Ha Hf)|]. apply Forall_app. split; [exact Hy|constructor; [exact Hx|constructor]].
Qed.
Lemma tmap_spec {C D} (f : C -> D) (p : tclient A C) : forall s, tclient_spec cmp (tmap f p) s =
  match tclient_spec cmp p s with SVal (c, s') => SVal (f c, s') | SAbort => SAbort | SUnspec => SUnspec end.
Proof. induction p as [c|o k IH]; intros s; cbn [tmap tclient_spec]; [reflexivity|]. destruct (ks_step cmp o s) as [[r s1]| |]; [apply IH|reflexivity|reflexivity]. Qed.

Context (Htr : forall a b c, cmp a b = true -> cmp b c = true -> cmp a c = true).
Lemma each_ascending {C} (cb : C -> A -> tclient A C) n : forall seen c p s seen' c' s', reach s -> ascending cmp seen ->
  (forall m id us x vs, p = Some m -> where_is m (k_sets s) = Some (id, (us, x, vs)) -> Forall (fun y => cmp y x = true) seen) ->
  teach_spec cmp n (logging cb) (seen, c) p s = EEnd ((seen', c'), s') -> ascending cmp seen'.
Proof.
  induction n as [|n IH]; intros seen c p s seen' c' s' Hr Ha Hp E; destruct p as [m|]; cbn [teach_spec] in E; try discriminate; try (injection E as <- _ _; exact Ha).
  destruct (where_is m (k_sets s)) as [[id [[us x] vs]]|] eqn:W; [|discriminate]. specialize (Hp _ _ _ _ _ eq_refl W).
  unfold logging in E at 1. cbn [fst snd] in E. rewrite tmap_spec in E. destruct (tclient_spec cmp (cb c x) s) as [[c1 s1]| |] eqn:Ec; try discriminate.
  destruct (next_num (k_sets s1) (Some m)) as [q|] eqn:Eq; [|destruct (Nat.eqb _ _); discriminate].
  pose proof (reach_client _ _ _ _ Hr Ec) as Hr1. eapply IH; [exact Hr1|exact (asc_snoc _ _ Ha Hp)| |exact E].
  intros m' id1 us1 y vs1 -> W'. cbn [next_num] in Eq. destruct (where_is m (k_sets s1)) as [[id2 [[us2 x2] vs2]]|] eqn:W2; [|discriminate]. injection Eq as Eq.
  destruct (same_value _ _ _ _ _ _ _ _ _ _ _ _ _ Hr Ec W W2) as [-> ->].
  destruct (next_above _ _ _ _ _ _ _ Hr1 W2 Eq) as (y' & vs' & W3 & Hxy). rewrite W' in W3. injection W3 as _ _ -> _.
  apply Forall_app. split; [|constructor; [exact Hxy|constructor]]. eapply Forall_impl; [exact Hp|]. intros z Hz. exact (Htr _ _ _ Hz Hxy).
Qed.
End Spec.

Lemma swo_trans {A} (cmp : A -> A -> bool) : swo cmp -> forall a b c, cmp a b = true -> cmp b c = true -> cmp a c = true.
Proof. intros [H1 H2] a b c Hab Hbc. destruct (H2 a b c Hab) as [H|H]; [exact H|]. rewrite (H1 _ _ Hbc) in H. discriminate. Qed.

(** The same client code sees what it would see without the notes. *)
Lemma each_logging {A C} (cmp : A -> A -> bool) (cb : C -> A -> tclient A C) n : forall seen c p s,
  match teach_spec cmp n cb c p s with
  | EEnd (c', s') => exists more, teach_spec cmp n (logging cb) (seen, c) p s = EEnd ((seen ++ more, c'), s')
  | EMore => teach_spec cmp n (logging cb) (seen, c) p s = EMore
  | EUndef => teach_spec cmp n (logging cb) (seen, c) p s = EUndef
  | EAbort => teach_spec cmp n (logging cb) (seen, c) p s = EAbort
  | EUnspec => teach_spec cmp n (logging cb) (seen, c) p s = EUnspec
  end.
Proof.
  induction n as [|n IH]; intros seen c p s; destruct p as [m|]; cbn [teach_spec]; try reflexivity; try (exists []; rewrite app_nil_r; reflexivity).
  destruct (where_is m (k_sets s)) as [[id [[us x] vs]]|]; [|reflexivity]. 
  assert (tclient_spec cmp (logging cb (seen, c) x) s = match tclient_spec cmp (cb c x) s with SVal (c1, s1) => SVal ((seen ++ [x], c1), s1) | SAbort => SAbort | SUnspec => SUnspec end) as -> by (unfold logging; apply tmap_spec).
  destruct (tclient_spec cmp (cb c x) s) as [[c1 s1]| |]; try reflexivity. destruct (next_num (k_sets s1) (Some m)) as [q|]; [|destruct (Nat.eqb _ _); reflexivity].
  specialize (IH (seen ++ [x]) c1 q s1). destruct (teach_spec cmp n cb c1 q s1) as [[c' s']| | | |]; try exact IH. destruct IH as (more & ->). exists (x :: more). rewrite <- app_assoc. reflexivity.
Qed.

(** The elements a loop hands to its callback are ascending. *)
Theorem teach_ascending {A} (cmp : A -> A -> bool) : swo cmp -> forall {C} ops1 n id (c : C) (cb : C -> A -> tclient A C) ops2 rs1 c' rs2,
  teach_in_spec cmp ops1 n id c cb ops2 = EEnd (rs1, c', rs2) ->
  exists seen, teach_in_spec cmp ops1 n id ([], c) (logging cb) ops2 = EEnd (rs1, (seen, c'), rs2) /\ ascending cmp seen.
Proof.
  intros Hc C ops1 n id c cb ops2 rs1 c' rs2. unfold teach_in_spec. destruct (srun (ks_step cmp) ops1 kspec0) as [[rs s]| |] eqn:E; try discriminate.
  destruct (k_sets s !! id) as [[|p l]|]; try discriminate. pose proof (each_logging cmp cb n [] c (first_num (p :: l)) s) as L.
  destruct (teach_spec cmp n cb c (first_num (p :: l)) s) as [[c1 s1]| | | |]; try discriminate. destruct L as (seen & L). cbn [app] in L. rewrite L.
  destruct (srun (ks_step cmp) ops2 s1) as [[rs3 s3]| |]; try discriminate. intros [= <- <- <-]. exists seen. split; [reflexivity|].
  eapply (each_ascending cmp Hc (swo_trans _ Hc)); [do 2 eexists; exact E|apply SSorted_nil| |exact L]. intros. apply Forall_nil_2.
Qed.

(** Adding to the tree from the callback. *)
Section Adds.
Context {A : Type} (cmp : A -> A -> bool) (Hc : swo cmp).
Notation reach := (reach cmp).
Lemma find_step id x (s : kspec (A := A)) ps : k_sets s !! id = Some ps -> ks_step cmp (KTree (TFind id x)) s = SVal (OOpt (lookup_set cmp x ps.*2), s).
Proof.
  intros E. cbn [ks_step]. unfold trees_step. cbn [top_map ts_step]. unfold with_set. rewrite E. cbn [tout_map]. rewrite (lookup_snd cmp). destruct s; reflexivity.
Qed.
Lemma push_step id x (s : kspec (A := A)) ps : k_sets s !! id = Some ps -> lookup_set cmp x ps.*2 = None ->
  ks_step cmp (KTree (TPush id x)) s = SVal (OUnit, KSpec (<[id := add_set (by_val cmp) (k_next s, x) ps]> (k_sets s)) (S (k_next s)) (k_its s)).
Proof.
  intros E En. cbn [ks_step]. unfold trees_step. cbn [top_map ts_step]. unfold with_set. rewrite E.
  pose proof (lookup_snd cmp (k_next s) x ps) as L. rewrite En in L. change (tcmp cmp) with (by_val cmp) in L. destruct (lookup_set (by_val cmp) (k_next s, x) ps); [discriminate|]. reflexivity.
Qed.
Lemma adds_spec {C} id (c : C) xs : forall s ps, reach s -> k_sets s !! id = Some ps -> exists s' ps',
  tclient_spec cmp (adds id xs c) s = SVal (c, s') /\ reach s' /\ k_sets s' !! id = Some ps' /\ ps'.*2 = fold_left (add_new cmp) xs ps.*2 /\ (forall p, In p ps -> In p ps').
Proof.
  induction xs as [|x xs IH]; intros s ps Hr E; cbn [adds tclient_spec fold_left].
  - exists s, ps. auto.
  - rewrite (find_step id x s ps E). unfold add_new at 2. destruct (lookup_set cmp x ps.*2) as [z|] eqn:El; [exact (IH s ps Hr E)|]. cbn [tclient_spec].
    pose proof (push_step id x s ps E El) as P. rewrite P. pose proof (reach_step cmp _ _ _ _ Hr P) as Hr1.
    destruct (IH _ _ Hr1 (lookup_insert _ _ _)) as (s' & ps' & E1 & Hr' & E2 & E3 & Hin). exists s', ps'. split; [exact E1|]. split; [exact Hr'|]. split; [exact E2|]. split.
    + rewrite E3. f_equal. apply (add_snd cmp).
    + intros p Hp. apply Hin, (in_add (by_val cmp)). right. exact Hp.
Qed.
Lemma sweep_spec id (kids : A -> list A) n : forall m x ps s seen, reach s -> k_sets s !! id = Some ps -> In (m, x) ps ->
  match sweep cmp kids n x ps.*2 with
  | Some (vs, l') => exists s' ps', teach_spec cmp n (adding id kids) seen (Some m) s = EEnd (seen ++ vs, s') /\ k_sets s' !! id = Some ps' /\ ps'.*2 = l' /\ ps' <> []
  | None => teach_spec cmp n (adding id kids) seen (Some m) s = EMore
  end.
Proof.
  induction n as [|n IH]; intros m x ps s seen Hr E Hin; cbn [sweep teach_spec]; [reflexivity|].
  destruct (reach_in cmp Hc _ _ _ _ _ Hr E Hin) as (us & vs & -> & W). rewrite W. change (adding id kids seen x) with (adds id (kids x) (seen ++ [x])).
  destruct (adds_spec id (seen ++ [x]) (kids x) s _ Hr E) as (s1 & ps1 & E1 & Hr1 & E2 & E3 & Hk). rewrite E1, <- E3.
  destruct (reach_in cmp Hc _ _ _ _ _ Hr1 E2 (Hk _ Hin)) as (us1 & vs1 & -> & W1). cbn [next_num]. rewrite W1.
  pose proof (proj2 (reach_facts cmp Hc s1 Hr1) _ _ E2) as Ha. rewrite fmap_app in Ha |- *. change (((m, x) :: vs1).*2) with (x :: vs1.*2) in Ha |- *.
  rewrite (next_eq cmp Hc _ _ _ Ha x (equiv_refl cmp Hc x)).
  destruct vs1 as [|[m1 y] vs1].
  - cbn [fmap list_fmap head first_num option_fmap option_map]. exists s1, (us1 ++ [(m, x)]). split; [destruct n; reflexivity|]. split; [exact E2|].
    split; [rewrite fmap_app; reflexivity|]. intros H0. destruct us1; discriminate.
  - change (head ((m1, y) :: vs1).*2) with (Some y). change (first_num ((m1, y) :: vs1)) with (Some m1). cbn iota.
    pose proof (IH m1 y _ s1 (seen ++ [x]) Hr1 E2 ltac:(apply in_or_app; right; right; left; reflexivity)) as P.
    rewrite fmap_app in P. change (((m, x) :: (m1, y) :: vs1).*2) with (x :: ((m1, y) :: vs1).*2) in P.
    destruct (sweep cmp kids n y _) as [[ws l']|]; [|exact P]. destruct P as (s' & ps' & P & Q). exists s', ps'. split; [|exact Q]. rewrite P, <- app_assoc. reflexivity.
Qed.
End Adds.

Section Top.
Context {A : Type} (cmp : A -> A -> bool) (Hc : swo cmp) (pol : policy) (Hs : sound pol) (Hg : grants pol).

Theorem teach_sweep ops rs (s : kspec (A := A)) id m x l (kids : A -> list A) n : srun (ks_step cmp) ops kspec0 = SVal (rs, s) -> k_sets s !! id = Some ((m, x) :: l) ->
  exists w, mrun (kt_step cmp) ops (tw_init pol, ∅) = Ok (rs, w) /\
  match sweep cmp kids n x (x :: l.*2) with
  | Some (vs, xs) => exists w', teach cmp n id [] (adding id kids) w = Ok (vs, w') /\
      exists w'', kt_step cmp (KTree (TIter id)) w' = Ok (OList xs, w'')
  | None => teach cmp n id [] (adding id kids) w = Diverge
  end.
Proof.
  intros E El. pose proof (later_ok cmp Hc pol Hg ops _ _ (kR_init cmp pol Hs)) as P. rewrite E in P. destruct P as (w & Ew & H). exists w. split; [exact Ew|].
  pose proof (each_top cmp Hc pol Hg (adding id kids) n [] id s w _ H El ltac:(discriminate)) as Q.
  pose proof (sweep_spec cmp Hc id kids n m x _ s [] ltac:(do 2 eexists; exact E) El ltac:(left; reflexivity)) as R.
  change (((m, x) :: l).*2) with (x :: l.*2) in R. change (first_num ((m, x) :: l)) with (Some m) in Q.
  destruct (sweep cmp kids n x (x :: l.*2)) as [[vs xs]|].
  - destruct R as (s' & ps' & R & Ez & Ev & Hne). rewrite R in Q. destruct Q as (w' & Q & H'). exists w'. split; [exact Q|].
    pose proof (later_ok cmp Hc pol Hg [KTree (TIter id)] _ _ H') as P2. cbn [srun ks_step] in P2. unfold trees_step in P2. cbn [top_map ts_step] in P2. unfold with_set in P2.
    rewrite Ez in P2. destruct ps' as [|p ps']; [congruence|]. cbn [tout_map] in P2. rewrite Ev in P2. destruct P2 as (w2 & P2 & _). exists w2. cbn [mrun] in P2.
    apply bind_inv in P2 as (r & w3 & P3 & P4). unfold bind, ret in P4. injection P4 as -> ->. exact P3.
  - rewrite R in Q. exact Q.
Qed.

(** Popping the element the loop is at. *)
Theorem teach_pop {C} ops rs (s : kspec (A := A)) id l n (c : C) : srun (ks_step cmp) ops kspec0 = SVal (rs, s) -> k_sets s !! id = Some l -> l <> [] ->
  exists w, mrun (kt_step cmp) ops (tw_init pol, ∅) = Ok (rs, w) /\
  teach cmp (S n) id c (fun c a => TDo (KTree (TPop id a)) (fun _ => TDone c)) w = UB.
Proof.
  intros E El Hl. pose proof (later_ok cmp Hc pol Hg ops _ _ (kR_init cmp pol Hs)) as P. rewrite E in P. destruct P as (w & Ew & H). exists w. split; [exact Ew|].
  destruct l as [|[m x] l]; [congruence|]. assert (reach cmp s) as Hr by (do 2 eexists; exact E).
  pose proof (each_top cmp Hc pol Hg (fun (c : C) a => TDo (KTree (TPop id a)) (fun _ => TDone c)) (S n) c id s w _ H El ltac:(discriminate)) as Q.
  change (first_num ((m, x) :: l)) with (Some m) in Q. cbn [teach_spec] in Q. pose proof (reach_at cmp Hc s id [] m x l Hr El) as W. rewrite W in Q.
  assert (ks_step cmp (KTree (TPop id x)) s = SVal (OUnit, KSpec (<[id := remove_set (by_val cmp) (k_next s, x) ((m, x) :: l)]> (k_sets s)) (k_next s) (k_its s))) as Es.
  { cbn [ks_step]. unfold trees_step. cbn [top_map ts_step]. unfold with_set. rewrite El. unfold lookup_set at 1. cbn [List.find].
    change (equivb (by_val cmp) (k_next s, x) (m, x)) with (equivb cmp x x). unfold equivb. assert (cmp x x = false) as -> by (apply (equiv_refl cmp Hc)). reflexivity. }
  cbn [tclient_spec] in Q. rewrite Es in Q. set (s1 := KSpec _ _ _) in *. cbn [next_num] in Q.
  destruct (where_is m (k_sets s1)) as [[id' [[us' x'] vs']]|] eqn:W1; [exfalso|cbn [k_next s1] in Q; rewrite Nat.eqb_refl in Q; exact Q].
  assert (tclient_spec cmp (TDo (KTree (TPop id x)) (fun _ => TDone c)) s = SVal (c, s1)) as Ec by (cbn [tclient_spec]; rewrite Es; reflexivity).
  destruct (same_value cmp Hc _ _ _ _ _ _ _ _ _ _ _ _ _ Hr Ec W W1) as [-> ->]. apply where_is_some in W1. cbn [k_sets s1] in W1. rewrite lookup_insert in W1. remember (remove_set (by_val cmp) (k_next s, x) ((m, x) :: l)) as rl eqn:Erl. injection W1 as W1.
  assert (In (m, x) rl) as Hin by (rewrite W1; apply in_or_app; right; left; reflexivity).
  rewrite Erl in Hin. apply filter_In in Hin as [_ Hin]. change (equivb (by_val cmp) (k_next s, x) (m, x)) with (equivb cmp x x) in Hin. unfold equivb in Hin.
  assert (cmp x x = false) as Hxx by (apply (equiv_refl cmp Hc)). rewrite Hxx in Hin. discriminate.
Qed.

(** Adding something above every element never ends. *)
Lemma fold_keeps xs : forall l z, In z l -> In z (fold_left (add_new cmp) xs l).
Proof.
  induction xs as [|x xs IH]; intros l z Hz; cbn [fold_left]; [exact Hz|]. apply IH. unfold add_new. destruct (lookup_set cmp x l); [exact Hz|]. apply in_add. auto.
Qed.
Lemma fold_has xs : forall l y, In y xs -> exists z, In z (fold_left (add_new cmp) xs l) /\ equiv cmp y z.
Proof.
  induction xs as [|x xs IH]; intros l y []; cbn [fold_left]; [subst y|apply IH; assumption].
  unfold add_new at 2. destruct (lookup_set cmp x l) as [z|] eqn:El.
  - apply find_some in El as [Hz Ez]. exists z. split; [apply fold_keeps, Hz|]. unfold equivb in Ez. apply andb_true_iff in Ez as [E1 E2]. split; apply negb_true_iff; assumption.
  - exists x. split; [apply fold_keeps, in_add; auto|apply (equiv_refl cmp Hc)].
Qed.
Lemma sweep_endless (kids : A -> list A) n : (forall a, exists y, In y (kids a) /\ cmp a y = true) -> forall x l, sweep cmp kids n x l = None.
Proof.
  intros Hk. induction n as [|n IH]; intros x l; [reflexivity|]. cbn [sweep].
  destruct (next_set cmp x (fold_left (add_new cmp) (kids x) l)) as [y|] eqn:En; [rewrite IH; reflexivity|exfalso].
  destruct (Hk x) as (y & Hy & Hxy). destruct (fold_has (kids x) l y Hy) as (z & Hz & _ & E2).
  pose proof (find_none _ _ En z Hz) as Hn. cbn beta in Hn. destruct (proj2 Hc x y z Hxy); congruence.
Qed.
Theorem teach_endless ops rs (s : kspec (A := A)) id l (kids : A -> list A) : srun (ks_step cmp) ops kspec0 = SVal (rs, s) -> k_sets s !! id = Some l -> l <> [] ->
  (forall a, exists y, In y (kids a) /\ cmp a y = true) ->
  exists w, mrun (kt_step cmp) ops (tw_init pol, ∅) = Ok (rs, w) /\ forall n, teach cmp n id [] (adding id kids) w = Diverge.
Proof.
  intros E El Hl Hk. destruct l as [|[m x] l]; [congruence|]. destruct (teach_sweep ops rs s id m x l kids 0 E El) as (w & Ew & _). exists w. split; [exact Ew|].
  intros n. destruct (teach_sweep ops rs s id m x l kids n E El) as (w2 & Ew2 & P). rewrite Ew in Ew2. injection Ew2 as <-.
  rewrite (sweep_endless kids n Hk) in P. exact P.
Qed.

(** What is added at or below the element is not seen. *)
Lemma add_below x y l : cmp x y = false -> List.filter (cmp x) (add_new cmp l y) = List.filter (cmp x) l.
Proof.
  intros Hxy. unfold add_new. destruct (lookup_set cmp y l); [reflexivity|]. induction l as [|z l IH]; cbn [add_set List.filter]; [rewrite Hxy; reflexivity|].
  destruct (cmp y z); cbn [List.filter]; [rewrite Hxy; reflexivity|]. rewrite IH. reflexivity.
Qed.
Lemma fold_below x ys : (forall y, In y ys -> cmp x y = false) -> forall l, List.filter (cmp x) (fold_left (add_new cmp) ys l) = List.filter (cmp x) l.
Proof.
  induction ys as [|y ys IH]; intros H l; cbn [fold_left]; [reflexivity|]. rewrite IH by (intros z Hz; apply H; right; exact Hz). apply add_below, H. left. reflexivity.
Qed.
Lemma find_filter (p : A -> bool) l : List.find p l = head (List.filter p l).
Proof. induction l as [|z l IH]; cbn [List.find List.filter]; [reflexivity|]. destruct (p z); [reflexivity|exact IH]. Qed.
Lemma filter_filter (p q : A -> bool) l : (forall z, p z = true -> q z = true) -> List.filter p (List.filter q l) = List.filter p l.
Proof.
  intros H. induction l as [|z l IH]; cbn [List.filter]; [reflexivity|]. destruct (q z) eqn:Eq; cbn [List.filter]; destruct (p z) eqn:Ep; rewrite ?IH; try reflexivity. rewrite (H z Ep) in Eq. discriminate.
Qed.
Lemma filter_above y vs : ascending cmp (y :: vs) -> List.filter (cmp y) (y :: vs) = vs.
Proof.
  intros Ha. apply StronglySorted_inv in Ha as [_ Hf]. cbn [List.filter]. assert (cmp y y = false) as -> by (apply (equiv_refl cmp Hc)).
  induction vs as [|z vs IH]; [reflexivity|]. apply Forall_cons in Hf as [Hz Hf]. cbn [List.filter]. rewrite Hz, (IH Hf). reflexivity.
Qed.
Lemma sweep_below (kids : A -> list A) n : (forall a y, In y (kids a) -> cmp a y = false) -> forall x l vs, List.filter (cmp x) l = vs -> ascending cmp vs -> length vs < n ->
  exists l', sweep cmp kids n x l = Some (x :: vs, l').
Proof.
  intros Hk. induction n as [|n IH]; intros x l vs Ef Ha Hn; [lia|]. cbn [sweep]. unfold next_set. rewrite find_filter, (fold_below x _ (Hk x)), Ef.
  destruct vs as [|y vs]; [eauto|]. cbn [head].
  destruct (IH y (fold_left (add_new cmp) (kids x) l) vs) as (l' & ->); [|apply StronglySorted_inv in Ha as [Ha _]; exact Ha|cbn in Hn; lia|eauto].
  rewrite <- (filter_filter (cmp y) (cmp x)), (fold_below x _ (Hk x)), Ef; [exact (filter_above y vs Ha)|].
  intros z Hz. apply (swo_trans cmp Hc x y z); [|exact Hz].
  assert (In y (List.filter (cmp x) l)) as Hin by (rewrite Ef; left; reflexivity). apply filter_In in Hin as [_ Hin]. exact Hin.
Qed.
Theorem teach_below ops rs (s : kspec (A := A)) id l (kids : A -> list A) n : srun (ks_step cmp) ops kspec0 = SVal (rs, s) -> k_sets s !! id = Some l -> l <> [] ->
  (forall a y, In y (kids a) -> cmp a y = false) -> length l <= n ->
  exists w w', mrun (kt_step cmp) ops (tw_init pol, ∅) = Ok (rs, w) /\ teach cmp n id [] (adding id kids) w = Ok (l.*2, w').
Proof.
  intros E El Hl Hk Hn. destruct l as [|[m x] l]; [congruence|]. destruct (teach_sweep ops rs s id m x l kids n E El) as (w & Ew & P). exists w.
  pose proof (proj2 (reach_facts cmp Hc s ltac:(do 2 eexists; exact E)) _ _ El) as Ha. change (((m, x) :: l).*2) with (x :: l.*2) in Ha |- *.
  destruct (sweep_below kids n Hk x (x :: l.*2) l.*2) as (l' & Es); [exact (filter_above _ _ Ha)|apply StronglySorted_inv in Ha as [Ha _]; exact Ha|rewrite fmap_length; cbn in Hn; lia|].
  rewrite Es in P. destruct P as (w' & P & _). exists w'. auto.
Qed.
End Top.
