(** What particular callbacks do. *)
From Verif Require Import Base VectorModel VectorSpec Adapter Hist ListModel DequeModel DequeSpec DequeIterModel DequeIterSpec
  DequeProofs DequeResize DequeHist DequeHist2 DequeGeo DequeIterProofs DqEachModel DqEachSpec DqEachProofs.

Section Spec.
Context {A : Type} (eqb : A -> A -> bool).
Implicit Types (s : jspec A) (l : list A).

(** One round of the specification. *)
Lemma deach_end {C} fuel e it x (cb : C -> dclient A C) c s id n mv mv' :
  j_its s !! it = Some (DP id n mv) -> j_its s !! e = Some (DP id n mv') -> deach_spec eqb fuel e it x cb c s = DEnd (c, s).
Proof. intros E1 E2. destruct fuel; cbn [deach_spec]; rewrite E1, E2; cbn [dp_id dp_ix]; rewrite !Nat.eqb_refl; reflexivity. Qed.
Lemma deach_round {C} fuel e it x (cb : C -> dclient A C) c s id n m mv mv' l r c' s' l' r' n' :
  j_its s !! it = Some (DP id n mv) -> j_its s !! e = Some (DP id m mv') -> n <> m -> j_dqs s !! id = Some (l, r) -> n < length l ->
  dclient_spec eqb (cb c) (set_pl s x (DP id n false)) = SVal (c', s') ->
  j_its s' !! it = Some (DP id n' true) -> j_dqs s' !! id = Some (l', r') -> n' < length l' ->
  deach_spec eqb (S fuel) e it x cb c s = deach_spec eqb fuel e it x cb c' (set_pl s' it (DP id (S n') true)).
Proof.
  intros E1 E2 Hn El Hl Ec E3 El' Hl'. cbn [deach_spec]. rewrite E1, E2. cbn [dp_id dp_ix]. rewrite Nat.eqb_refl. cbn [negb].
  destruct (Nat.eqb_spec n m); [lia|]. unfold len_of. rewrite El, (proj2 (Nat.ltb_lt _ _) Hl), Ec.
  cbn [js_step]. unfold move_by, with_pl. rewrite E3. cbn [dp_id]. rewrite El'. unfold shifted. cbn [dp_mov dp_ix dp_id andb].
  rewrite (proj2 (Z.leb_le _ _)) by lia. rewrite (proj2 (Z.leb_le _ _)) by lia. cbn [andb some_or].
  replace (Z.to_nat (Z.of_nat n' + 1)) with (S n') by lia. reflexivity.
Qed.
Lemma reading_spec {C} x (c : C) (k : A -> dclient A C) s id n mv l r a :
  j_its s !! x = Some (DP id n mv) -> j_dqs s !! id = Some (l, r) -> l !! n = Some a -> dclient_spec eqb (reading x c k) s = dclient_spec eqb (k a) s.
Proof. intros E El Ea. unfold reading. cbn [dclient_spec js_step]. unfold with_pl. rewrite E. cbn [dp_id dp_ix]. rewrite El, Ea. reflexivity. Qed.

(** Copying to another deque. *)
Lemma copying_spec (P : A -> bool) b e it x id dst l : NoDup [b; e; it; x] -> id <> dst -> forall fuel n seen s l2,
  length l <= n + fuel -> n <= length l ->
  j_its s !! it = Some (DP id n true) -> j_its s !! e = Some (DP id (length l) true) -> j_dqs s !! id = Some (l, true) -> j_dqs s !! dst = Some (l2, true) ->
  exists s', deach_spec eqb fuel e it x (copying x dst P) seen s = DEnd (seen ++ drop n l, s') /\
    j_dqs s' !! id = Some (l, true) /\ j_dqs s' !! dst = Some (l2 ++ filter (fun a => P a = true) (drop n l), true).
Proof.
  intros Hnd Hne. rewrite !NoDup_cons, !elem_of_cons in Hnd. induction fuel as [|fuel IH]; intros n seen s l2 Hf Hn E1 E2 El Ed.
  - assert (n = length l) as -> by lia. exists s. rewrite drop_all, !app_nil_r. split; [eapply deach_end; eassumption|auto].
  - destruct (decide (n = length l)) as [->|Hlt].
    { exists s. rewrite drop_all, !app_nil_r. split; [eapply deach_end; eassumption|auto]. }
    destruct (lookup_lt_is_Some_2 l n) as [a Ha]; [lia|]. rewrite (drop_S _ _ _ Ha), filter_cons.
    destruct (P a) eqn:EP.
    + erewrite deach_round; [|exact E1|exact E2|exact Hlt|exact El|lia| | | |].
      2:{ unfold copying. erewrite reading_spec; [|cbn [set_pl j_its]; apply lookup_insert|exact El|exact Ha]. rewrite EP. cbn [dclient_spec js_step ds_step set_pl j_dqs]. unfold with_dq. rewrite Ed. reflexivity. }
      2:{ cbn [j_its]. rewrite lookup_omap. cbn [set_pl j_its]. rewrite lookup_insert_ne, E1 by naive_solver. cbn [mbind option_bind after dp_id]. destruct (Nat.eqb_spec id dst); [lia|reflexivity]. }
      2:{ cbn [j_dqs]. rewrite lookup_insert_ne by congruence. exact El. }
      2:{ lia. }
      set (s1 := set_pl _ it _). destruct (IH (S n) (seen ++ [a]) s1 (l2 ++ [a])) as (s' & R & H1 & H2).
      * lia.
      * lia.
      * apply lookup_insert.
      * unfold s1. cbn [set_pl j_its]. rewrite lookup_insert_ne, lookup_omap by naive_solver. rewrite lookup_insert_ne, E2 by naive_solver.
        cbn [mbind option_bind after dp_id]. destruct (Nat.eqb_spec id dst); [lia|reflexivity].
      * unfold s1. cbn [set_pl j_dqs]. rewrite lookup_insert_ne by congruence. exact El.
      * unfold s1. cbn [set_pl j_dqs]. apply lookup_insert.
      * exists s'. split; [rewrite R, <- app_assoc; reflexivity|]. split; [exact H1|]. destruct (decide (P a = true)); [|congruence]. rewrite H2, <- app_assoc. reflexivity.
    + erewrite deach_round; [|exact E1|exact E2|exact Hlt|exact El|lia| | | |].
      2:{ unfold copying. erewrite reading_spec; [|cbn [set_pl j_its]; apply lookup_insert|exact El|exact Ha]. rewrite EP. reflexivity. }
      2:{ cbn [set_pl j_its]. rewrite lookup_insert_ne, E1 by naive_solver. reflexivity. }
      2:{ exact El. }
      2:{ lia. }
      set (s1 := set_pl _ it _). destruct (IH (S n) (seen ++ [a]) s1 l2) as (s' & R & H1 & H2).
      * lia.
      * lia.
      * apply lookup_insert.
      * unfold s1. cbn [set_pl j_its]. rewrite !lookup_insert_ne by naive_solver. exact E2.
      * exact El.
      * exact Ed.
      * exists s'. split; [rewrite R, <- app_assoc; reflexivity|]. split; [exact H1|]. destruct (decide (P a = true)); [congruence|]. exact H2.
Qed.

(** Moving the end. *)
Lemma stopping_spec (P : A -> bool) b e it x id l : NoDup [b; e; it; x] -> forall fuel n s,
  length l <= n + fuel -> n <= length l ->
  j_its s !! it = Some (DP id n true) -> j_its s !! e = Some (DP id (length l) true) -> j_dqs s !! id = Some (l, true) ->
  exists s', deach_spec eqb fuel e it x (stopping x e id P) (take n l) s = DEnd (take n l ++ until P (drop n l), s') /\ j_dqs s' !! id = Some (l, true).
Proof.
  intros Hnd. rewrite !NoDup_cons, !elem_of_cons in Hnd. induction fuel as [|fuel IH]; intros n s Hf Hn E1 E2 El.
  - assert (n = length l) as -> by lia. exists s. rewrite drop_all, app_nil_r. split; [eapply deach_end; eassumption|auto].
  - destruct (decide (n = length l)) as [->|Hlt].
    { exists s. rewrite drop_all, app_nil_r. split; [eapply deach_end; eassumption|auto]. }
    destruct (lookup_lt_is_Some_2 l n) as [a Ha]; [lia|]. rewrite (drop_S _ _ _ Ha). cbn [until].
    destruct (P a) eqn:EP.
    + eexists. split.
      * erewrite deach_round; [|exact E1|exact E2|exact Hlt|exact El|lia| | | |].
        2:{ unfold stopping. erewrite reading_spec; [|cbn [set_pl j_its]; apply lookup_insert|exact El|exact Ha]. rewrite EP. cbn [dclient_spec js_step]. unfold with_dq. cbn [set_pl j_dqs].
          rewrite El. cbn [goto set_pl j_dqs j_its]. unfold move_by, with_pl. cbn [set_pl j_its j_dqs]. rewrite lookup_insert. cbn [dp_id]. rewrite El. unfold shifted. cbn [dp_mov dp_ix dp_id andb].
          rewrite take_length, Nat.min_l by lia. rewrite (proj2 (Z.leb_le _ _)) by lia. rewrite (proj2 (Z.leb_le _ _)) by lia. cbn [andb some_or goto]. reflexivity. }
        2:{ cbn [set_pl j_its]. rewrite !lookup_insert_ne by naive_solver. exact E1. }
        2:{ exact El. }
        2:{ lia. }
        eapply deach_end; cbn [set_pl j_its]; [apply lookup_insert|]. rewrite lookup_insert_ne by naive_solver. rewrite lookup_insert.
        f_equal. f_equal. lia.
      * exact El.
    + erewrite deach_round; [|exact E1|exact E2|exact Hlt|exact El|lia| | | |].
      2:{ unfold stopping. erewrite reading_spec; [|cbn [set_pl j_its]; apply lookup_insert|exact El|exact Ha]. rewrite EP. reflexivity. }
      2:{ cbn [set_pl j_its]. rewrite lookup_insert_ne, E1 by naive_solver. reflexivity. }
      2:{ exact El. }
      2:{ lia. }
      rewrite <- (take_S_r _ _ _ Ha). set (s1 := set_pl _ it _). destruct (IH (S n) s1) as (s' & R & H1).
      * lia.
      * lia.
      * apply lookup_insert.
      * unfold s1. cbn [set_pl j_its]. rewrite !lookup_insert_ne by naive_solver. exact E2.
      * exact El.
      * exists s'. split; [|exact H1]. rewrite R, (take_S_r _ _ _ Ha), <- app_assoc. reflexivity.
Qed.

(** Removing what lies behind. *)
Lemma trailing_spec b e it x id : NoDup [b; e; it; x] -> forall l fuel y seen s, seen <> [] ->
  length l <= fuel ->
  j_its s !! it = Some (DP id 1 true) -> j_its s !! e = Some (DP id (S (length l)) true) -> j_dqs s !! id = Some (y :: l, true) ->
  exists s' z, deach_spec eqb fuel e it x (trailing x id) seen s = DEnd (seen ++ l, s') /\ last (y :: l) = Some z /\ j_dqs s' !! id = Some ([z], true).
Proof.
  intros Hnd. rewrite !NoDup_cons, !elem_of_cons in Hnd. induction l as [|a l IH]; intros fuel y seen s Hs Hf E1 E2 El.
  - exists s, y. rewrite app_nil_r. split; [eapply deach_end; eassumption|auto].
  - destruct fuel as [|fuel]; [cbn in Hf; lia|]. cbn [length] in *.
    erewrite deach_round; [|exact E1|exact E2|lia|exact El|cbn; lia| | | |].
    2:{ unfold trailing. erewrite reading_spec; [|cbn [set_pl j_its]; apply lookup_insert|exact El|reflexivity]. destruct seen as [|c seen]; [congruence|].
        cbn [dclient_spec js_step ds_step set_pl j_dqs]. unfold with_dq. rewrite El. reflexivity. }
    2:{ cbn [j_its]. rewrite lookup_omap. cbn [set_pl j_its]. rewrite lookup_insert_ne, E1 by naive_solver. cbn [mbind option_bind after dp_id dp_ix dp_mov]. rewrite Nat.eqb_refl. reflexivity. }
    2:{ cbn [j_dqs]. apply lookup_insert. }
    2:{ cbn; lia. }
    set (s1 := set_pl _ it _). destruct (IH fuel a (seen ++ [a]) s1) as (s' & z & R & H1 & H2).
    + destruct seen; discriminate.
    + lia.
    + apply lookup_insert.
    + unfold s1. cbn [set_pl j_its]. rewrite lookup_insert_ne, lookup_omap by naive_solver. rewrite lookup_insert_ne, E2 by naive_solver.
      cbn [mbind option_bind after dp_id dp_ix dp_mov]. rewrite Nat.eqb_refl. reflexivity.
    + unfold s1. cbn [set_pl j_dqs]. apply lookup_insert.
    + exists s', z. split; [rewrite R, <- app_assoc; reflexivity|]. auto.
Qed.
End Spec.

Section Runs.
Context {A : Type} (N : nat) (HN : 0 < N) (eqb : A -> A -> bool).

(** From the specification of the loop to the run. *)
Lemma begin_end ops rs (s : jspec A) b e id l : srun (js_step eqb) ops jspec0 = SVal (rs, s) -> j_dqs s !! id = Some (l, true) ->
  srun (js_step eqb) (ops ++ [JBegin b id; JEnd e id]) jspec0 = SVal (rs ++ [RUnit; RUnit], set_pl (set_pl s b (DP id 0 true)) e (DP id (length l) true)).
Proof.
  intros H El. rewrite srun_app, H. cbn [srun js_step]. unfold with_dq. rewrite El. cbn [goto set_pl j_dqs]. rewrite El. reflexivity.
Qed.
Lemma run_of (cb : list A -> dclient A (list A)) ops rs s b e it x id l fuel seen ops2 rs2 :
  NoDup [b; e; it; x] -> srun (js_step eqb) ops jspec0 = SVal (rs, s) -> j_dqs s !! id = Some (l, true) ->
  (forall s1, j_its s1 !! it = Some (DP id 0 true) -> j_its s1 !! e = Some (DP id (length l) true) -> j_dqs s1 = j_dqs s ->
     exists s' s2, deach_spec eqb fuel e it x cb [] s1 = DEnd (seen, s') /\ srun (js_step eqb) ops2 s' = SVal (rs2, s2)) ->
  exists w, (rs1 <- mrun (j_step N eqb) (ops ++ [JBegin b id; JEnd e id]) ;; c <- deach N eqb fuel b e it x cb [] ;; rs2 <- mrun (j_step N eqb) ops2 ;; ret (rs1, c, rs2))%cpp jworld0
    = Ok (rs ++ [RUnit; RUnit], seen, rs2, w).
Proof.
  intros Hnd H El Hx. rewrite !NoDup_cons, !elem_of_cons in Hnd.
  pose proof (deach_history N HN eqb (ops ++ [JBegin b id; JEnd e id]) fuel b e it x cb [] ops2) as Hh. cbv zeta in Hh. unfold deach_in_spec in Hh.
  rewrite (begin_end _ _ _ _ _ _ _ H El) in Hh. cbn [set_pl j_its] in Hh. rewrite lookup_insert_ne, lookup_insert in Hh by naive_solver.
  set (s1 := set_pl _ it _) in Hh. destruct (Hx s1) as (s' & s2 & R & R2).
  - unfold s1. cbn [set_pl j_its]. apply lookup_insert.
  - unfold s1. cbn [set_pl j_its]. rewrite lookup_insert_ne by naive_solver. apply lookup_insert.
  - reflexivity.
  - rewrite R, R2 in Hh. exact Hh.
Qed.

Notation run ops id b e fuel it x cb ops2 := ((rs1 <- mrun (j_step N eqb) (ops ++ [JBegin b id; JEnd e id]) ;; c <- deach N eqb fuel b e it x cb [] ;; rs2 <- mrun (j_step N eqb) ops2 ;; ret (rs1, c, rs2))%cpp jworld0).

Lemma copying_run ops rs (s : jspec A) b e it x id dst l l2 (P : A -> bool) fuel : NoDup [b; e; it; x] -> id <> dst ->
  srun (js_step eqb) ops jspec0 = SVal (rs, s) -> j_dqs s !! id = Some (l, true) -> j_dqs s !! dst = Some (l2, true) -> length l <= fuel ->
  exists w, run ops id b e fuel it x (copying x dst P) [JDeq (DIter id); JDeq (DIter dst)]
    = Ok (rs ++ [RUnit; RUnit], l, [RList l; RList (l2 ++ filter (fun a => P a = true) l)], w).
Proof.
  intros Hnd Hne H El Ed Hf. eapply run_of; [exact Hnd|exact H|exact El|]. intros s1 E1 E2 E3.
  destruct (copying_spec eqb P b e it x id dst l Hnd Hne fuel 0 [] s1 l2) as (s' & R & H1 & H2); [lia|lia|exact E1|exact E2|rewrite E3; exact El|rewrite E3; exact Ed|].
  do 2 eexists. split; [exact R|]. cbn [srun js_step ds_step]. unfold with_dq. rewrite H1. cbn [j_dqs]. rewrite H2. reflexivity.
Qed.
Lemma stopping_run ops rs (s : jspec A) b e it x id l (P : A -> bool) fuel : NoDup [b; e; it; x] ->
  srun (js_step eqb) ops jspec0 = SVal (rs, s) -> j_dqs s !! id = Some (l, true) -> length l <= fuel ->
  exists w, run ops id b e fuel it x (stopping x e id P) [JDeq (DIter id)] = Ok (rs ++ [RUnit; RUnit], until P l, [RList l], w).
Proof.
  intros Hnd H El Hf. eapply run_of; [exact Hnd|exact H|exact El|]. intros s1 E1 E2 E3.
  destruct (stopping_spec eqb P b e it x id l Hnd fuel 0 s1) as (s' & R & H1); [lia|lia|exact E1|exact E2|rewrite E3; exact El|].
  do 2 eexists. split; [exact R|]. cbn [srun js_step ds_step]. unfold with_dq. rewrite H1. reflexivity.
Qed.
Lemma trailing_run ops rs (s : jspec A) b e it x id l z fuel : NoDup [b; e; it; x] ->
  srun (js_step eqb) ops jspec0 = SVal (rs, s) -> j_dqs s !! id = Some (l, true) -> last l = Some z -> length l <= fuel ->
  exists w, run ops id b e fuel it x (trailing x id) [JDeq (DIter id)] = Ok (rs ++ [RUnit; RUnit], l, [RList [z]], w).
Proof.
  intros Hnd H El Hz Hf. eapply run_of; [exact Hnd|exact H|exact El|]. intros s1 E1 E2 E3. rewrite <- E3 in El.
  destruct l as [|y l]; [discriminate|]. destruct fuel as [|fuel]; [cbn in Hf; lia|]. cbn [length] in *.
  pose proof Hnd as Hnd2. rewrite !NoDup_cons, !elem_of_cons in Hnd2.
  erewrite deach_round; [|exact E1|exact E2|lia|exact El|cbn; lia| | | |].
  2:{ unfold trailing. erewrite reading_spec; [|cbn [set_pl j_its]; apply lookup_insert|exact El|reflexivity]. reflexivity. }
  2:{ cbn [set_pl j_its]. rewrite lookup_insert_ne by naive_solver. exact E1. }
  2:{ exact El. }
  2:{ cbn; lia. }
  set (s2 := set_pl _ it _). destruct (trailing_spec eqb b e it x id Hnd l fuel y [y] s2) as (s' & z' & R & Hz' & H1).
  - discriminate.
  - lia.
  - apply lookup_insert.
  - unfold s2. cbn [set_pl j_its]. rewrite !lookup_insert_ne by naive_solver. exact E2.
  - exact El.
  - do 2 eexists. split; [exact R|]. cbn [srun js_step ds_step]. unfold with_dq. rewrite H1. rewrite Hz in Hz'. injection Hz' as <-. reflexivity.
Qed.

(** ** Removing elements the loop still needs *)
Notation winv := (winv (A := A) N).
(** The loop is [k] cells from the position [p] in the table [t]; the end is [n] cells
    from there. *)
Definition at_round id it e t p n k (l : list A) (p' : nat) (w : jworld A) : Prop := exists sd q i j,
  winv sd (fst w) /\ sd !! id = Some (l, true) /\ d_obj (fst w) !! id = Some q /\ geom N id q t p' /\
  snd w !! it = Some i /\ at_pos N id t (p + k) i /\ snd w !! e = Some j /\ at_pos N id t (p + n) j.

Lemma at_rd id t p i (w : dst A) : at_pos N id t p i -> rd (i_cur i) w = Ok (i_cur i, w).
Proof. intros (b & o & _ & -> & _). reflexivity. Qed.
Lemma at_ld (st : dst A) id l q t p x i : rdy_ok N (d_blk st) id l q t p -> at_pos N id t x i -> x < length t * N ->
  cell_ld (i_cur i) st = match cellval p l x with Some a => Ok (a, st) | None => UB end.
Proof.
  intros Hr Hi Hx. destruct (at_cell N HN _ _ _ _ Hi Hx) as (b & o & (j & Hj & Ho & E) & Hc).
  destruct Hr as (_ & _ & _ & _ & _ & _ & _ & Hh). unfold cell_ld. rewrite Hc, (Hh _ _ Hj), blockat_lookup, <- E by exact Ho. destruct (cellval p l x); reflexivity.
Qed.
(** A round in which the callback reads the element and calls [o] on the deque. *)
Lemma round_with fuel id it e x t p n k l p' w (o : A -> dop A) seen : NoDup [e; it; x] -> k < n -> p + n <= length t * N -> at_round id it e t p n k l p' w ->
  let cb := fun seen => reading x seen (fun a => CDo (JDeq (o a)) (fun _ => CDone (seen ++ [a]))) in
  match cellval p' l (p + k) with
  | None => deach_loop N eqb (S fuel) e it x cb seen w = UB
  | Some a => forall r st' l2 p2, dq_step N (o a) (fst w) = Ok (r, st') ->
      (exists sd q, winv sd st' /\ sd !! id = Some (l2, true) /\ d_obj st' !! id = Some q /\ geom N id q t p2) ->
      exists w', deach_loop N eqb (S fuel) e it x cb seen w = deach_loop N eqb fuel e it x cb (seen ++ [a]) w' /\ at_round id it e t p n (S k) l2 p2 w'
  end.
Proof.
  intros Hnd Hk Hfit (sd & q & i & j & Hw & El & Hq & G & Ei & Hi & Ej & Hj) cb. rewrite !NoDup_cons, !elem_of_cons in Hnd.
  pose proof (winv_rdy N HN _ _ _ _ _ _ _ Hw El Hq G) as Hr. pose proof Hr as (Et & _ & _ & Hndt & _).
  pose proof (at_ld _ _ _ _ _ _ _ _ Hr Hi ltac:(lia)) as Hld.
  assert (Eq : eqp (i_cur i) (i_cur j) = false) by (rewrite (at_pos_eqp N HN _ _ _ _ _ _ _ Hndt Hi Hj); apply Nat.eqb_neq; lia).
  destruct (cellval p' l (p + k)) as [a|].
  - intros r st' l2 p2 Ho (sd2 & q2 & Hw2 & El2 & Hq2 & G2).
    pose proof (winv_rdy N HN _ _ _ _ _ _ _ Hw2 El2 Hq2 G2) as (Et2 & _).
    destruct (it_next_ok N HN st' id q2 t (p + k) i Hq2 Et2 Hndt Hi ltac:(lia)) as (i' & Rn & Hi').
    exists (st', <[it := i']> (<[x := It 0 (i_cur i) None]> (snd w))). split.
    + cbn [deach_loop]. unfold cb at 1, reading. cbn [dclient_run]. 
      rewrite (bind_ok _ _ _ _ _ (get_var_ok _ _ _ Ei)), (bind_ok _ _ _ _ _ (get_var_ok _ _ _ Ej)), (bind_ok _ _ _ _ _ (on_deqs_id _ _ _ (at_rd _ _ _ _ _ Hi))),
        (bind_ok _ _ _ _ _ (on_deqs_id _ _ _ (at_rd _ _ _ _ _ Hj))), Eq.
      rewrite (bind_ok _ _ _ _ _ (get_var_ok _ _ _ Ei)), (bind_ok _ _ _ _ _ (on_deqs_id _ _ _ Hld)).
      rewrite (bind_ok _ _ _ tt (fst w, <[x := It 0 (i_cur i) None]> (snd w)) eq_refl).
      assert (Er : j_step N eqb (JRead x) (fst w, <[x := It 0 (i_cur i) None]> (snd w)) = Ok (RVal a, (fst w, <[x := It 0 (i_cur i) None]> (snd w)))).
      { cbn [j_step]. rewrite (bind_ok _ _ _ _ _ (get_var_ok (fst w, <[x := It 0 (i_cur i) None]> (snd w)) x _ (lookup_insert _ _ _))). cbn [i_cur].
        rewrite (bind_ok _ _ _ _ _ (on_deqs_id _ (fst w, <[x := It 0 (i_cur i) None]> (snd w)) _ Hld)). reflexivity. }
      assert (Ec : forall k : list A -> M (jworld A) (list A),
        bind (r <- j_step N eqb (JRead x) ;; dclient_run N eqb match r with RVal a => CDo (JDeq (o a)) (fun _ => CDone (seen ++ [a])) | _ => CDone seen end) k (fst w, <[x := It 0 (i_cur i) None]> (snd w))
        = k (seen ++ [a]) (st', <[x := It 0 (i_cur i) None]> (snd w))).
      { intros k0. unfold bind at 1 2. rewrite Er. cbn [dclient_run]. unfold bind. cbn [j_step]. unfold on_deqs. cbn [fst snd]. rewrite Ho. reflexivity. }
      rewrite Ec. rewrite (bind_ok _ _ (st', <[x := It 0 (i_cur i) None]> (snd w)) i (st', <[x := It 0 (i_cur i) None]> (snd w))).
      2:{ apply get_var_ok. cbn [snd]. rewrite lookup_insert_ne by naive_solver. exact Ei. }
      rewrite (bind_ok _ _ (st', <[x := It 0 (i_cur i) None]> (snd w)) i' (st', <[x := It 0 (i_cur i) None]> (snd w)) (on_deqs_id _ (st', _) _ Rn)). reflexivity.
    + exists sd2, q2, i', j. cbn [fst snd]. repeat (split; [assumption|]). split; [apply lookup_insert|]. split; [replace (p + S k) with (S (p + k)) by lia; exact Hi'|].
      split; [rewrite !lookup_insert_ne by naive_solver; exact Ej|exact Hj].
  - cbn [deach_loop].
    rewrite (bind_ok _ _ _ _ _ (get_var_ok _ _ _ Ei)), (bind_ok _ _ _ _ _ (get_var_ok _ _ _ Ej)), (bind_ok _ _ _ _ _ (on_deqs_id _ _ _ (at_rd _ _ _ _ _ Hi))),
      (bind_ok _ _ _ _ _ (on_deqs_id _ _ _ (at_rd _ _ _ _ _ Hj))), Eq.
    rewrite (bind_ok _ _ _ _ _ (get_var_ok _ _ _ Ei)). apply bind_ub. unfold on_deqs. rewrite Hld. reflexivity.
Qed.
Lemma round_end fuel id it e x t p n l p' w cb (seen : list A) : at_round id it e t p n n l p' w -> deach_loop N eqb fuel e it x cb seen w = Ok (seen, w).
Proof.
  intros (sd & q & i & j & Hw & El & Hq & G & Ei & Hi & Ej & Hj). pose proof (winv_rdy N HN _ _ _ _ _ _ _ Hw El Hq G) as (Et & _ & _ & Hndt & _).
  assert (Eq : eqp (i_cur i) (i_cur j) = true) by (rewrite (at_pos_eqp N HN _ _ _ _ _ _ _ Hndt Hi Hj); apply Nat.eqb_refl).
  destruct fuel; cbn [deach_loop]; rewrite (bind_ok _ _ _ _ _ (get_var_ok _ _ _ Ei)), (bind_ok _ _ _ _ _ (get_var_ok _ _ _ Ej)), (bind_ok _ _ _ _ _ (on_deqs_id _ _ _ (at_rd _ _ _ _ _ Hi))),
      (bind_ok _ _ _ _ _ (on_deqs_id _ _ _ (at_rd _ _ _ _ _ Hj))), Eq; reflexivity.
Qed.

Lemma draining_loop id it e x t p l : NoDup [e; it; x] -> p + length l <= length t * N -> forall fuel k w, length l <= k + fuel -> k <= length l ->
  at_round id it e t p (length l) k (drop k l) (p + k) w ->
  exists w', deach_loop N eqb fuel e it x (draining x id) (take k l) w = Ok (l, w') /\ at_round id it e t p (length l) (length l) [] (p + length l) w'.
Proof.
  intros Hnd Hfit. induction fuel as [|fuel IH]; intros k w Hf Hk Hw.
  - assert (k = length l) as -> by lia. rewrite drop_all in Hw. rewrite firstn_all. exists w. split; [eapply round_end; exact Hw|exact Hw].
  - destruct (decide (k = length l)) as [->|Hlt].
    { rewrite drop_all in Hw. rewrite firstn_all. exists w. split; [eapply round_end; exact Hw|exact Hw]. }
    destruct (lookup_lt_is_Some_2 l k) as [a Ha]; [lia|].
    pose proof (round_with fuel id it e x t p (length l) k _ _ w (fun _ => DPopFront id) (take k l) Hnd ltac:(lia) Hfit Hw) as Hr. cbv zeta in Hr.
    rewrite (drop_S _ _ _ Ha) in Hr, Hw. rewrite cellval_in, Nat.sub_diag in Hr by lia. cbn [lookup list_lookup] in Hr.
    destruct Hw as (sd & q & i & j & Hw & El & Hq & G & Hrest).
    destruct (pop_front_geo N HN sd (fst w) id a (drop (S k) l) true Hw El) as (st' & q0 & q' & t0 & p0 & R & Hw' & Ho & Hq0 & G0 & G' & _).
    rewrite Hq in Hq0. injection Hq0 as <-. destruct (geom_unique _ _ _ _ _ _ _ G G0) as [-> ->].
    destruct (Hr RUnit st' (drop (S k) l) (S (p + k))) as (w' & Rl & Hw2).
    + cbn [dq_step]. unfold dq_unit. rewrite (bind_ok _ _ _ _ _ R). reflexivity.
    + exists (<[id := (drop (S k) l, true)]> sd), q'. split; [exact Hw'|]. split; [apply lookup_insert|]. split; [rewrite Ho; apply lookup_insert|exact G'].
    + rewrite <- (take_S_r _ _ _ Ha) in Rl. replace (S (p + k)) with (p + S k) in Hw2 by lia.
      destruct (IH (S k) w' ltac:(lia) ltac:(lia) Hw2) as (w2 & R2 & H2). exists w2. split; [|exact H2]. etransitivity; [exact Rl|exact R2].
Qed.
Lemma shrinking_loop id it e x t p l : NoDup [e; it; x] -> p + length l <= length t * N -> 2 <= length l -> forall fuel k w, length l <= k + fuel -> k < length l ->
  at_round id it e t p (length l) k (take (length l - k) l) p w ->
  deach_loop N eqb fuel e it x (shrinking x id) (take k l) w = UB.
Proof.
  intros Hnd Hfit H2. induction fuel as [|fuel IH]; intros k w Hf Hk Hw; [lia|].
  pose proof (round_with fuel id it e x t p (length l) k _ _ w (fun _ => DPopBack id) (take k l) Hnd ltac:(lia) Hfit Hw) as Hr. cbv zeta in Hr.
  rewrite cellval_in in Hr by lia. replace (p + k - p) with k in Hr by lia.
  destruct (decide (k < length l - k)) as [Hlt|Hge].
  - rewrite lookup_take in Hr by lia. destruct (lookup_lt_is_Some_2 l k) as [a Ha]; [lia|]. rewrite Ha in Hr.
    destruct (lookup_lt_is_Some_2 l (length l - S k)) as [z Hz]; [lia|].
    assert (Etk : take (length l - k) l = take (length l - S k) l ++ [z]) by (replace (length l - k) with (S (length l - S k)) by lia; apply take_S_r, Hz).
    rewrite Etk in Hw. destruct Hw as (sd & q & i & j & Hw & El & Hq & G & Hrest).
    destruct (pop_back_geo N HN sd (fst w) id z (take (length l - S k) l) true Hw El) as (st' & q0 & q' & t0 & p0 & R & Hw' & Ho & Hq0 & G0 & G' & _).
    rewrite Hq in Hq0. injection Hq0 as <-. destruct (geom_unique _ _ _ _ _ _ _ G G0) as [-> ->].
    destruct (Hr RUnit st' (take (length l - S k) l) p) as (w' & Rl & Hw2).
    + cbn [dq_step]. unfold dq_unit. rewrite (bind_ok _ _ _ _ _ R). reflexivity.
    + exists (<[id := (take (length l - S k) l, true)]> sd), q'. split; [exact Hw'|]. split; [apply lookup_insert|]. split; [rewrite Ho; apply lookup_insert|exact G'].
    + rewrite <- (take_S_r _ _ _ Ha) in Rl. etransitivity; [exact Rl|]. apply IH; [lia|lia|exact Hw2].
  - rewrite lookup_take_ge in Hr by lia. exact Hr.
Qed.

Lemma start_round ops rs (s : jspec A) b e it x id l : NoDup [b; e; it; x] -> srun (js_step eqb) ops jspec0 = SVal (rs, s) -> j_dqs s !! id = Some (l, true) ->
  exists t p w0 w1 w, mrun (j_step N eqb) ops jworld0 = Ok (rs, w0) /\ mrun (j_step N eqb) (ops ++ [JBegin b id; JEnd e id]) jworld0 = Ok (rs ++ [RUnit; RUnit], w1) /\
    p + length l <= length t * N /\ at_round id it e t p (length l) 0 l p w /\ fst w = fst w0 /\
    forall fuel (cb : list A -> dclient A (list A)) c, deach N eqb fuel b e it x cb c w1 = deach_loop N eqb fuel e it x cb c w.
Proof.
  intros Hnd H El. rewrite !NoDup_cons, !elem_of_cons in Hnd.
  pose proof (mrun_agree (j_step N eqb) (js_step eqb) (jinv N) (j_step_ok N HN eqb) ops jspec0 jworld0 (jinv0 N)) as Ha. rewrite H in Ha. destruct Ha as (w0 & R0 & [Hw _]).
  destruct (winv_geom N HN _ _ _ _ Hw El) as (q & t & p & Hq & G & Hr). pose proof (rdy_fit N HN _ _ _ _ _ _ Hr) as Hfit. pose proof Hr as (_ & _ & _ & _ & _ & Hb & He & _).
  assert (Hcp : forall i y (u : jworld A), at_pos N id t y i -> on_deqs (it_copy i) u = Ok (i, u)).
  { intros i y [u1 u2] (bb & oo & _ & Hc & _). unfold on_deqs, it_copy. rewrite Hc. reflexivity. }
  assert (Hqg : forall u : jworld A, fst u = fst w0 -> on_deqs (q_get id) u = Ok (q, u)).
  { intros [u1 u2] E. cbn [fst] in E. subst u1. apply on_deqs_id. cbn [fst]. apply q_get_ok, Hq. }
  set (w1 := (fst w0, <[b := q_beg q]> (snd w0)) : jworld A). set (w2 := (fst w0, <[e := q_end q]> (snd w1)) : jworld A).
  exists t, p, w0, w2, (fst w0, <[it := q_beg q]> (snd w2)). split; [exact R0|]. split; [|split; [exact Hfit|split; [|split; [reflexivity|]]]].
  - rewrite (mrun_app _ _ _ _ _ _ R0). cbn [mrun j_step].
    assert (E1 : (q0 <- on_deqs (q_get id) ;; i <- on_deqs (it_copy (q_beg q0)) ;; set_var b i ;;; ret RUnit) w0 = Ok (RUnit : out A, w1)).
    { rewrite (bind_ok _ _ _ _ _ (Hqg w0 eq_refl)), (bind_ok _ _ _ _ _ (Hcp _ _ w0 Hb)). reflexivity. }
    assert (E2 : (q0 <- on_deqs (q_get id) ;; i <- on_deqs (it_copy (q_end q0)) ;; set_var e i ;;; ret RUnit) w1 = Ok (RUnit : out A, w2)).
    { rewrite (bind_ok _ _ _ _ _ (Hqg w1 eq_refl)), (bind_ok _ _ _ _ _ (Hcp _ _ w1 He)). reflexivity. }
    rewrite (bind_ok _ _ _ _ _ E1). unfold bind at 1. rewrite (bind_ok _ _ _ _ _ E2). reflexivity.
  - exists (j_dqs s), q, (q_beg q), (q_end q). cbn [fst snd]. rewrite Nat.add_0_r. repeat (split; [assumption|]). split; [apply lookup_insert|]. split; [exact Hb|].
    split; [rewrite lookup_insert_ne by naive_solver; apply lookup_insert|exact He].
  - intros fuel cb c. unfold deach. rewrite (bind_ok _ _ w2 (q_beg q) w2).
    2:{ apply get_var_ok. cbn [w2 w1 snd]. rewrite lookup_insert_ne, lookup_insert by naive_solver. reflexivity. }
    rewrite (bind_ok _ _ _ _ _ (Hcp _ _ w2 Hb)). reflexivity.
Qed.
Lemma draining_run ops rs (s : jspec A) b e it x id l fuel : NoDup [b; e; it; x] -> srun (js_step eqb) ops jspec0 = SVal (rs, s) -> j_dqs s !! id = Some (l, true) -> length l <= fuel ->
  exists w, run ops id b e fuel it x (draining x id) [JDeq (DIter id)] = Ok (rs ++ [RUnit; RUnit], l, [RList []], w).
Proof.
  intros Hnd H El Hf. destruct (start_round ops rs s b e it x id l Hnd H El) as (t & p & w0 & w1 & w & R0 & R & Hfit & Hw & Hfw & Hd).
  rewrite (bind_ok _ _ _ _ _ R). unfold bind at 1. rewrite Hd.
  apply NoDup_cons in Hnd as [_ Hnd]. rewrite <- (drop_0 l) in Hw at 2. rewrite <- (Nat.add_0_r p) in Hw at 2.
  destruct (draining_loop id it e x t p l Hnd Hfit fuel 0 w ltac:(lia) ltac:(lia) Hw) as (w' & R' & Hw'). change (take 0 l) with (@nil A) in R'. rewrite R'.
  destruct Hw' as (sd & q & i & j & Hw' & El' & _).
  pose proof (dq_step_ok N HN (DIter id) _ _ Hw') as Hs. cbn [ds_step] in Hs. unfold with_dq in Hs. rewrite El' in Hs. destruct Hs as (st' & Rs & _).
  cbn [mrun j_step]. unfold bind, on_deqs. rewrite Rs. eexists. reflexivity.
Qed.
Lemma shrinking_run ops rs (s : jspec A) b e it x id l fuel ops2 : NoDup [b; e; it; x] -> srun (js_step eqb) ops jspec0 = SVal (rs, s) -> j_dqs s !! id = Some (l, true) -> 2 <= length l <= fuel ->
  run ops id b e fuel it x (shrinking x id) ops2 = UB.
Proof.
  intros Hnd H El Hf. destruct (start_round ops rs s b e it x id l Hnd H El) as (t & p & w0 & w1 & w & R0 & R & Hfit & Hw & Hfw & Hd).
  rewrite (bind_ok _ _ _ _ _ R). apply bind_ub. rewrite Hd. apply NoDup_cons in Hnd as [_ Hnd].
  apply (shrinking_loop id it e x t p l Hnd Hfit ltac:(lia) fuel 0 w); [lia|lia|]. rewrite Nat.sub_0_r, firstn_all. exact Hw.
Qed.

(** ** Appending to the deque *)
Definition larger id (cap : nat) (st : dst A) : Prop := exists sd l q, winv sd st /\ sd !! id = Some (l, true) /\ d_obj st !! id = Some q /\ cap < q_cap q.
Definition pushes id (xs : list A) : list (jop A) := map (fun a => JDeq (DPushBack id a)) xs.
Lemma push_run id a (w : jworld A) st' : dq_push_back N id a (fst w) = Ok (tt, st') -> j_step N eqb (JDeq (DPushBack id a)) w = Ok (RUnit, (st', snd w)).
Proof. intros R. cbn [j_step]. unfold on_deqs. cbn [dq_step]. unfold dq_unit. rewrite (bind_ok _ _ _ _ _ R). reflexivity. Qed.
Lemma pushes_larger id cap : forall xs (w : jworld A), larger id cap (fst w) -> exists w', mrun (j_step N eqb) (pushes id xs) w = Ok (map (fun _ => RUnit) xs, w') /\ larger id cap (fst w').
Proof.
  induction xs as [|a xs IH]; intros w H; [exists w; split; [reflexivity|exact H]|].
  destruct H as (sd & l & q & Hw & El & Hq & Hc).
  destruct (push_back_geo N HN sd (fst w) id l true a Hw El) as (st2 & q' & t' & p' & R & Hw2 & Ho & G2 & _ & q0 & t0 & p0 & Hq0 & G0 & Hg).
  rewrite Hq in Hq0. injection Hq0 as <-. destruct G0 as (_ & Ec & _), G2 as (_ & Ec2 & _).
  destruct (IH (st2, snd w)) as (w' & R' & Hl').
  { exists (<[id := (l ++ [a], true)]> sd), (l ++ [a]), q'. cbn [fst]. split; [exact Hw2|]. split; [apply lookup_insert|]. split; [rewrite Ho; apply lookup_insert|].
    assert (length t0 <= length t') by (destruct Hg as [[-> _]|(_ & -> & _)]; lia). rewrite Ec2. rewrite Ec in Hc. nia. }
  exists w'. split; [|exact Hl']. cbn [pushes map mrun]. fold (pushes id xs). rewrite (bind_ok _ _ _ _ _ (push_run _ _ _ _ R)), (bind_ok _ _ _ _ _ R'). reflexivity.
Qed.
Lemma pushes_fit id t p : forall xs l q sd (w : jworld A), winv sd (fst w) -> sd !! id = Some (l, true) -> d_obj (fst w) !! id = Some q -> geom N id q t p ->
  exists w' sd' l' q', mrun (j_step N eqb) (pushes id xs) w = Ok (map (fun _ => RUnit) xs, w') /\ winv sd' (fst w') /\ sd' !! id = Some (l', true) /\ d_obj (fst w') !! id = Some q' /\
    (p + length l + length xs <= length t * N \/ length t * N < q_cap q').
Proof.
  induction xs as [|a xs IH]; intros l q sd w Hw El Hq G.
  { pose proof (winv_rdy N HN _ _ _ _ _ _ _ Hw El Hq G) as Hr. apply (rdy_fit N HN) in Hr. exists w, sd, l, q. repeat (split; [reflexivity || assumption|]). left. cbn. lia. }
  destruct (push_back_geo N HN sd (fst w) id l true a Hw El) as (st2 & q' & t' & p' & R & Hw2 & Ho & G2 & _ & q0 & t0 & p0 & Hq0 & G0 & Hg).
  rewrite Hq in Hq0. injection Hq0 as <-. destruct (geom_unique _ _ _ _ _ _ _ G G0) as [-> ->].
  assert (Hq' : d_obj (fst (st2, snd w)) !! id = Some q') by (cbn [fst]; rewrite Ho; apply lookup_insert).
  destruct Hg as [[-> ->]|(_ & Hlen & _)].
  - destruct (IH (l ++ [a]) q' (<[id := (l ++ [a], true)]> sd) (st2, snd w) Hw2 (lookup_insert _ _ _) Hq' G2) as (w' & sd' & l' & q2 & R' & Hw' & El' & Hq2 & Hor).
    exists w', sd', l', q2. split; [|repeat (split; [assumption|]); rewrite app_length in Hor; cbn [length] in *; lia].
    cbn [pushes map mrun]. fold (pushes id xs). rewrite (bind_ok _ _ _ _ _ (push_run _ _ _ _ R)), (bind_ok _ _ _ _ _ R'). reflexivity.
  - destruct (pushes_larger id (length t * N) xs (st2, snd w)) as (w' & R' & sd' & l' & q2 & Hw' & El' & Hq2 & Hc).
    { exists (<[id := (l ++ [a], true)]> sd), (l ++ [a]), q'. split; [exact Hw2|]. split; [apply lookup_insert|]. split; [exact Hq'|].
      destruct G2 as (_ & -> & _), G as (_ & _ & G & _). nia. }
    exists w', sd', l', q2. split; [|repeat (split; [assumption|]); right; exact Hc].
    cbn [pushes map mrun]. fold (pushes id xs). rewrite (bind_ok _ _ _ _ _ (push_run _ _ _ _ R)), (bind_ok _ _ _ _ _ R'). reflexivity.
Qed.
Lemma doubling_loop id it e x t p l : NoDup [e; it; x] -> p + length l + length l <= length t * N -> forall fuel k w, length l <= k + fuel -> k <= length l ->
  at_round id it e t p (length l) k (l ++ take k l) p w ->
  exists w', deach_loop N eqb fuel e it x (doubling x id) (take k l) w = Ok (l, w') /\ at_round id it e t p (length l) (length l) (l ++ l) p w'.
Proof.
  intros Hnd Hfit. induction fuel as [|fuel IH]; intros k w Hf Hk Hw.
  - assert (k = length l) as -> by lia. rewrite firstn_all in *. exists w. split; [eapply round_end; exact Hw|exact Hw].
  - destruct (decide (k = length l)) as [->|Hlt].
    { rewrite firstn_all in *. exists w. split; [eapply round_end; exact Hw|exact Hw]. }
    destruct (lookup_lt_is_Some_2 l k) as [a Ha]; [lia|].
    pose proof (round_with fuel id it e x t p (length l) k _ _ w (fun a => DPushBack id a) (take k l) Hnd ltac:(lia) ltac:(lia) Hw) as Hr. cbv zeta in Hr.
    rewrite cellval_in in Hr by lia. replace (p + k - p) with k in Hr by lia. rewrite lookup_app_l, Ha in Hr by lia.
    destruct Hw as (sd & q & i & j & Hw & El & Hq & G & Hrest).
    destruct (push_back_geo N HN sd (fst w) id _ true a Hw El) as (st' & q' & t' & p' & R & Hw' & Ho & G' & _ & q0 & t0 & p0 & Hq0 & G0 & Hg).
    rewrite Hq in Hq0. injection Hq0 as <-. destruct (geom_unique _ _ _ _ _ _ _ G G0) as [-> ->].
    destruct Hg as [[-> ->]|(Hfull & _)].
    + destruct (Hr RUnit st' (l ++ take (S k) l) p) as (w' & Rl & Hw2).
      * cbn [dq_step]. unfold dq_unit. rewrite (bind_ok _ _ _ _ _ R). reflexivity.
      * exists (<[id := ((l ++ take k l) ++ [a], true)]> sd), q'. split; [exact Hw'|]. rewrite (take_S_r _ _ _ Ha), app_assoc. split; [apply lookup_insert|]. split; [rewrite Ho; apply lookup_insert|exact G'].
      * rewrite <- (take_S_r _ _ _ Ha) in Rl. specialize (IH (S k) w' ltac:(lia) ltac:(lia) Hw2).
        assert (Rl2 : deach_loop N eqb (S fuel) e it x (doubling x id) (take k l) w = deach_loop N eqb fuel e it x (doubling x id) (take (S k) l) w') by exact Rl.
        rewrite Rl2. exact IH.
    + exfalso. rewrite app_length, take_length in Hfull. lia.
Qed.
Lemma doubling_run ops rs (s : jspec A) b e it x id l fuel cap rs2 w0 : NoDup [b; e; it; x] -> srun (js_step eqb) ops jspec0 = SVal (rs, s) -> j_dqs s !! id = Some (l, true) -> length l <= fuel ->
  mrun (j_step N eqb) (ops ++ JDeq (DCapacity id) :: map (fun a => JDeq (DPushBack id a)) l ++ [JDeq (DCapacity id)]) jworld0 = Ok (rs ++ RNat cap :: rs2 ++ [RNat cap], w0) ->
  exists w, run ops id b e fuel it x (doubling x id) [JDeq (DCapacity id); JDeq (DIter id)] = Ok (rs ++ [RUnit; RUnit], l, [RNat cap; RList (l ++ l)], w).
Proof.
  intros Hnd H El Hf Rc. destruct (start_round ops rs s b e it x id l Hnd H El) as (t & p & wa & w1 & w & R0 & R & _ & Hw & Hfw & Hd).
  assert (Hcap : forall (u : jworld A) q, d_obj (fst u) !! id = Some q -> j_step N eqb (JDeq (DCapacity id)) u = Ok (RNat (q_cap q) : out A, u)).
  { intros [u1 u2] q Hq. cbn [j_step]. unfold on_deqs. cbn [dq_step fst snd]. unfold bind, q_get. cbn [fst] in Hq. rewrite Hq. reflexivity. }
  pose proof Hw as (sd & q & i & j & Hw0 & El0 & Hq & G & _). rewrite Hfw in Hw0, Hq.
  destruct (pushes_fit id t p l l q sd wa Hw0 El0 Hq G) as (wb & sd' & l' & q' & R' & _ & _ & Hq' & Hor).
  pose proof (Hcap _ _ Hq) as Rcap. pose proof (Hcap _ _ Hq') as Rcap'.
  rewrite (mrun_app _ _ _ _ _ _ R0) in Rc. cbn [mrun] in Rc. fold (pushes id l) in Rc. unfold bind at 1 2 in Rc. rewrite Rcap in Rc.
  rewrite (mrun_app _ _ _ _ _ _ R') in Rc. cbn [mrun] in Rc. unfold bind in Rc. rewrite Rcap' in Rc. injection Rc as Rc _.
  apply app_inv_head in Rc. injection Rc as E1 Rc. apply app_inj_tail in Rc as [_ Rc]. injection Rc as E2.
  assert (Hfit : p + length l + length l <= length t * N) by (destruct G as (_ & Ec & _); destruct Hor as [Hor|Hor]; [exact Hor|exfalso; lia]).
  rewrite (bind_ok _ _ _ _ _ R). apply NoDup_cons in Hnd as [_ Hnd].
  rewrite <- (app_nil_r l) in Hw at 2. destruct (doubling_loop id it e x t p l Hnd Hfit fuel 0 w ltac:(lia) ltac:(lia) Hw) as (w' & Rl & Hw'); change (take 0 l) with (@nil A) in *.
  rewrite (bind_ok _ _ _ _ _ (eq_trans (Hd _ _ _) Rl)). destruct Hw' as (sd2 & q2 & _ & _ & Hw' & El' & Hq2 & G' & _).
  pose proof (dq_step_ok N HN (DIter id) _ _ Hw') as Hs. cbn [ds_step] in Hs. unfold with_dq in Hs. rewrite El' in Hs. destruct Hs as (st' & Rs & _).
  cbn [mrun]. unfold bind. rewrite (Hcap _ _ Hq2). cbn [j_step]. unfold on_deqs. rewrite Rs. destruct G' as (_ & -> & _), G as (_ & Ec & _). rewrite <- E1, Ec. eexists. reflexivity.
Qed.
End Runs.
