(** Proofs about union_set called by a client. *)
From Coq Require Import Relations.
From Verif Require Import Base VectorModel VectorSpec VecProg VectorProofs VectorWorld VectorExtra Adapter LRun DSUModel DSUSpec DSUProofs
  DSUUnionModel DSUUnionSpec.

(** ** Forests *)

(** A slot on no path to [rz] may be overwritten. *)
Lemma root_other A y ry u z rz : root A y ry -> root A z rz -> rz <> ry -> root (<[y := u]> A) z rz.
Proof.
  intros Hy [d Hz] Hne. revert Hne. induction Hz as [z v Hz Hv|z p rz d Hz Hp IH]; intros Hne.
  - exists 0. apply rootd_here with v; [|exact Hv]. rewrite list_lookup_insert_ne; [exact Hz|].
    intros ->. apply Hne. eapply root_det; [|exact Hy]. exists 0. econstructor; eauto.
  - destruct (IH Hne) as [d' Hd']. exists (S d'). apply rootd_up with p; [|exact Hd'].
    rewrite list_lookup_insert_ne; [exact Hz|]. intros ->. apply Hne. eapply root_det; [|exact Hy].
    exists (S d). econstructor; eauto.
Qed.

(** [y] put below an element of another set: every element keeps its root,
    or had the root of [y] and has the new one now. *)
Lemma reparent A x rx y ry : root A x rx -> root A y ry -> rx <> ry ->
  root (<[y := Z.of_nat x]> A) y rx /\
  forall z rz, root A z rz -> root (<[y := Z.of_nat x]> A) z rz \/ (rz = ry /\ root (<[y := Z.of_nat x]> A) z rx).
Proof.
  intros Hx Hy Hne.
  assert (root (<[y := Z.of_nat x]> A) y rx) as Hyx.
  { destruct (root_other A y ry (Z.of_nat x) x rx Hy Hx Hne) as [d Hd]. exists (S d).
    apply rootd_up with x; [|exact Hd]. apply list_lookup_insert. eapply root_lt; eauto. }
  split; [exact Hyx|]. intros z rz [d Hz]. induction Hz as [z v Hz Hv|z p rz d Hz Hp IH].
  - destruct (decide (z = y)) as [->|Hzy].
    + right. split; [|exact Hyx]. eapply root_det; [|exact Hy]. exists 0. econstructor; eauto.
    + left. exists 0. apply rootd_here with v; [|exact Hv]. rewrite list_lookup_insert_ne; [exact Hz|congruence].
  - destruct (decide (z = y)) as [->|Hzy].
    + right. split; [|exact Hyx]. eapply root_det; [|exact Hy]. exists (S d). econstructor; eauto.
    + assert (<[y := Z.of_nat x]> A !! z = Some (Z.of_nat p)) as Hz' by (rewrite list_lookup_insert_ne; [exact Hz|congruence]).
      destruct IH as [[d' IH]|[E [d' IH]]]; [left|right; split; [exact E|]]; exists (S d'); econstructor; eauto.
Qed.

(** A root put below an element of another set takes its whole set along. *)
Lemma link_below A x rx y : root A x rx -> root A y y -> rx <> y ->
  forall z rz, root A z rz -> root (<[y := Z.of_nat x]> A) z (if Nat.eqb rz y then rx else rz).
Proof.
  intros Hx Hy Hne z rz Hz. destruct (reparent A x rx y y Hx Hy Hne) as [Hyx Hall].
  destruct (Nat.eqb_spec rz y) as [->|Hrz].
  - destruct (Hall z y Hz) as [H|[_ H]]; [|exact H]. exfalso.
    pose proof (root_self _ _ _ H) as H'. pose proof (root_det _ _ _ _ H' Hyx). congruence.
  - destruct (Hall z rz Hz) as [H|[E _]]; [exact H|contradiction].
Qed.

Lemma root_nonneg A x r : root A x r -> x <> r -> exists p, A !! x = Some (Z.of_nat p) /\ root A p r.
Proof.
  intros [d H] Hne. inversion H; subst; [congruence|]. eexists. split; [eassumption|]. eexists; eassumption.
Qed.

Lemma neg_same (A : list Z) (y : nat) (p u : Z) : A !! y = Some p -> (0 <= p)%Z -> (0 <= u)%Z ->
  length (List.filter (fun v => (v <? 0)%Z) (<[y := u]> A)) = length (List.filter (fun v => (v <? 0)%Z) A).
Proof.
  revert y. induction A as [|a A IH]; intros y Hy Hp Hu; [discriminate|].
  destruct y as [|y]; cbn [insert list_insert List.filter].
  - injection Hy as ->. destruct (Z.ltb_spec u 0), (Z.ltb_spec p 0); try lia; try reflexivity.
  - specialize (IH y Hy Hp Hu). destruct (a <? 0)%Z; cbn [length]; [f_equal|]; exact IH.
Qed.
Lemma neg_gone (A : list Z) (y : nat) (p u : Z) : A !! y = Some p -> (p < 0)%Z -> (0 <= u)%Z ->
  S (length (List.filter (fun v => (v <? 0)%Z) (<[y := u]> A))) = length (List.filter (fun v => (v <? 0)%Z) A).
Proof.
  revert y. induction A as [|a A IH]; intros y Hy Hp Hu; [discriminate|].
  destruct y as [|y]; cbn [insert list_insert List.filter].
  - injection Hy as ->. destruct (Z.ltb_spec u 0), (Z.ltb_spec p 0); try lia; try reflexivity.
  - specialize (IH y Hy Hp Hu). destruct (a <? 0)%Z; cbn [length]; [f_equal|]; exact IH.
Qed.

(** ** One call of union_set *)
Section Runs.
Implicit Types s : lworld Z.

(** Not both roots, or not of equal rank: only slot [y] changes. *)
Lemma union_set_slot s id A cap x y a b : s !! id = Some (LVec A cap) -> A !! x = Some a -> A !! y = Some b ->
  x = y \/ a <> b ->
  lrun true (ds_union id (Z.of_nat x) (Z.of_nat y)) s = Ok (tt, <[id := LVec (<[y := Z.of_nat x]> A) cap]> s).
Proof.
  intros Hs Hx Hy [->|Hab]; [eapply union_self; eauto|].
  assert (y < length A) by eauto using lookup_lt_Some. unfold ds_union.
  destruct (Z.ltb_spec (Z.of_nat x) (Z.of_nat y)); [erewrite wset_ok by eauto; reflexivity|].
  lgo wget_ok. lgo wget_ok. destruct (Z.eqb_spec a b); [contradiction|]. cbn [wbind].
  erewrite wset_ok by eauto. reflexivity.
Qed.

Lemma union_range s id A cap x y : s !! id = Some (LVec A cap) -> length A <= x \/ length A <= y ->
  lrun true (ds_union id (Z.of_nat x) (Z.of_nat y)) s = Abort.
Proof.
  intros Hs Hr. unfold ds_union. destruct (Z.ltb_spec (Z.of_nat x) (Z.of_nat y)).
  - eapply wset_abort; [exact Hs|]. lia.
  - rewrite lrun_bind. erewrite wget_abort by (eauto; lia). reflexivity.
Qed.

Lemma union_rep s id A cap d x y : s !! id = Some (LVec A cap) -> drel d A -> x < length d -> y < length d ->
  rep d y = y -> rep d x <> y ->
  exists A', lrun true (ds_union id (Z.of_nat x) (Z.of_nat y)) s = Ok (tt, <[id := LVec A' cap]> s) /\
    drel (map (fun z => if Nat.eqb z y then rep d x else z) d) A'.
Proof.
  intros Hs Hd Hx Hy Ey Hne. pose proof Hd as [Hl Hr].
  destruct (decide (x = rep d x)) as [Ex|Hxr].
  - destruct (union_ok s id A cap d x y Hs Hd Hx Hy ltac:(congruence)) as (A' & Hrun & Hd').
    rewrite Ey, <- Ex in Hrun. rewrite Ey in Hd'. eauto.
  - pose proof (Hr x ltac:(lia)) as Hrx. pose proof (Hr y ltac:(lia)) as Hry. rewrite Ey in Hry.
    destruct (root_nonneg _ _ _ Hrx Hxr) as (p & Hp & _).
    destruct (proj1 (root_iff_neg _ _ _ Hry) eq_refl) as (v & Hv & Hv0).
    eexists. split; [eapply union_set_slot; eauto; right; lia|]. split.
    + rewrite map_length, insert_length. exact Hl.
    + rewrite insert_length. intros z Hz. rewrite (rep_map (fun z => if Nat.eqb z y then rep d x else z)) by lia.
      apply link_below; auto.
Qed.

Lemma union_noop s id A cap d x y : s !! id = Some (LVec A cap) -> drel d A -> x < length d -> y < length d ->
  rep d y = x -> y <> x ->
  exists A', lrun true (ds_union id (Z.of_nat x) (Z.of_nat y)) s = Ok (tt, <[id := LVec A' cap]> s) /\ drel d A'.
Proof.
  intros Hs Hd Hx Hy Ey Hne. pose proof Hd as [Hl Hr].
  pose proof (Hr y ltac:(lia)) as Hry. rewrite Ey in Hry.
  destruct (root_nonneg _ _ _ Hry Hne) as (p & Hp & _).
  destruct (proj1 (root_iff_neg _ _ _ (root_self _ _ _ Hry)) eq_refl) as (v & Hv & Hv0).
  eexists. split; [eapply union_set_slot; eauto; right; lia|]. split.
  - rewrite insert_length. exact Hl.
  - rewrite insert_length. intros z Hz. apply compress_root; auto.
Qed.

(** ** Histories *)
Lemma us_step_agree o (s : gmap nat (list nat)) ls : wrel s ls -> agree wrel (du_step o s) (lrun true (us_step o) ls).
Proof.
  intros H. destruct o as [o|id x y]; [apply ds_step_agree, H|]. cbn [du_step us_step].
  destruct (s !! id) as [d|] eqn:E; [|exact I]. destruct (wrel_some _ _ _ _ H E) as (A & cap & Hls & Hd).
  pose proof (proj1 Hd) as Hl.
  destruct (Nat.ltb_spec x (length d)) as [Hx|Hx]; simpl andb; cbv iota; cycle 1.
  { rewrite lrun_bind. erewrite union_range by (eauto; left; lia). reflexivity. }
  destruct (Nat.ltb_spec y (length d)) as [Hy|Hy]; cycle 1.
  { rewrite lrun_bind. erewrite union_range by (eauto; right; lia). reflexivity. }
  destruct (Nat.eqb_spec (rep d y) y) as [Ey|Ey].
  - destruct (Nat.eqb_spec (rep d x) y) as [Ex|Ex]; [exact I|].
    destruct (union_rep _ _ _ _ _ x y Hls Hd Hx Hy Ey Ex) as (A' & Hrun & Hd').
    rewrite (lrun_bind_ok _ _ _ _ _ _ Hrun). eexists. split; [reflexivity|]. apply wrel_insert; auto.
  - destruct (Nat.eqb_spec (rep d y) x) as [Ex|Ex]; [|exact I].
    destruct (union_noop _ _ _ _ _ x y Hls Hd Hx Hy Ex ltac:(congruence)) as (A' & Hrun & Hd').
    rewrite (lrun_bind_ok _ _ _ _ _ _ Hrun). eexists. split; [reflexivity|]. eapply wrel_insert_l; eauto.
Qed.

Lemma us_run_agree ops (s : gmap nat (list nat)) ls : wrel s ls -> agree wrel (srun du_step ops s) (lrun true (arun us_step ops) ls).
Proof. apply arun_agree. exact us_step_agree. Qed.

End Runs.

Lemma union_history : forall ops,
  match srun du_step ops ∅ with
  | SVal (rs, s) => exists w, wrun true (arun us_step ops) world_init = Ok (rs, w) /\ storage_ok w
  | SAbort => wrun true (arun us_step ops) world_init = Abort
  | SUnspec => True
  end.
Proof.
  intros ops. pose proof (wrun_agree true wrel _ _ (us_run_agree ops ∅ ∅ wrel_empty)) as H.
  destruct (srun du_step ops ∅) as [[rs s]| |]; auto. destruct H as (w & ? & _ & ?). eauto.
Qed.

(** ** Representatives of reachable states *)
Definition wf_reps (d : list nat) : Prop := forall x, x < length d -> rep d x < length d /\ rep d (rep d x) = rep d x.
Lemma drel_wf d A : drel d A -> wf_reps d.
Proof.
  intros Hd x Hx. pose proof Hd as [Hl Hr]. pose proof (Hr x ltac:(lia)) as H. split.
  - rewrite Hl. eapply root_root_lt; eauto.
  - symmetry. eapply drel_root_eq; [exact Hd|]. eapply root_self; eauto.
Qed.

Lemma reach ops rs t : srun du_step ops ∅ = SVal (rs, t) ->
  exists ls, lrun true (arun us_step ops) ∅ = Ok (rs, ls) /\ wrel t ls.
Proof. intros H. pose proof (us_run_agree ops ∅ ∅ wrel_empty) as Ha. rewrite H in Ha. exact Ha. Qed.

Lemma reach_wf ops rs t id d : srun du_step ops ∅ = SVal (rs, t) -> t !! id = Some d -> wf_reps d.
Proof.
  intros H Hd. destruct (reach _ _ _ H) as (ls & _ & HR). destruct (wrel_some _ _ _ _ HR Hd) as (A & cap & _ & Hr).
  eapply drel_wf; eauto.
Qed.

(** ** In place of connect *)
(** union_set(x, r) with r the representative of a set without x may take
    the place of connect(x, y), for any y of that set. *)
Lemma union_connect : forall ops1 ops2 id x y rs1 t1 d rs2 t2,
  srun du_step ops1 ∅ = SVal (rs1, t1) -> t1 !! id = Some d -> x < length d -> y < length d -> rep d x <> rep d y ->
  srun du_step (UDo (DConnect id x y) :: ops2) t1 = SVal (rs2, t2) ->
  exists w w', wrun true (arun us_step (ops1 ++ UDo (DConnect id x y) :: ops2)) world_init = Ok (rs1 ++ rs2, w) /\
    wrun true (arun us_step (ops1 ++ UUnion id x (rep d y) :: ops2)) world_init = Ok (rs1 ++ rs2, w').
Proof.
  intros ops1 ops2 id x y rs1 t1 d rs2 t2 H1 Ht Hx Hy Hne H2. destruct (reach_wf _ _ _ _ _ H1 Ht y Hy) as [Hrl Hrr].
  pose proof (union_history (ops1 ++ UDo (DConnect id x y) :: ops2)) as Ha. rewrite srun_app, H1, H2 in Ha.
  pose proof (union_history (ops1 ++ UUnion id x (rep d y) :: ops2)) as Hb. rewrite srun_app, H1 in Hb.
  assert (srun du_step (UUnion id x (rep d y) :: ops2) t1 = SVal (rs2, t2)) as H2'.
  { rewrite <- H2. cbn [srun du_step dr_step]. rewrite Ht.
    rewrite (proj2 (Nat.ltb_lt x (length d))), (proj2 (Nat.ltb_lt y (length d))), (proj2 (Nat.ltb_lt (rep d y) (length d))) by lia.
    simpl andb. cbv iota. rewrite Hrr, Nat.eqb_refl. rewrite (proj2 (Nat.eqb_neq (rep d x) (rep d y))) by exact Hne. reflexivity. }
  rewrite H2' in Hb. destruct Ha as (w & Ha & _). destruct Hb as (w' & Hb & _). eauto.
Qed.

(** Choosing a root for every element. *)
Lemma choose_reps A (P : nat -> nat -> Prop) : (forall x, x < length A -> exists r, root A x r /\ P x r) ->
  exists d, drel d A /\ forall x, x < length A -> P x (rep d x).
Proof.
  intros H.
  assert (forall n, n <= length A -> exists d, length d = n /\ forall x, x < n -> root A x (rep d x) /\ P x (rep d x)) as Hn.
  { induction n as [|n IH]; intros Hle; [exists []; split; [reflexivity|lia]|].
    destruct (IH ltac:(lia)) as (d & Hl & Hd). destruct (H n ltac:(lia)) as (r & Hr & HP).
    exists (d ++ [r]). split; [rewrite app_length; simpl; lia|]. intros x Hx. unfold rep.
    destruct (decide (x = n)) as [->|Hne].
    - rewrite app_nth2, Hl, Nat.sub_diag by lia. cbn [nth]. auto.
    - rewrite app_nth1 by lia. apply Hd. lia. }
  destruct (Hn _ (Nat.le_refl _)) as (d & Hl & Hd). exists d. split; [split; [exact Hl|]|]; intros x Hx; apply Hd; exact Hx.
Qed.

(** ** A second argument that represents nothing: the set is torn apart *)
Lemma union_split : forall ops rs t id d x y,
  srun du_step ops ∅ = SVal (rs, t) -> t !! id = Some d -> x < length d -> y < length d ->
  rep d y <> y -> rep d x <> rep d y ->
  exists d', length d' = length d /\ classes d' = classes d /\
    rep d' x = rep d x /\ rep d' y = rep d x /\ rep d' (rep d y) = rep d y /\
    (forall z, z < length d -> rep d' z = rep d z \/ (rep d z = rep d y /\ rep d' z = rep d x)) /\
    forall ops2, match srun du_step ops2 (<[id := d']> t) with
      | SVal (rs2, _) => exists w, wrun true (arun us_step (ops ++ UUnion id x y :: ops2)) world_init = Ok (rs ++ RUnit :: rs2, w) /\ storage_ok w
      | SAbort => wrun true (arun us_step (ops ++ UUnion id x y :: ops2)) world_init = Abort
      | SUnspec => True
      end.
Proof.
  intros ops rs t id d x y H Ht Hx Hy Hyr Hne. destruct (reach _ _ _ H) as (ls & Hrun & HR).
  destruct (wrel_some _ _ _ _ HR Ht) as (A & cap & Hls & Hd). pose proof Hd as [Hl Hr].
  pose proof (Hr x ltac:(lia)) as Hrx. pose proof (Hr y ltac:(lia)) as Hry.
  destruct (root_nonneg _ _ _ Hry ltac:(congruence)) as (p & Hp & Hpr).
  set (A' := <[y := Z.of_nat x]> A).
  assert (exists a, A !! x = Some a /\ (x = y \/ a <> Z.of_nat p)) as (a & Ha & Hap).
  { destruct (decide (x = rep d x)) as [Ex|Ex].
    - destruct (proj1 (root_iff_neg _ _ _ Hrx) Ex) as (v & Hv & Hv0). exists v. split; [exact Hv|]. right. lia.
    - destruct (root_nonneg _ _ _ Hrx Ex) as (q & Hq & Hqr). exists (Z.of_nat q). split; [exact Hq|]. right.
      intros E. apply Nat2Z.inj in E. subst q. apply Hne. eapply root_det; eauto. }
  pose proof (union_set_slot ls id A cap x y a _ Hls Ha Hp Hap) as Hu. fold A' in Hu.
  destruct (reparent A x _ y _ Hrx Hry Hne) as [Hyx Hall]. fold A' in Hyx, Hall.
  assert (length A' = length A) as Hl' by (unfold A'; apply insert_length).
  destruct (choose_reps A' (fun z r => r = rep d z \/ (rep d z = rep d y /\ r = rep d x))) as (d' & Hd' & Hz).
  { rewrite Hl'. intros z Hz. destruct (Hall z _ (Hr z Hz)) as [Hc|[E Hc]]; eauto. }
  exists d'. pose proof (proj1 Hd') as Hld'.
  assert (rep d' x = rep d x) as E1.
  { symmetry. eapply drel_root_eq; [exact Hd'|]. apply root_other with (ry := rep d y); assumption. }
  assert (rep d' y = rep d x) as E2.
  { symmetry. eapply drel_root_eq; [exact Hd'|exact Hyx]. }
  assert (rep d' (rep d y) = rep d y) as E3.
  { symmetry. eapply drel_root_eq; [exact Hd'|].
    destruct (proj1 (root_iff_neg _ _ _ (root_self _ _ _ Hry)) eq_refl) as (v & Hv & Hv0).
    exists 0. apply rootd_here with v; [|exact Hv0]. unfold A'. rewrite list_lookup_insert_ne by congruence. exact Hv. }
  split_and!; auto.
  - lia.
  - rewrite <- (classes_neg _ _ Hd), <- (classes_neg _ _ Hd'). unfold A'. eapply neg_same; [exact Hp|lia|lia].
  - intros z Hzl. apply Hz. lia.
  - intros ops2.
    assert (wrel (<[id := d']> t) (<[id := LVec A' cap]> ls)) as HR' by (apply wrel_insert; assumption).
    pose proof (us_run_agree ops2 _ _ HR') as Hg.
    pose proof (program_from_scratch true (arun us_step (ops ++ UUnion id x y :: ops2))) as Hps.
    rewrite (lrun_arun_app _ _ _ _ _ _ _ Hrun) in Hps. cbn [arun us_step] in Hps.
    rewrite !lrun_bind, Hu in Hps. cbn [lrun] in Hps. rewrite lrun_bind in Hps.
    destruct (srun du_step ops2 (<[id := d']> t)) as [[rs2 t2]| |]; simpl in Hg; [|rewrite Hg in Hps; exact Hps|exact I].
    destruct Hg as (ls2 & Hg & _). rewrite Hg in Hps. cbn [lrun] in Hps. destruct Hps as (w & Hw & _ & Hst). eauto.
Qed.

(** ** A second argument that represents the first: an endless chain *)
Lemma find_cycle f : forall s id A cap x r z,
  root A x r -> root A z r -> s !! id = Some (LVec (<[r := Z.of_nat x]> A) cap) ->
  lrun true (ds_find f id (Z.of_nat z)) s = Diverge.
Proof.
  induction f as [|f IH]; intros s id A cap x r z Hx Hz Hs; [reflexivity|]. cbn [ds_find].
  assert (r < length A) as Hr by (eapply root_root_lt; eauto).
  destruct (decide (z = r)) as [->|Hne].
  - erewrite lrun_bind_ok by (eapply wget_ok; [exact Hs|apply list_lookup_insert; assumption]).
    destruct (Z.ltb_spec (Z.of_nat x) 0); [lia|]. rewrite lrun_bind, (IH s id A cap x r x Hx Hx Hs). reflexivity.
  - destruct (root_nonneg _ _ _ Hz Hne) as (p & Hp & Hpr).
    erewrite lrun_bind_ok by (eapply wget_ok; [exact Hs|rewrite list_lookup_insert_ne by congruence; exact Hp]).
    destruct (Z.ltb_spec (Z.of_nat p) 0); [lia|]. rewrite lrun_bind, (IH s id A cap x r p Hx Hpr Hs). reflexivity.
Qed.

Lemma find_self f : forall s id A cap y, s !! id = Some (LVec A cap) -> A !! y = Some (Z.of_nat y) ->
  lrun true (ds_find f id (Z.of_nat y)) s = Diverge.
Proof.
  induction f as [|f IH]; intros s id A cap y Hs Hy; [reflexivity|]. cbn [ds_find].
  erewrite lrun_bind_ok by (eapply wget_ok; [exact Hs|exact Hy]).
  destruct (Z.ltb_spec (Z.of_nat y) 0); [lia|]. rewrite lrun_bind. erewrite IH; eauto.
Qed.

Lemma union_cycle : forall ops rs t id d x y,
  srun du_step ops ∅ = SVal (rs, t) -> t !! id = Some d -> x < length d -> rep d x = y ->
  (exists w, wrun true (arun us_step (ops ++ [UUnion id x y; UDo (DCount id)])) world_init
     = Ok (rs ++ [RUnit; RNat (classes d - 1)], w)) /\
  forall z, z < length d -> rep d z = y -> forall fuel,
    wrun true (_ <- arun us_step (ops ++ [UUnion id x y]) ;; ds_find fuel id (Z.of_nat z))%wprog world_init = Diverge.
Proof.
  intros ops rs t id d x y H Ht Hx Exy. destruct (reach _ _ _ H) as (ls & Hrun & HR).
  destruct (wrel_some _ _ _ _ HR Ht) as (A & cap & Hls & Hd). pose proof Hd as [Hl Hr].
  pose proof (Hr x ltac:(lia)) as Hrx. rewrite Exy in Hrx. pose proof (root_self _ _ _ Hrx) as Hry.
  destruct (proj1 (root_iff_neg _ _ _ Hry) eq_refl) as (v & Hv & Hv0).
  assert (exists a, A !! x = Some a /\ (x = y \/ a <> v)) as (a & Ha & Hap).
  { destruct (decide (x = y)) as [->|Ex]; [eauto|]. destruct (root_nonneg _ _ _ Hrx Ex) as (q & Hq & _).
    exists (Z.of_nat q). split; [exact Hq|]. right. lia. }
  pose proof (union_set_slot ls id A cap x y a _ Hls Ha Hv Hap) as Hu. split.
  - pose proof (program_from_scratch true (arun us_step (ops ++ [UUnion id x y; UDo (DCount id)]))) as Hps.
    rewrite (lrun_arun_app _ _ _ _ _ _ _ Hrun) in Hps. cbn [arun us_step ds_step] in Hps.
    rewrite !lrun_bind, Hu in Hps. cbn [lrun] in Hps. rewrite !lrun_bind in Hps. unfold ds_count in Hps.
    rewrite !lrun_bind in Hps. erewrite witer_ok in Hps by apply lookup_insert. cbn [lrun wbind] in Hps.
    destruct Hps as (w & Hw & _). exists w. rewrite Hw.
    pose proof (neg_gone A y v (Z.of_nat x) Hv Hv0 ltac:(lia)) as Hneg. rewrite (classes_neg _ _ Hd) in Hneg.
    replace (classes d - 1) with (length (List.filter (fun v => (v <? 0)%Z) (<[y := Z.of_nat x]> A))) by lia. reflexivity.
  - intros z Hz Ez fuel.
    pose proof (program_from_scratch true (_ <- arun us_step (ops ++ [UUnion id x y]) ;; ds_find fuel id (Z.of_nat z))%wprog) as Hps.
    rewrite lrun_bind, (lrun_arun_app _ _ _ _ _ _ _ Hrun) in Hps. cbn [arun us_step] in Hps.
    rewrite !lrun_bind, Hu in Hps. cbn [lrun wbind] in Hps.
    pose proof (Hr z ltac:(lia)) as Hrz. rewrite Ez in Hrz.
    erewrite find_cycle in Hps by (first [exact Hrx|exact Hrz|apply lookup_insert]). exact Hps.
Qed.

Lemma union_loop : forall ops rs t id d x,
  srun du_step ops ∅ = SVal (rs, t) -> t !! id = Some d -> x < length d -> forall fuel,
    wrun true (_ <- arun us_step (ops ++ [UUnion id x x]) ;; ds_find fuel id (Z.of_nat x))%wprog world_init = Diverge.
Proof.
  intros ops rs t id d x H Ht Hx fuel. destruct (reach _ _ _ H) as (ls & Hrun & HR).
  destruct (wrel_some _ _ _ _ HR Ht) as (A & cap & Hls & Hd). pose proof Hd as [Hl Hr].
  destruct (lookup_lt_is_Some_2 A x ltac:(lia)) as [v Hv].
  pose proof (union_self ls id A cap x v Hls Hv) as Hu.
  pose proof (program_from_scratch true (_ <- arun us_step (ops ++ [UUnion id x x]) ;; ds_find fuel id (Z.of_nat x))%wprog) as Hps.
  rewrite lrun_bind, (lrun_arun_app _ _ _ _ _ _ _ Hrun) in Hps. cbn [arun us_step] in Hps.
  rewrite !lrun_bind, Hu in Hps. cbn [lrun wbind] in Hps.
  erewrite find_self in Hps by (first [apply lookup_insert|apply list_lookup_insert; lia]). exact Hps.
Qed.
