(** How many nested calls DisjointSet::find makes. *)
From Verif Require Import Base VectorModel VectorSpec VecProg VectorProofs VectorWorld VectorExtra LRun Adapter DSUModel DSUSpec DSUProofs.

Lemma find_short f : forall s id A cap x r d,
  s !! id = Some (LVec A cap) -> rootd A x r d -> f <= d ->
  lrun true (ds_find f id (Z.of_nat x)) s = Diverge.
Proof.
  induction f as [|f IH]; intros s id A cap x r d Hs Hr Hd; [reflexivity|]. cbn [ds_find].
  inversion Hr as [x' v Hx Hv|x' p r' d' Hx Hp]; subst; [lia|].
  lgo wget_ok. destruct (Z.ltb_spec (Z.of_nat p) 0); [lia|].
  rewrite lrun_bind. erewrite IH by (first [exact Hs|exact Hp|lia]). reflexivity.
Qed.

(** After a find the element points at its root. *)
Lemma find_direct f s id A cap x r d :
  s !! id = Some (LVec A cap) -> rootd A x r d -> d < f ->
  exists A' d', lrun true (ds_find f id (Z.of_nat x)) s = Ok (Z.of_nat r, <[id := LVec A' cap]> s) /\
    rootd A' x r d' /\ d' <= 1.
Proof.
  intros Hs Hr Hd. destruct f as [|f]; [lia|]. cbn [ds_find].
  inversion Hr as [x' v Hx Hv|x' p r' d' Hx Hp]; subst.
  - lgo wget_ok. destruct (Z.ltb_spec v 0); [|lia]. exists A, 0. rewrite insert_id by assumption. auto.
  - lgo wget_ok. destruct (Z.ltb_spec (Z.of_nat p) 0); [lia|].
    destruct (find_ok f s id A cap p r d' Hs Hp ltac:(lia)) as (A1 & Hrun & Hlen & Hroot).
    rewrite (lrun_bind_ok _ _ _ _ _ _ Hrun).
    assert (x < length A) as Hxl by eauto using lookup_lt_Some.
    erewrite lrun_bind_ok by (eapply wset_ok; [apply lookup_insert|lia]).
    cbn [lrun]. rewrite insert_insert. exists (<[x := Z.of_nat r]> A1), 1. split_and!; [reflexivity| |lia].
    assert (root A x r) as Hxr by (eexists; eauto).
    assert (x <> r) as Hne.
    { intros ->. destruct (proj1 (root_iff_neg _ _ _ Hxr) eq_refl) as (u & Hu & Hu0).
      assert (u = Z.of_nat p) by congruence. lia. }
    destruct (proj1 (root_iff_neg _ _ _ (Hroot _ _ (root_self _ _ _ Hxr))) eq_refl) as (u & Hu & Hu0).
    econstructor; [apply list_lookup_insert; lia|].
    econstructor; [rewrite list_lookup_insert_ne by congruence; exact Hu|exact Hu0].
Qed.

(** ** The chain: connect(1,0), connect(2,1), ... *)
Definition chain (m : nat) : list dop := map (fun k => DConnect 0 (S k) k) (seq 0 m).

Definition chained (n k : nat) (A : list Z) : Prop :=
  length A = n /\ (forall i, i < k -> A !! i = Some (Z.of_nat (S i))) /\
  (forall i, k <= i < n -> exists v, A !! i = Some v /\ (v < 0)%Z).

Lemma find_top_root s id A cap x v :
  s !! id = Some (LVec A cap) -> A !! x = Some v -> (v < 0)%Z ->
  lrun true (ds_find_top id (Z.of_nat x)) s = Ok (Z.of_nat x, s).
Proof.
  intros Hs Hx Hv. unfold ds_find_top. lgo wsize_ok. cbn [ds_find]. lgo wget_ok.
  destruct (Z.ltb_spec v 0); [reflexivity|lia].
Qed.

Lemma chain_step s n k A : s !! 0 = Some (LVec A n) -> chained n k A -> S k < n ->
  exists A', lrun true (ds_step (DConnect 0 (S k) k)) s = Ok (RUnit, <[0 := LVec A' n]> s) /\ chained n (S k) A'.
Proof.
  intros Hs (Hl & Hlo & Hhi) Hk. cbn [ds_step].
  destruct (Hhi k ltac:(lia)) as (b & Hb & Hb0). destruct (Hhi (S k) ltac:(lia)) as (a & Ha & Ha0).
  unfold ds_connect. rewrite lrun_bind.
  rewrite (lrun_bind_ok _ _ _ _ _ _ (find_top_root _ _ _ _ _ _ Hs Ha Ha0)).
  rewrite (lrun_bind_ok _ _ _ _ _ _ (find_top_root _ _ _ _ _ _ Hs Hb Hb0)).
  unfold ds_union. destruct (Z.ltb_spec (Z.of_nat (S k)) (Z.of_nat k)); [lia|].
  rewrite (lrun_bind_ok _ _ _ _ _ _ (wget_ok true _ _ _ _ _ _ Hs Ha)).
  rewrite (lrun_bind_ok _ _ _ _ _ _ (wget_ok true _ _ _ _ _ _ Hs Hb)).
  destruct (Z.eqb_spec a b) as [->|Hab].
  - rewrite (lrun_bind_ok _ _ _ _ _ _ (wset_ok true _ _ _ _ (S k) _ Hs ltac:(lia))).
    erewrite wset_ok by (first [apply lookup_insert|rewrite insert_length; lia]).
    cbn [lrun]. rewrite insert_insert. eexists. split; [reflexivity|].
    split_and!; [rewrite !insert_length; exact Hl| |].
    + intros i Hi. destruct (decide (i = k)) as [->|Hne].
      * apply list_lookup_insert. rewrite insert_length. lia.
      * rewrite !list_lookup_insert_ne by lia. apply Hlo. lia.
    + intros i Hi. rewrite list_lookup_insert_ne by lia. destruct (decide (i = S k)) as [->|Hne].
      * rewrite list_lookup_insert by lia. exists (b - 1)%Z. split; [reflexivity|lia].
      * rewrite list_lookup_insert_ne by lia. apply Hhi. lia.
  - cbn [wbind]. erewrite wset_ok by (first [exact Hs|lia]).
    cbn [lrun]. eexists. split; [reflexivity|].
    split_and!; [rewrite !insert_length; exact Hl| |].
    + intros i Hi. destruct (decide (i = k)) as [->|Hne].
      * apply list_lookup_insert. lia.
      * rewrite !list_lookup_insert_ne by lia. apply Hlo. lia.
    + intros i Hi. rewrite list_lookup_insert_ne by lia. apply Hhi. lia.
Qed.

Lemma chain_run n m : m < n ->
  exists rs A, lrun true (arun ds_step (DNew 0 n :: chain m)) ∅ = Ok (RUnit :: rs, <[0 := LVec A n]> ∅) /\
    rs = repeat RUnit m /\ chained n m A.
Proof.
  intros Hm. change (DNew 0 n :: chain m) with ([DNew 0 n] ++ chain m).
  assert (Hnew : lrun true (arun ds_step [DNew 0 n]) ∅ = Ok ([RUnit], <[0 := LVec (repeat (-1)%Z n) n]> ∅)).
  { cbn [arun ds_step]. rewrite !lrun_bind. erewrite wfill_ok by (first [apply lookup_empty|lia]). reflexivity. }
  rewrite (lrun_arun_app _ _ _ _ _ _ _ Hnew).
  assert (H : forall m, m < n -> exists A, lrun true (arun ds_step (chain m)) (<[0 := LVec (repeat (-1)%Z n) n]> ∅) =
    Ok (repeat RUnit m, <[0 := LVec A n]> ∅) /\ chained n m A).
  { clear m Hm. induction m as [|m IH]; intros Hm.
    - exists (repeat (-1)%Z n). split; [reflexivity|]. split_and!; [apply repeat_length|lia|].
      intros i Hi. exists (-1)%Z. split; [|lia]. rewrite repeat_replicate. apply lookup_replicate_2. lia.
    - destruct (IH ltac:(lia)) as (A & Hrun & Hc).
      assert (E : chain (S m) = chain m ++ [DConnect 0 (S m) m]).
      { unfold chain. rewrite seq_S, map_app. reflexivity. }
      rewrite E, (lrun_arun_app _ _ _ _ _ _ _ Hrun).
      destruct (chain_step (<[0 := LVec A n]> ∅) n m A (lookup_insert _ _ _) Hc Hm) as (A' & Hs & Hc').
      cbn [arun]. rewrite lrun_bind, Hs. cbn [lrun wbind]. exists A'. rewrite insert_insert.
      split; [|exact Hc']. rewrite <- repeat_cons. reflexivity. }
  destruct (H m Hm) as (A & Hrun & Hc). rewrite Hrun. exists (repeat RUnit m), A. auto.
Qed.

Lemma chain_rootd n A : chained (S n) n A -> forall k, k <= n -> rootd A (n - k) n k.
Proof.
  intros (Hl & Hlo & Hhi). induction k as [|k IH]; intros Hk.
  - rewrite Nat.sub_0_r. destruct (Hhi n ltac:(lia)) as (v & Hv & Hv0). econstructor; eassumption.
  - econstructor; [apply Hlo; lia|]. replace (S (n - S k)) with (n - k) by lia. apply IH. lia.
Qed.

(** After the [n] connects find(0) nests [n+1] calls deep. *)
Lemma chain_depth : forall n fuel,
  (exists w, wrun true (arun ds_step (DNew 0 (S n) :: chain n)) world_init = Ok (repeat RUnit (S n), w)) /\
  (fuel <= n ->
    wrun true (_ <- arun ds_step (DNew 0 (S n) :: chain n) ;; ds_find fuel 0 0)%wprog world_init = Diverge) /\
  (n < fuel -> exists w,
    wrun true (_ <- arun ds_step (DNew 0 (S n) :: chain n) ;; ds_find fuel 0 0)%wprog world_init = Ok (Z.of_nat n, w)).
Proof.
  intros n fuel. destruct (chain_run (S n) n ltac:(lia)) as (rs & A & Hrun & Hrs & Hc).
  pose proof (chain_rootd _ _ Hc n ltac:(lia)) as Hr. rewrite Nat.sub_diag in Hr.
  split_and!.
  - pose proof (program_from_scratch true (arun ds_step (DNew 0 (S n) :: chain n))) as Hp.
    rewrite Hrun in Hp. destruct Hp as (w & Hw & _). exists w. rewrite Hw, Hrs. reflexivity.
  - intros Hf. pose proof (program_from_scratch true (_ <- arun ds_step (DNew 0 (S n) :: chain n) ;; ds_find fuel 0 0)%wprog) as Hp.
    rewrite lrun_bind, Hrun in Hp. change 0%Z with (Z.of_nat 0) in Hp |- *.
    erewrite find_short in Hp by (first [apply lookup_insert|exact Hr|lia]). exact Hp.
  - intros Hf. pose proof (program_from_scratch true (_ <- arun ds_step (DNew 0 (S n) :: chain n) ;; ds_find fuel 0 0)%wprog) as Hp.
    rewrite lrun_bind, Hrun in Hp. change 0%Z with (Z.of_nat 0) in Hp |- *.
    destruct (find_ok fuel (<[0 := LVec A (S n)]> ∅) 0 A (S n) 0 n n (lookup_insert _ _ _) Hr Hf) as (A' & Hfind & _).
    rewrite Hfind in Hp. destruct Hp as (w & Hw & _). eauto.
Qed.

(** ** After every history: depth at most n, and at most 2 right after a find *)
Lemma depth_bound : forall ops, exists r, d_run ops ∅ r /\
  match r with
  | SVal (rs, s) => forall id n E, s !! id = Some (DLinks n E) -> forall x, x < n ->
      exists rx w w', rx < n /\ linked E x rx /\
        wrun true (_ <- arun ds_step ops ;; ds_find n id (Z.of_nat x))%wprog world_init = Ok (Z.of_nat rx, w) /\
        wrun true (_ <- arun ds_step (ops ++ [DFind id x]) ;; ds_find 2 id (Z.of_nat x))%wprog world_init = Ok (Z.of_nat rx, w')
  | _ => True
  end.
Proof.
  intros ops. destruct (d_run_lift ops ∅ ∅ lwrel_empty) as (r & Hr & L). exists r. split; [exact Hr|].
  destruct r as [[rs s]| |]; auto. intros id n E Hs x Hx.
  pose proof (rep_history_l ops) as Hrun.
  destruct (srun dr_step ops ∅) as [[rs' t]| |] eqn:Erun; try contradiction. destruct L as [-> L].
  destruct Hrun as (ls & Hrun & HR).
  pose proof (L id) as Hid. rewrite Hs in Hid. destruct (t !! id) as [d|] eqn:Et; [|contradiction].
  pose proof Hid as (Hlen & _ & Hrep & Hcl). cbn [dl_n dl_pairs] in *.
  destruct (wrel_some _ _ _ _ HR Et) as (A & cap & Hls & Hd).
  destruct (Hrep x Hx) as (Hrx & _ & Hlx).
  pose proof (proj1 Hd) as HlA.
  destruct (proj2 Hd x ltac:(lia)) as [k Hk]. pose proof (rootd_depth _ _ _ _ Hk) as Hkn.
  exists (rep d x).
  pose proof (program_from_scratch true (_ <- arun ds_step ops ;; ds_find n id (Z.of_nat x))%wprog) as Hp1.
  destruct (find_ok n ls id A cap x _ k Hls Hk ltac:(lia)) as (A1 & Hf1 & _).
  rewrite lrun_bind, Hrun, Hf1 in Hp1. destruct Hp1 as (w1 & Hw1 & _).
  pose proof (program_from_scratch true (_ <- arun ds_step (ops ++ [DFind id x]) ;; ds_find 2 id (Z.of_nat x))%wprog) as Hp2.
  assert (Hft : exists A2 d2, lrun true (ds_find_top id (Z.of_nat x)) ls = Ok (Z.of_nat (rep d x), <[id := LVec A2 cap]> ls) /\
    rootd A2 x (rep d x) d2 /\ d2 <= 1).
  { unfold ds_find_top. lgo wsize_ok. eapply find_direct; [exact Hls|exact Hk|lia]. }
  destruct Hft as (A2 & d2 & Hf2 & Hr2 & Hd2).
  rewrite lrun_bind, (lrun_arun_app _ _ _ _ _ _ _ Hrun) in Hp2. cbn [arun ds_step] in Hp2.
  rewrite !lrun_bind, Hf2 in Hp2. cbn [lrun wbind] in Hp2.
  destruct (find_ok 2 (<[id := LVec A2 cap]> ls) id A2 cap x _ d2 (lookup_insert _ _ _) Hr2 ltac:(lia)) as (A3 & Hf3 & _).
  rewrite Hf3 in Hp2. destruct Hp2 as (w2 & Hw2 & _).
  exists w1, w2. auto.
Qed.
