(** Disjoint sets with numbers counted from the end. *)
From Verif Require Import Base VectorModel VectorSpec VecProg VectorProofs VectorWorld VectorExtra Adapter LRun DSUModel DSUSpec DSUProofs DSUSignModel DSUSignSpec.
Local Open Scope nat_scope.

Section P.
Implicit Types (s : lworld Z) (A : list Z) (d : list nat) (x y : Z).

Lemma wget_at s id A cap x k v : s !! id = Some (LVec A cap) -> py_index (length A) x = Some k -> A !! k = Some v -> lrun true (wget id x) s = Ok (v, s).
Proof. intros Hs Hp Hv. unfold wget, wval. cbn [lrun lw_step lv_step]. unfold lwith, at_index. rewrite Hs. cbn [l_seq]. rewrite Hp, nth_error_lookup, Hv. reflexivity. Qed.
Lemma wset_at s id A cap x k v : s !! id = Some (LVec A cap) -> py_index (length A) x = Some k -> lrun true (wset id x v) s = Ok (tt, <[id := LVec (<[k := v]> A) cap]> s).
Proof. intros Hs Hp. unfold wset, wunit. cbn [lrun lw_step lv_step]. unfold lwith, at_index. rewrite Hs. cbn [l_seq l_cap]. rewrite Hp. reflexivity. Qed.
Lemma element_py d x : element d x = py_index (length d) x.
Proof. unfold element, py_index. destruct (Z.leb_spec 0 x), (Z.ltb_spec x (Z.of_nat (length d))), (Z.ltb_spec x 0), (Z.leb_spec (- Z.of_nat (length d)) x); cbn; try reflexivity; lia. Qed.
Lemma py_lt n x k : py_index n x = Some k -> k < n.
Proof. unfold py_index. destruct (Z.leb_spec 0 x), (Z.ltb_spec x (Z.of_nat n)), (Z.leb_spec (- Z.of_nat n) x); intros [= <-]; lia. Qed.
Lemma py_nat n k : k < n -> py_index n (Z.of_nat k) = Some k.
Proof. intros H. unfold py_index. destruct (Z.leb_spec 0 (Z.of_nat k)); [|lia]. destruct (Z.ltb_spec (Z.of_nat k) (Z.of_nat n)); [|lia]. rewrite Nat2Z.id. reflexivity. Qed.
Lemma py_neg n k : k < n -> py_index n (Z.of_nat k - Z.of_nat n) = Some k.
Proof.
  intros H. unfold py_index. destruct (Z.leb_spec 0 (Z.of_nat k - Z.of_nat n)); [lia|]. destruct (Z.leb_spec (- Z.of_nat n) (Z.of_nat k - Z.of_nat n)); [|lia]. f_equal. lia.
Qed.
Lemma py_pos n x k : py_index n x = Some k -> (0 <= x)%Z -> x = Z.of_nat k.
Proof. unfold py_index. destruct (Z.leb_spec 0 x), (Z.ltb_spec x (Z.of_nat n)), (Z.leb_spec (- Z.of_nat n) x); intros [= <-]; lia. Qed.

(** What find answers. *)
Definition zfind d x k : Z := if (0 <=? x)%Z || negb (rep d k =? k) then Z.of_nat (rep d k) else x.
Lemma find_z s id A cap d x k : s !! id = Some (LVec A cap) -> drel d A -> py_index (length d) x = Some k ->
  exists A', lrun true (ds_find_top id x) s = Ok (zfind d x k, <[id := LVec A' cap]> s) /\ drel d A'.
Proof.
  intros Hs Hd Hp. pose proof Hd as [Hl Hr]. pose proof (py_lt _ _ _ Hp) as Hk. unfold zfind. destruct (Z.leb_spec 0 x) as [H0|H0]; cbn [orb].
  - rewrite (py_pos _ _ _ Hp H0). eapply find_top_ok; eauto.
  - rewrite Hl in Hp. unfold ds_find_top. lgo wsize_ok. cbn [ds_find]. destruct (Hr k ltac:(lia)) as [n Hn].
    inversion Hn as [k' v Hv Hv0|k' p r' n' Hv Hp']; subst.
    + match goal with E : k = rep d k |- _ => rewrite <- E in Hv end. rewrite (lrun_bind_ok _ _ _ _ _ _ (wget_at _ _ _ _ _ _ _ Hs Hp Hv)). destruct (Z.ltb_spec v 0); [|lia].
      match goal with |- context[negb (Nat.eqb ?a ?b)] => rewrite (proj2 (Nat.eqb_eq a b)) by congruence end. cbn [negb lrun]. exists A. rewrite insert_id by exact Hs. auto.
    + rewrite (lrun_bind_ok _ _ _ _ _ _ (wget_at _ _ _ _ _ _ _ Hs Hp Hv)). destruct (Z.ltb_spec (Z.of_nat p) 0); [lia|].
      assert (Hxr : root A k (rep d k)) by (eexists; exact Hn).
      assert (Hne : rep d k <> k). { intros E. destruct (proj1 (root_iff_neg _ _ _ Hxr) (eq_sym E)) as (u & Hu & Hu0). assert (u = Z.of_nat p) by congruence. lia. }
      rewrite (proj2 (Nat.eqb_neq _ _) Hne). cbn [negb].
      destruct (find_ok (length A) s id A cap p _ n' Hs Hp') as (A1 & Hrun & Hlen & Hroot). { pose proof (rootd_depth _ _ _ _ Hn). lia. }
      rewrite (lrun_bind_ok _ _ _ _ _ _ Hrun). erewrite lrun_bind_ok by (eapply wset_at; [apply lookup_insert|rewrite Hlen; exact Hp]).
      cbn [lrun]. rewrite insert_insert. eexists. split; [reflexivity|]. split; [rewrite insert_length; lia|]. rewrite insert_length. intros z Hz. apply compress_root; [auto|congruence|apply Hroot, Hr; lia].
Qed.
Lemma find_z_abort s id A cap d x : s !! id = Some (LVec A cap) -> drel d A -> (Z.of_nat (length d) <= x)%Z -> lrun true (ds_find_top id x) s = Abort.
Proof. intros Hs [Hl _] Hx. rewrite <- (Z2Nat.id x) by lia. eapply find_top_abort; [exact Hs|lia]. Qed.

(** Giving a root another rank changes nothing. *)
Lemma rank_any A k v u : A !! k = Some v -> (v < 0)%Z -> (u < 0)%Z -> forall z r, root A z r -> root (<[k := u]> A) z r.
Proof.
  intros Hk Hv Hu z r [n Hn]. exists n. assert (Hl : k < length A) by eauto using lookup_lt_Some. induction Hn as [z w Hz Hw|z p r n Hz Hp IH].
  - destruct (decide (z = k)) as [->|Hne]; [eapply rootd_here; [apply list_lookup_insert, Hl|exact Hu]|eapply rootd_here; [rewrite list_lookup_insert_ne by congruence; exact Hz|exact Hw]].
  - eapply rootd_up; [|exact IH]. rewrite list_lookup_insert_ne; [exact Hz|]. intros ->. assert (v = Z.of_nat p) by congruence. lia.
Qed.
Lemma drel_rank d A k v u : drel d A -> A !! k = Some v -> (v < 0)%Z -> (u < 0)%Z -> drel d (<[k := u]> A).
Proof. intros [Hl Hr] Hk Hv Hu. split; [rewrite insert_length; exact Hl|]. rewrite insert_length. intros x Hx. eapply rank_any; eauto. Qed.
Lemma rep_neg d A k : drel d A -> k < length d -> rep d k = k -> exists v, A !! k = Some v /\ (v < 0)%Z.
Proof. intros [Hl Hr] Hk E. pose proof (Hr k ltac:(lia)) as H. rewrite E in H. exact (proj1 (root_iff_neg _ _ _ H) eq_refl). Qed.

(** The slot find's answer names is the representative. *)
Lemma zfind_slot d A x k : drel d A -> py_index (length d) x = Some k -> py_index (length d) (zfind d x k) = Some (rep d k).
Proof.
  intros [Hl Hr] Hp. unfold zfind. pose proof (py_lt _ _ _ Hp) as Hk. assert (rep d k < length d) by (rewrite Hl; eapply root_root_lt, Hr; lia).
  destruct (Z.leb_spec 0 x); cbn [orb]; [apply py_nat; assumption|]. destruct (Nat.eqb_spec (rep d k) k) as [E|E]; cbn [negb]; [rewrite E; exact Hp|apply py_nat; assumption].
Qed.
(** union_set with a first argument from the front. *)
Lemma union_z s id A cap d j y k : s !! id = Some (LVec A cap) -> drel d A -> j < length d -> rep d j = j -> k < length d -> rep d k = k -> j <> k -> py_index (length d) y = Some k -> 
  exists A', lrun true (ds_union id (Z.of_nat j) y) s = Ok (tt, <[id := LVec A' cap]> s) /\ drel (map (fun z => if Nat.eqb z k then j else z) d) A'.
Proof.
  intros Hs Hd Hj Ej Hk Ek Hne Hp. destruct (Z.leb_spec 0 y) as [H0|H0].
  - rewrite (py_pos _ _ _ Hp H0). pose proof (union_ok s id A cap d j k Hs Hd Hj Hk ltac:(congruence)) as H. rewrite Ej, Ek in H. exact H.
  - pose proof Hd as [Hl Hr]. destruct (rep_neg _ _ _ Hd Hj Ej) as (v1 & Hv1 & Hn1). destruct (rep_neg _ _ _ Hd Hk Ek) as (v2 & Hv2 & Hn2). rewrite Hl in Hp.
    assert (exists v, (v < 0)%Z /\ lrun true (ds_union id (Z.of_nat j) y) s = Ok (tt, <[id := LVec (<[k := Z.of_nat j]> (<[j := v]> A)) cap]> s)) as (v & Hv & Hrun).
    { unfold ds_union. destruct (Z.ltb_spec (Z.of_nat j) y); [lia|]. lgo wget_ok. rewrite (lrun_bind_ok _ _ _ _ _ _ (wget_at _ _ _ _ _ _ _ Hs Hp Hv2)). destruct (Z.eqb_spec v1 v2) as [->|Hv12].
      - exists (v2 - 1)%Z. split; [lia|]. erewrite lrun_bind_ok by (eapply wset_ok; [exact Hs|lia]). erewrite wset_at by (first [apply lookup_insert|rewrite insert_length; exact Hp]). rewrite insert_insert. reflexivity.
      - exists v1. split; [assumption|]. cbn [wbind]. erewrite wset_at by eauto. rewrite (list_insert_id A j v1) by assumption. reflexivity. }
    eexists. split; [exact Hrun|]. split; [rewrite map_length, !insert_length; exact Hl|].
    rewrite !insert_length. intros z Hz. rewrite (rep_map (fun z => if Nat.eqb z k then j else z)) by lia. pose proof (Hr j ltac:(lia)) as H1. pose proof (Hr k ltac:(lia)) as H2. rewrite Ej in H1. rewrite Ek in H2. apply link_root; auto.
Qed.
(** union_set with a first argument from the end: only ranks change. *)
Lemma union_lost s id A cap d x j y k : s !! id = Some (LVec A cap) -> drel d A -> (x < 0)%Z -> py_index (length d) x = Some j -> rep d j = j -> py_index (length d) y = Some k -> rep d k = k ->
  exists A', lrun true (ds_union id x y) s = Ok (tt, <[id := LVec A' cap]> s) /\ drel d A'.
Proof.
  intros Hs Hd Hx Hp Ej Hq Ek. pose proof (py_lt _ _ _ Hp) as Hj. pose proof (py_lt _ _ _ Hq) as Hk. pose proof Hd as [Hl Hr]. rewrite Hl in Hp, Hq.
  destruct (rep_neg _ _ _ Hd Hj Ej) as (v1 & Hv1 & Hn1). destruct (rep_neg _ _ _ Hd Hk Ek) as (v2 & Hv2 & Hn2). unfold ds_union. destruct (Z.ltb_spec x y) as [Hlt|Hge].
  - erewrite wset_at by eauto. eexists. split; [reflexivity|]. eapply drel_rank; eauto.
  - rewrite (lrun_bind_ok _ _ _ _ _ _ (wget_at _ _ _ _ _ _ _ Hs Hp Hv1)), (lrun_bind_ok _ _ _ _ _ _ (wget_at _ _ _ _ _ _ _ Hs Hq Hv2)). destruct (Z.eqb_spec v1 v2) as [->|Hv12].
    + erewrite lrun_bind_ok by (eapply wset_at; eauto). erewrite wset_at by (first [apply lookup_insert|rewrite insert_length; exact Hq]). rewrite insert_insert. eexists. split; [reflexivity|].
      pose proof (drel_rank d A j v2 (v2 - 1)%Z Hd Hv1 Hn1 ltac:(lia)) as Hd1. assert (exists v, <[j := (v2 - 1)%Z]> A !! k = Some v /\ (v < 0)%Z) as (v & Hv & Hv0).
      { destruct (decide (j = k)) as [->|Hne]; [exists (v2 - 1)%Z; split; [apply list_lookup_insert; lia|lia]|exists v2; rewrite list_lookup_insert_ne by exact Hne; auto]. }
      eapply drel_rank; eauto.
    + cbn [wbind]. erewrite wset_at by eauto. eexists. split; [reflexivity|]. eapply drel_rank; eauto.
Qed.
Lemma odd_even d x : odd_number d x = false -> (match element d x with None => (Z.of_nat (length d) <= x)%Z | Some k => py_index (length d) x = Some k /\ zfind d x k = Z.of_nat (rep d k) end).
Proof.
  unfold odd_number. rewrite element_py. intros H. destruct (py_index (length d) x) as [k|] eqn:E.
  - split; [reflexivity|]. unfold zfind. destruct (Z.ltb_spec x 0), (Z.leb_spec 0 x); try lia; cbn [andb orb] in *; [rewrite H|]; reflexivity.
  - rewrite andb_true_r in H. apply Z.ltb_ge in H. unfold py_index in E. destruct (Z.leb_spec 0 x); [|lia]. destruct (Z.ltb_spec x (Z.of_nat (length d))); [discriminate|assumption].
Qed.
Lemma rep_rep d A k : drel d A -> k < length d -> rep d k < length d /\ rep d (rep d k) = rep d k.
Proof. intros Hd Hk. pose proof Hd as [Hl Hr]. pose proof (Hr k ltac:(lia)) as H. split; [rewrite Hl; eapply root_root_lt; eauto|symmetry; eapply drel_root_eq; [exact Hd|eapply root_self; eauto]]. Qed.

Lemma zs_step_agree o (s : gmap nat (list nat)) ls : wrel s ls -> agree wrel (dz_step o s) (lrun true (zs_step o) ls).
Proof.
  intros H. destruct o as [o|id x|id x y|id x y]; [apply ds_step_agree, H| | |]; cbn [dz_step zs_step]; (destruct (s !! id) as [d|] eqn:E; [|exact I]); destruct (wrel_some _ _ _ _ H E) as (A & cap & Hls & Hd).
  - destruct (odd_number d x) eqn:Ho; [exact I|]. pose proof (odd_even _ _ Ho) as Hx. destruct (element d x) as [k|].
    + destruct Hx as [Hp Hz]. destruct (find_z _ _ _ _ _ _ _ Hls Hd Hp) as (A' & Hrun & Hd'). rewrite (lrun_bind_ok _ _ _ _ _ _ Hrun), Hz. eexists. split; [reflexivity|]. eapply wrel_insert_l; eauto.
    + rewrite lrun_bind. erewrite find_z_abort by eauto. reflexivity.
  - destruct (odd_number d x) eqn:Ho; [exact I|]. destruct (odd_number d y) eqn:Ho'; [exact I|]. cbn [orb]. pose proof (odd_even _ _ Ho) as Hx. pose proof (odd_even _ _ Ho') as Hy. unfold ds_connected.
    destruct (element d x) as [j|]; [|rewrite !lrun_bind; erewrite find_z_abort by eauto; reflexivity]. destruct Hx as [Hp Hz]. destruct (find_z _ _ _ _ _ _ _ Hls Hd Hp) as (A' & Hrun & Hd'). rewrite lrun_bind, (lrun_bind_ok _ _ _ _ _ _ Hrun).
    destruct (element d y) as [k|]; [|rewrite lrun_bind; erewrite find_z_abort by (first [apply lookup_insert|eauto]); reflexivity]. destruct Hy as [Hq Hw]. destruct (find_z _ id _ cap _ _ _ (lookup_insert ls id _) Hd' Hq) as (A2 & Hrun2 & Hd2).
    rewrite (lrun_bind_ok _ _ _ _ _ _ Hrun2), insert_insert, Hz, Hw. cbn [lrun]. exists (<[id := LVec A2 cap]> ls). split; [|eapply wrel_insert_l; eauto].
    destruct (Nat.eqb_spec (rep d j) (rep d k)), (Z.eqb_spec (Z.of_nat (rep d j)) (Z.of_nat (rep d k))); try reflexivity; lia.
  - destruct (odd_number d x) eqn:Ho; [exact I|]. destruct (Z.ltb_spec y (- Z.of_nat (length d))) as [Hy0|Hy0]; [exact I|]. cbn [orb]. pose proof (odd_even _ _ Ho) as Hx. unfold ds_connect.
    destruct (element d x) as [j|]; [|rewrite !lrun_bind; erewrite find_z_abort by eauto; reflexivity]. destruct Hx as [Hp Hz]. destruct (find_z _ _ _ _ _ _ _ Hls Hd Hp) as (A' & Hrun & Hd'). rewrite lrun_bind, (lrun_bind_ok _ _ _ _ _ _ Hrun), Hz.
    rewrite element_py. destruct (py_index (length d) y) as [k|] eqn:Hq.
    2:{ rewrite lrun_bind. erewrite find_z_abort; [reflexivity|apply lookup_insert|exact Hd'|]. unfold py_index in Hq. destruct (Z.leb_spec 0 y), (Z.ltb_spec y (Z.of_nat (length d))), (Z.leb_spec (- Z.of_nat (length d)) y); try discriminate; lia. }
    destruct (Nat.eqb_spec (rep d j) (rep d k)) as [Heq|Hne]; [exact I|]. destruct (find_z _ id _ cap _ _ _ (lookup_insert ls id _) Hd' Hq) as (A2 & Hrun2 & Hd2).
    rewrite (lrun_bind_ok _ _ _ _ _ _ Hrun2), insert_insert. destruct (rep_rep _ _ _ Hd (py_lt _ _ _ Hp)) as [Hj1 Hj2]. destruct (rep_rep _ _ _ Hd (py_lt _ _ _ Hq)) as [Hk1 Hk2].
    destruct (union_z _ id _ cap d (rep d j) (zfind d y k) (rep d k) (lookup_insert ls id (LVec A2 cap)) Hd2 Hj1 Hj2 Hk1 Hk2 Hne (zfind_slot _ _ _ _ Hd Hq)) as (A3 & Hrun3 & Hd3).
    rewrite Hrun3, insert_insert. eexists. split; [reflexivity|]. apply wrel_insert; auto.
Qed.
Lemma zs_run_agree ops (s : gmap nat (list nat)) ls : wrel s ls -> agree wrel (srun dz_step ops s) (lrun true (arun zs_step ops) ls).
Proof. apply arun_agree. exact zs_step_agree. Qed.
Lemma zreach ops rs t : srun dz_step ops ∅ = SVal (rs, t) -> exists ls, lrun true (arun zs_step ops) ∅ = Ok (rs, ls) /\ wrel t ls.
Proof. intros H. pose proof (zs_run_agree ops ∅ ∅ wrel_empty) as Ha. rewrite H in Ha. exact Ha. Qed.
End P.

Theorem sign_history : forall ops,
  match srun dz_step ops ∅ with
  | SVal (rs, s) => exists w, wrun true (arun zs_step ops) world_init = Ok (rs, w) /\ storage_ok w
  | SAbort => wrun true (arun zs_step ops) world_init = Abort
  | SUnspec => True
  end.
Proof.
  intros ops. pose proof (wrun_agree true wrel _ _ (zs_run_agree ops ∅ ∅ wrel_empty)) as H.
  destruct (srun dz_step ops ∅) as [[rs s]| |]; auto. destruct H as (w & ? & _ & ?). eauto.
Qed.

Section Wrong.
Context (ops : list zop) (rs : list (out Z)) (t : gmap nat (list nat)) (id : nat) (d : list nat) (k : nat).
Context (Hrun : srun dz_step ops ∅ = SVal (rs, t)) (Ht : t !! id = Some d) (Hk : k < length d) (Hrep : rep d k = k).
Let x := (Z.of_nat k - Z.of_nat (length d))%Z.
Let Hx : (x < 0)%Z.
Proof. unfold x. lia. Qed.
Let Hp : py_index (length d) x = Some k := py_neg _ _ Hk.
Lemma zfind_odd : zfind d x k = x.
Proof. unfold zfind. destruct (Z.leb_spec 0 x); [lia|]. rewrite Hrep, Nat.eqb_refl. reflexivity. Qed.

Lemma connect_lost y ops2 : (- Z.of_nat (length d) <= y < Z.of_nat (length d))%Z ->
  match srun dz_step ops2 t with
  | SVal (rs2, _) => exists w, wrun true (arun zs_step (ops ++ ZConnect id x y :: ops2)) world_init = Ok (rs ++ RUnit :: rs2, w) /\ storage_ok w
  | SAbort => wrun true (arun zs_step (ops ++ ZConnect id x y :: ops2)) world_init = Abort
  | SUnspec => True
  end.
Proof.
  intros Hy. destruct (zreach _ _ _ Hrun) as (ls & Hl & HR). destruct (wrel_some _ _ _ _ HR Ht) as (A & cap & Hls & Hd).
  assert (exists j, py_index (length d) y = Some j) as [j Hq].
  { unfold py_index. destruct (Z.leb_spec 0 y), (Z.ltb_spec y (Z.of_nat (length d))), (Z.leb_spec (- Z.of_nat (length d)) y); try lia; eauto. }
  destruct (find_z _ _ _ _ _ _ _ Hls Hd Hp) as (A1 & R1 & Hd1). rewrite zfind_odd in R1. destruct (find_z _ id _ cap _ _ _ (lookup_insert ls id _) Hd1 Hq) as (A2 & R2 & Hd2). rewrite insert_insert in R2.
  destruct (rep_rep _ _ _ Hd (py_lt _ _ _ Hq)) as [Hj1 Hj2].
  destruct (union_lost _ id _ cap d x k (zfind d y j) (rep d j) (lookup_insert ls id (LVec A2 cap)) Hd2 Hx Hp Hrep (zfind_slot _ _ _ _ Hd Hq) Hj2) as (A3 & R3 & Hd3). rewrite insert_insert in R3.
  assert (HR3 : wrel t (<[id := LVec A3 cap]> ls)) by (eapply wrel_insert_l; eauto).
  pose proof (program_from_scratch true (arun zs_step (ops ++ ZConnect id x y :: ops2))) as Hps. rewrite (lrun_arun_app _ _ _ _ _ _ _ Hl) in Hps. cbn [arun zs_step] in Hps. unfold ds_connect in Hps.
  rewrite !lrun_bind, R1, !lrun_bind, R2, R3 in Hps. cbn [lrun] in Hps. rewrite lrun_bind in Hps. pose proof (zs_run_agree ops2 t _ HR3) as Ha.
  destruct (srun dz_step ops2 t) as [[rs2 t2]| |]; [|cbn in Ha; rewrite Ha in Hps; exact Hps|exact I]. destruct Ha as (ls2 & E2 & _). rewrite E2 in Hps. cbn [lrun] in Hps. destruct Hps as (w & Hw & _ & Hst). eauto.
Qed.
Lemma find_odd : exists w, wrun true (arun zs_step (ops ++ [ZFind id x; ZConnected id x (Z.of_nat k)])) world_init = Ok (rs ++ [RVal x; RBool false], w).
Proof.
  destruct (zreach _ _ _ Hrun) as (ls & Hl & HR). destruct (wrel_some _ _ _ _ HR Ht) as (A & cap & Hls & Hd).
  destruct (find_z _ _ _ _ _ _ _ Hls Hd Hp) as (A1 & R1 & Hd1). rewrite zfind_odd in R1. destruct (find_z _ id _ cap _ _ _ (lookup_insert ls id _) Hd1 Hp) as (A2 & R2 & Hd2). rewrite insert_insert, zfind_odd in R2.
  destruct (find_top_ok _ id _ cap d k (lookup_insert ls id _) Hd2 Hk) as (A3 & R3 & Hd3). rewrite insert_insert, Hrep in R3.
  pose proof (program_from_scratch true (arun zs_step (ops ++ [ZFind id x; ZConnected id x (Z.of_nat k)]))) as Hps. rewrite (lrun_arun_app _ _ _ _ _ _ _ Hl) in Hps. cbn [arun zs_step] in Hps. unfold ds_connected in Hps.
  rewrite !lrun_bind, R1 in Hps. cbn [lrun] in Hps. rewrite !lrun_bind, R2, !lrun_bind, R3 in Hps. cbn [lrun wbind] in Hps. destruct (Z.eqb_spec x (Z.of_nat k)) as [E|E]; [lia|]. destruct Hps as (w & Hw & _). eauto.
Qed.
Lemma connect_itself fuel : wrun true (_ <- arun zs_step (ops ++ [ZConnect id (Z.of_nat k) x]) ;; ds_find fuel id (Z.of_nat k))%wprog world_init = Diverge.
Proof.
  destruct (zreach _ _ _ Hrun) as (ls & Hl & HR). destruct (wrel_some _ _ _ _ HR Ht) as (A & cap & Hls & Hd).
  destruct (find_top_ok _ id _ cap d k Hls Hd Hk) as (A1 & R1 & Hd1). rewrite Hrep in R1. destruct (find_z _ id _ cap _ _ _ (lookup_insert ls id _) Hd1 Hp) as (A2 & R2 & Hd2). rewrite insert_insert, zfind_odd in R2.
  destruct (rep_neg _ _ _ Hd2 Hk Hrep) as (v & Hv & Hv0). pose proof (proj1 Hd2) as Hl2.
  assert (R3 : exists A3, lrun true (ds_union id (Z.of_nat k) x) (<[id := LVec A2 cap]> ls) = Ok (tt, <[id := LVec A3 cap]> ls) /\ A3 !! k = Some (Z.of_nat k)).
  { assert (Hp2 : py_index (length A2) x = Some k) by (rewrite <- Hl2; exact Hp). unfold ds_union. destruct (Z.ltb_spec (Z.of_nat k) x); [lia|]. erewrite lrun_bind_ok by (eapply wget_ok; [apply lookup_insert|exact Hv]).
    erewrite lrun_bind_ok by (eapply wget_at; [apply lookup_insert|exact Hp2|exact Hv]). rewrite Z.eqb_refl. erewrite lrun_bind_ok by (eapply wset_ok; [apply lookup_insert|lia]).
    erewrite wset_at by (first [apply lookup_insert|rewrite insert_length; exact Hp2]). rewrite !insert_insert. eexists. split; [reflexivity|]. apply list_lookup_insert. rewrite insert_length. lia. }
  destruct R3 as (A3 & R3 & H3).
  pose proof (program_from_scratch true (_ <- arun zs_step (ops ++ [ZConnect id (Z.of_nat k) x]) ;; ds_find fuel id (Z.of_nat k))%wprog) as Hps. rewrite lrun_bind, (lrun_arun_app _ _ _ _ _ _ _ Hl) in Hps. cbn [arun zs_step] in Hps. unfold ds_connect in Hps.
  rewrite !lrun_bind, R1, !lrun_bind, R2, R3 in Hps. cbn [lrun wbind] in Hps. assert (E : lrun true (ds_find fuel id (Z.of_nat k)) (<[id := LVec A3 cap]> ls) = Diverge).
  { clear Hps. generalize (lookup_insert ls id (LVec A3 cap)). generalize (<[id := LVec A3 cap]> ls). induction fuel as [|f IH]; intros s Hs; [reflexivity|]. cbn [ds_find]. erewrite lrun_bind_ok by (eapply wget_ok; [exact Hs|exact H3]).
    destruct (Z.ltb_spec (Z.of_nat k) 0); [lia|]. rewrite lrun_bind, (IH _ Hs). reflexivity. }
  rewrite E in Hps. exact Hps.
Qed.
End Wrong.
Theorem sign_wrong : forall ops rs t id d k, srun dz_step ops ∅ = SVal (rs, t) -> t !! id = Some d -> k < length d -> rep d k = k ->
  let x := (Z.of_nat k - Z.of_nat (length d))%Z in
  (exists w, wrun true (arun zs_step (ops ++ [ZFind id x; ZConnected id x (Z.of_nat k)])) world_init = Ok (rs ++ [RVal x; RBool false], w)) /\
  (forall fuel, wrun true (_ <- arun zs_step (ops ++ [ZConnect id (Z.of_nat k) x]) ;; ds_find fuel id (Z.of_nat k))%wprog world_init = Diverge).
Proof. intros ops rs t id d k H1 H2 H3 H4. split; [eapply find_odd; eauto|intros fuel; eapply connect_itself; eauto]. Qed.
Theorem sign_below : forall ops rs t id d x, srun dz_step ops ∅ = SVal (rs, t) -> t !! id = Some d -> (x < - Z.of_nat (length d))%Z ->
  wrun true (arun zs_step (ops ++ [ZFind id x])) world_init = UB.
Proof.
  intros ops rs t id d x H1 H2 Hx. destruct (zreach _ _ _ H1) as (ls & Hl & HR). destruct (wrel_some _ _ _ _ HR H2) as (A & cap & Hls & Hd). pose proof (proj1 Hd) as Hlen.
  pose proof (program_from_scratch true (arun zs_step (ops ++ [ZFind id x]))) as Hps. rewrite (lrun_arun_app _ _ _ _ _ _ _ Hl) in Hps. cbn [arun zs_step] in Hps. unfold ds_find_top in Hps.
  rewrite !lrun_bind in Hps. erewrite wsize_ok in Hps by exact Hls. cbn [ds_find] in Hps. rewrite lrun_bind in Hps. unfold wget, wval in Hps. cbn [lrun lw_step lv_step] in Hps. unfold lwith, at_index in Hps. rewrite Hls in Hps. cbn [l_seq] in Hps.
  assert (E : py_index (length A) x = None). { unfold py_index. destruct (Z.leb_spec 0 x); [lia|]. destruct (Z.leb_spec (- Z.of_nat (length A)) x); [lia|reflexivity]. }
  rewrite E in Hps. destruct (Z.leb_spec (Z.of_nat (length A)) x); [lia|]. exact Hps.
Qed.
