(** Proofs about DisjointSet. *)
From Coq Require Import Relations.
From Verif Require Import Base VectorModel VectorSpec VecProg VectorProofs VectorWorld VectorExtra Adapter LRun DSUModel DSUSpec.

(** ** Forests stored in a list *)

(** [rootd A x r d]: following parents from [x] reaches the root [r] in [d] steps. *)
Inductive rootd (A : list Z) : nat -> nat -> nat -> Prop :=
| rootd_here x v : A !! x = Some v -> (v < 0)%Z -> rootd A x x 0
| rootd_up x p r d : A !! x = Some (Z.of_nat p) -> rootd A p r d -> rootd A x r (S d).

Definition root A x r := exists d, rootd A x r d.

Lemma rootd_det A x r d : rootd A x r d -> forall r' d', rootd A x r' d' -> r = r' /\ d = d'.
Proof.
  induction 1 as [x v Hx Hv|x p r d Hx Hr IH]; intros r' d' H'; inversion H'; subst.
  - auto.
  - assert (v = Z.of_nat p) by congruence. lia.
  - assert (v = Z.of_nat p) by congruence. lia.
  - assert (p = p0) by (assert (Z.of_nat p = Z.of_nat p0) by congruence; lia). subst p0.
    destruct (IH _ _ H0) as [-> ->]. auto.
Qed.
Lemma root_det A x r r' : root A x r -> root A x r' -> r = r'.
Proof. intros [d H] [d' H']. apply (rootd_det _ _ _ _ H _ _ H'). Qed.
Lemma rootd_root A x r d : rootd A x r d -> exists v, A !! r = Some v /\ (v < 0)%Z.
Proof. induction 1; eauto. Qed.
Lemma rootd_self A x r d : rootd A x r d -> rootd A r r 0.
Proof. intros H. destruct (rootd_root _ _ _ _ H) as (v & Hr & Hv). econstructor; eauto. Qed.
Lemma rootd_lt A x r d : rootd A x r d -> x < length A.
Proof. destruct 1; eauto using lookup_lt_Some. Qed.
Lemma root_lt A x r : root A x r -> x < length A.
Proof. intros [d H]. eauto using rootd_lt. Qed.
Lemma root_root_lt A x r : root A x r -> r < length A.
Proof. intros [d H]. eapply rootd_lt, rootd_self; eauto. Qed.
Lemma root_self A x r : root A x r -> root A r r.
Proof. intros [d H]. exists 0. eapply rootd_self; eauto. Qed.
Lemma root_iff_neg A x r : root A x r -> (x = r <-> exists v, A !! x = Some v /\ (v < 0)%Z).
Proof.
  intros [d H]. split.
  - intros ->. eapply rootd_root; eauto.
  - intros (v & Hx & Hv). inversion H; subst; [reflexivity|]. assert (v = Z.of_nat p) by congruence. lia.
Qed.

Lemma rootd_path A x r d : rootd A x r d ->
  exists l, length l = S d /\ NoDup l /\ forall y, y ∈ l -> y < length A /\ exists d', d' <= d /\ rootd A y r d'.
Proof.
  induction 1 as [x v Hx Hv|x p r d Hx Hr (l & Hl & Hnd & Hin)].
  - exists [x]. split_and!; [reflexivity|apply NoDup_singleton|]. intros y ->%elem_of_list_singleton.
    split; [eauto using lookup_lt_Some|]. exists 0. split; [lia|econstructor; eauto].
  - exists (x :: l). split_and!.
    + simpl. congruence.
    + apply NoDup_cons. split; [|assumption]. intros Hx'. destruct (Hin _ Hx') as (_ & d' & Hd & Hr').
      assert (rootd A x r (S d)) as Hr'' by (econstructor; eauto).
      destruct (rootd_det _ _ _ _ Hr' _ _ Hr''). lia.
    + intros y [->|Hy]%elem_of_cons.
      * split; [eauto using lookup_lt_Some|]. exists (S d). split; [lia|econstructor; eauto].
      * destruct (Hin _ Hy) as (Hlt & d' & Hd & Hr'). split; [assumption|]. exists d'. split; [lia|assumption].
Qed.

Lemma rootd_depth A x r d : rootd A x r d -> d < length A.
Proof.
  intros H. destruct (rootd_path _ _ _ _ H) as (l & Hl & Hnd & Hin).
  assert (length l <= length (seq 0 (length A))) as Hle.
  { apply submseteq_length, NoDup_submseteq; [assumption|]. intros y Hy. apply elem_of_seq.
    destruct (Hin _ Hy) as [? _]. lia. }
  rewrite seq_length in Hle. lia.
Qed.

(** Path compression keeps all roots. *)
Lemma compress_root A x r : root A x r -> x <> r -> forall y ry, root A y ry -> root (<[x := Z.of_nat r]> A) y ry.
Proof.
  intros Hx Hne y ry [d Hy]. induction Hy as [y v Hy Hv|y p ry d Hy Hp IH].
  - exists 0. econstructor; [|eassumption]. rewrite list_lookup_insert_ne; [assumption|].
    intros <-. apply Hne. apply (proj2 (root_iff_neg _ _ _ Hx)). eauto.
  - destruct (decide (x = y)) as [<-|Hxy].
    + assert (root A x ry) as Hry by (exists (S d); econstructor; eauto).
      rewrite (root_det _ _ _ _ Hry Hx). destruct (root_self _ _ _ Hx) as [dr Hr].
      pose proof (rootd_root _ _ _ _ Hr) as (v & Hrv & Hv).
      exists 1. econstructor; [apply list_lookup_insert; eauto using lookup_lt_Some|].
      econstructor; [|exact Hv]. rewrite list_lookup_insert_ne; assumption.
    + destruct IH as [d' IH]. exists (S d'). econstructor; [|exact IH].
      rewrite list_lookup_insert_ne; assumption.
Qed.

(** Linking root [r2] below root [r1]. *)
Lemma link_root A r1 r2 v : root A r1 r1 -> root A r2 r2 -> r1 <> r2 -> (v < 0)%Z ->
  forall y ry, root A y ry ->
  root (<[r2 := Z.of_nat r1]> (<[r1 := v]> A)) y (if Nat.eqb ry r2 then r1 else ry).
Proof.
  intros H1 H2 Hne Hv y ry [d Hy].
  set (A' := <[r2 := Z.of_nat r1]> (<[r1 := v]> A)).
  assert (root A' r1 r1) as Hr1.
  { exists 0. apply rootd_here with v; [|exact Hv]. unfold A'. rewrite list_lookup_insert_ne by congruence.
    apply list_lookup_insert. eapply root_lt; eauto. }
  induction Hy as [y w Hy Hw|y p ry d Hy Hp IH].
  - destruct (Nat.eqb_spec y r2) as [->|Hy2].
    + destruct Hr1 as [d1 Hr1]. exists (S d1). apply rootd_up with r1; [|exact Hr1]. unfold A'.
      apply list_lookup_insert. rewrite insert_length. eapply root_lt; eauto.
    + destruct (decide (y = r1)) as [->|Hy1]; [exact Hr1|].
      exists 0. apply rootd_here with w; [|exact Hw]. unfold A'. rewrite !list_lookup_insert_ne by congruence. exact Hy.
  - destruct IH as [d' IH]. exists (S d'). apply rootd_up with p; [|exact IH].
    assert (forall z, root A z z -> y <> z) as Hnr.
    { intros z Hz <-. destruct (proj1 (root_iff_neg _ _ _ Hz) eq_refl) as (u & Hu & Hu0).
      assert (u = Z.of_nat p) by congruence. lia. }
    unfold A'. rewrite !list_lookup_insert_ne; [exact Hy| |]; intros E; symmetry in E; revert E; apply Hnr; assumption.
Qed.

(** ** The relation between the stored list and the representatives *)
Definition drel (d : list nat) (A : list Z) : Prop :=
  length d = length A /\ forall x, x < length A -> root A x (rep d x).

Lemma drel_init n : drel (seq 0 n) (repeat (-1)%Z n).
Proof.
  split; [rewrite seq_length, repeat_length; reflexivity|]. rewrite repeat_length. intros x Hx.
  unfold rep. rewrite seq_nth by assumption. simpl. exists 0. apply rootd_here with (-1)%Z; [|lia].
  rewrite <- nth_error_lookup. apply nth_error_repeat. assumption.
Qed.

Lemma drel_root_eq d A x r : drel d A -> root A x r -> r = rep d x.
Proof. intros [_ H] Hr. eapply root_det; [exact Hr|]. apply H. eapply root_lt; eauto. Qed.

Lemma classes_neg d A : drel d A -> length (List.filter (fun v => (v <? 0)%Z) A) = classes d.
Proof.
  intros [Hl Hd]. unfold classes. rewrite Hl.
  assert (forall k B, (forall i, i < length B -> A !! (k + i) = B !! i) -> k + length B = length A ->
    length (List.filter (fun v => (v <? 0)%Z) B) =
    length (List.filter (fun i => Nat.eqb (rep d i) i) (seq k (length B)))) as Hgen.
  { intros k B. revert k. induction B as [|b B IH]; intros k HB Hk; [reflexivity|]. simpl in Hk.
    cbn [length seq List.filter].
    assert (A !! k = Some b) as Hb. { rewrite <- (Nat.add_0_r k). rewrite HB by (simpl; lia). reflexivity. }
    specialize (Hd k ltac:(lia)). pose proof (root_iff_neg _ _ _ Hd) as Hiff.
    assert (length (List.filter (fun v => (v <? 0)%Z) B) =
            length (List.filter (fun i => Nat.eqb (rep d i) i) (seq (S k) (length B)))) as HIH.
    { apply IH; [|lia]. intros i Hi. specialize (HB (S i) ltac:(simpl; lia)).
      rewrite <- Nat.add_succ_comm in HB. exact HB. }
    destruct (Z.ltb_spec b 0); destruct (Nat.eqb_spec (rep d k) k); cbn [length]; try (rewrite HIH; reflexivity).
    - exfalso. apply n. symmetry. apply Hiff. eauto.
    - exfalso. symmetry in e. apply Hiff in e as (v & Hv & Hv0). assert (v = b) by congruence. lia. }
  rewrite (Hgen 0 A); [reflexivity| |reflexivity]. intros i Hi. reflexivity.
Qed.

Lemma rep_map (f : nat -> nat) d x : x < length d -> rep (map f d) x = f (rep d x).
Proof. intros Hx. unfold rep. rewrite (nth_indep _ x (f x)) by (rewrite map_length; exact Hx). apply map_nth. Qed.

(** ** Runs *)
Section Runs.
Implicit Types s : lworld Z.

Lemma find_ok f : forall s id A cap x r d,
  s !! id = Some (LVec A cap) -> rootd A x r d -> d < f ->
  exists A', lrun true (ds_find f id (Z.of_nat x)) s = Ok (Z.of_nat r, <[id := LVec A' cap]> s) /\
    length A' = length A /\ forall y ry, root A y ry -> root A' y ry.
Proof.
  induction f as [|f IH]; intros s id A cap x r d Hs Hr Hd; [lia|]. cbn [ds_find].
  inversion Hr as [x' v Hx Hv|x' p r' d' Hx Hp]; subst.
  - lgo wget_ok. destruct (Z.ltb_spec v 0); [|lia]. exists A. rewrite insert_id by assumption. auto.
  - lgo wget_ok. destruct (Z.ltb_spec (Z.of_nat p) 0); [lia|].
    destruct (IH s id A cap p r d' Hs Hp ltac:(lia)) as (A1 & Hrun & Hlen & Hroot).
    rewrite (lrun_bind_ok _ _ _ _ _ _ Hrun).
    assert (x < length A) as Hxl by eauto using lookup_lt_Some.
    erewrite lrun_bind_ok by (eapply wset_ok; [apply lookup_insert|lia]).
    cbn [lrun]. rewrite insert_insert. exists (<[x := Z.of_nat r]> A1). split_and!.
    + reflexivity.
    + rewrite insert_length. assumption.
    + assert (root A x r) as Hxr by (eexists; eauto).
      intros y ry Hy. apply compress_root; [auto| |auto].
      intros ->.
      destruct (proj1 (root_iff_neg _ _ _ Hxr) eq_refl) as (u & Hu & Hu0). assert (u = Z.of_nat p) by congruence. lia.
Qed.

Lemma find_top_ok s id A cap d x :
  s !! id = Some (LVec A cap) -> drel d A -> x < length d ->
  exists A', lrun true (ds_find_top id (Z.of_nat x)) s = Ok (Z.of_nat (rep d x), <[id := LVec A' cap]> s) /\
    drel d A'.
Proof.
  intros Hs [Hl Hd] Hx. destruct (Hd x ltac:(lia)) as [k Hk]. unfold ds_find_top. lgo wsize_ok.
  destruct (find_ok (S (length A)) s id A cap x _ k Hs Hk) as (A' & Hrun & Hlen & Hroot).
  { pose proof (rootd_depth _ _ _ _ Hk). lia. }
  exists A'. split; [exact Hrun|]. split; [lia|]. intros y Hy. apply Hroot, Hd. lia.
Qed.

Lemma find_top_abort s id A cap x : s !! id = Some (LVec A cap) -> length A <= x ->
  lrun true (ds_find_top id (Z.of_nat x)) s = Abort.
Proof. intros Hs Hx. unfold ds_find_top. lgo wsize_ok. cbn [ds_find]. rewrite lrun_bind. erewrite wget_abort by eauto. reflexivity. Qed.

Lemma union_ok s id A cap d x y :
  s !! id = Some (LVec A cap) -> drel d A -> x < length d -> y < length d -> rep d x <> rep d y ->
  exists A', lrun true (ds_union id (Z.of_nat (rep d x)) (Z.of_nat (rep d y))) s = Ok (tt, <[id := LVec A' cap]> s) /\
    drel (map (fun z => if Nat.eqb z (rep d y) then rep d x else z) d) A'.
Proof.
  intros Hs [Hl Hd] Hx Hy Hne. set (r1 := rep d x) in *. set (r2 := rep d y) in *.
  assert (root A r1 r1) as H1 by (eapply root_self, Hd; lia).
  assert (root A r2 r2) as H2 by (eapply root_self, Hd; lia).
  destruct (proj1 (root_iff_neg _ _ _ H1) eq_refl) as (v1 & Hv1 & Hn1).
  destruct (proj1 (root_iff_neg _ _ _ H2) eq_refl) as (v2 & Hv2 & Hn2).
  assert (r1 < length A) by eauto using root_lt. assert (r2 < length A) by eauto using root_lt.
  assert (exists v, (v < 0)%Z /\ lrun true (ds_union id (Z.of_nat r1) (Z.of_nat r2)) s =
      Ok (tt, <[id := LVec (<[r2 := Z.of_nat r1]> (<[r1 := v]> A)) cap]> s)) as (v & Hv & Hrun).
  { unfold ds_union. destruct (Z.ltb_spec (Z.of_nat r1) (Z.of_nat r2)).
    - exists v1. split; [assumption|]. erewrite wset_ok by eauto. rewrite (list_insert_id A r1 v1) by assumption. reflexivity.
    - lgo wget_ok. lgo wget_ok. destruct (Z.eqb_spec v1 v2) as [->|Hv12].
      + exists (v2 - 1)%Z. split; [lia|]. lgo wset_ok.
        erewrite wset_ok by (first [apply lookup_insert|rewrite insert_length; assumption]).
        rewrite insert_insert. reflexivity.
      + exists v1. split; [assumption|]. cbn [wbind]. erewrite wset_ok by eauto.
        rewrite (list_insert_id A r1 v1) by assumption. reflexivity. }
  eexists. split; [exact Hrun|]. split.
  - rewrite map_length, !insert_length. assumption.
  - rewrite !insert_length. intros z Hz. rewrite rep_map by lia. apply link_root; auto.
Qed.

End Runs.

(** ** Histories against representatives *)
Definition wrel (s : gmap nat (list nat)) (ls : lworld Z) : Prop :=
  forall id, match s !! id, ls !! id with
             | Some d, Some v => drel d (l_seq v)
             | None, None => True
             | _, _ => False
             end.

Lemma wrel_some s ls id d : wrel s ls -> s !! id = Some d -> exists A cap, ls !! id = Some (LVec A cap) /\ drel d A.
Proof. intros H E. specialize (H id). rewrite E in H. destruct (ls !! id) as [[A cap]|]; [eauto|destruct H]. Qed.
Lemma wrel_none s ls id : wrel s ls -> s !! id = None -> ls !! id = None.
Proof. intros H E. specialize (H id). rewrite E in H. destruct (ls !! id); [destruct H|reflexivity]. Qed.
Lemma wrel_insert s ls id d v : wrel s ls -> drel d (l_seq v) -> wrel (<[id := d]> s) (<[id := v]> ls).
Proof.
  intros H Hd j. destruct (decide (id = j)) as [<-|Hne].
  - rewrite !lookup_insert. exact Hd.
  - rewrite !lookup_insert_ne by assumption. apply H.
Qed.
Lemma wrel_insert_l s ls id d v : wrel s ls -> s !! id = Some d -> drel d (l_seq v) -> wrel s (<[id := v]> ls).
Proof. intros H E Hd. rewrite <- (insert_id s id d E). apply wrel_insert; assumption. Qed.
Lemma wrel_delete s ls id : wrel s ls -> wrel (delete id s) (delete id ls).
Proof.
  intros H j. destruct (decide (id = j)) as [<-|Hne].
  - rewrite !lookup_delete. exact I.
  - rewrite !lookup_delete_ne by assumption. apply H.
Qed.
Lemma drel_nil : drel [] [].
Proof. split; [reflexivity|]. simpl. lia. Qed.

Lemma ds_step_agree o s ls : wrel s ls -> agree wrel (dr_step o s) (lrun true (ds_step o) ls).
Proof.
  intros H.
  destruct o as [id n|id src|id src|id src|id src|id|id x|id x y|id x y|id|id|id]; cbn [dr_step ds_step].
  - destruct (s !! id) eqn:E; [exact I|]. pose proof (wrel_none _ _ _ H E).
    destruct (Nat.eqb_spec n 0) as [->|Hn].
    + cbn. unfold lnew. rewrite H0. reflexivity.
    + lgo wfill_ok. eexists. split; [reflexivity|]. apply wrel_insert; [assumption|apply drel_init].
  - destruct (s !! id) eqn:E; [exact I|]. destruct (s !! src) as [d|] eqn:E'; [|exact I].
    pose proof (wrel_none _ _ _ H E). destruct (wrel_some _ _ _ _ H E') as (A & cap & Hls & Hd).
    lgo wcopy_new_ok. eexists. split; [reflexivity|]. apply wrel_insert; assumption.
  - destruct (s !! id) eqn:E; [exact I|]. destruct (s !! src) as [d|] eqn:E'; [|exact I].
    pose proof (wrel_none _ _ _ H E). destruct (wrel_some _ _ _ _ H E') as (A & cap & Hls & Hd).
    lgo wmove_new_ok. eexists. split; [reflexivity|]. do 2 (try apply wrel_insert); auto using drel_nil.
  - destruct (s !! id) as [d'|] eqn:E; [|exact I]. destruct (s !! src) as [d|] eqn:E'; [|exact I].
    destruct (wrel_some _ _ _ _ H E) as (A' & cap' & Hls' & Hd'). destruct (wrel_some _ _ _ _ H E') as (A & cap & Hls & Hd).
    destruct (decide (id = src)) as [<-|Hne].
    + rewrite (lrun_bind_ok _ _ _ _ _ _ (wassign_self _ _ _ _ Hls)). rewrite insert_id by assumption. eexists. split; [reflexivity|assumption].
    + rewrite (lrun_bind_ok _ _ _ _ _ _ (wassign_ok true _ _ _ _ _ Hls' Hls Hne eq_refl)).
      eexists. split; [reflexivity|]. apply wrel_insert; assumption.
  - destruct (s !! id) as [d'|] eqn:E; [|exact I]. destruct (s !! src) as [d|] eqn:E'; [|exact I].
    destruct (wrel_some _ _ _ _ H E) as (A' & cap' & Hls' & Hd'). destruct (wrel_some _ _ _ _ H E') as (A & cap & Hls & Hd).
    destruct (Nat.eqb_spec id src) as [<-|Hne].
    + rewrite (lrun_bind_ok _ _ _ _ _ _ (wmove_self _ _ _ _ Hls)). eexists. split; [reflexivity|assumption].
    + rewrite (lrun_bind_ok _ _ _ _ _ _ (wmove_ok true _ _ _ _ _ Hls' Hls Hne)).
      eexists. split; [reflexivity|]. do 2 (try apply wrel_insert); auto using drel_nil.
  - destruct (s !! id) as [d|] eqn:E; [|exact I]. destruct (wrel_some _ _ _ _ H E) as (A & cap & Hls & Hd).
    lgo wdestroy_ok. eexists. split; [reflexivity|]. apply wrel_delete; assumption.
  - destruct (s !! id) as [d|] eqn:E; [|exact I]. destruct (wrel_some _ _ _ _ H E) as (A & cap & Hls & Hd).
    destruct (Nat.ltb_spec x (length d)).
    + destruct (find_top_ok _ _ _ _ _ x Hls Hd ltac:(lia)) as (A' & Hrun & Hd').
      rewrite (lrun_bind_ok _ _ _ _ _ _ Hrun). eexists. split; [reflexivity|]. eapply wrel_insert_l; eauto.
    + rewrite lrun_bind. destruct Hd as [Hl _]. erewrite find_top_abort by (eauto; lia). reflexivity.
  - destruct (s !! id) as [d|] eqn:E; [|exact I]. destruct (wrel_some _ _ _ _ H E) as (A & cap & Hls & Hd).
    unfold ds_connected. pose proof (proj1 Hd) as Hl. destruct (Nat.ltb_spec x (length d)); simpl andb.
    + destruct (find_top_ok _ _ _ _ _ x Hls Hd ltac:(lia)) as (A' & Hrun & Hd').
      rewrite lrun_bind, (lrun_bind_ok _ _ _ _ _ _ Hrun). pose proof (proj1 Hd') as Hl'.
      destruct (Nat.ltb_spec y (length d)); cycle 1.
      { rewrite lrun_bind. erewrite find_top_abort by (first [apply lookup_insert|lia]). reflexivity. }
      destruct (find_top_ok _ id _ cap _ y (lookup_insert ls id _) Hd' ltac:(lia)) as (A2 & Hrun2 & Hd2).
      rewrite (lrun_bind_ok _ _ _ _ _ _ Hrun2), insert_insert. cbn [lrun]. eexists. split.
      * destruct (Nat.eqb_spec (rep d x) (rep d y)); destruct (Z.eqb_spec (Z.of_nat (rep d x)) (Z.of_nat (rep d y))); try reflexivity; lia.
      * eapply wrel_insert_l; eauto.
    + rewrite lrun_bind, lrun_bind. erewrite find_top_abort by (eauto; lia). reflexivity.
  - destruct (s !! id) as [d|] eqn:E; [|exact I]. destruct (wrel_some _ _ _ _ H E) as (A & cap & Hls & Hd).
    unfold ds_connect. pose proof (proj1 Hd) as Hl. destruct (Nat.ltb_spec x (length d)); simpl andb.
    + destruct (find_top_ok _ _ _ _ _ x Hls Hd ltac:(lia)) as (A' & Hrun & Hd').
      rewrite lrun_bind, (lrun_bind_ok _ _ _ _ _ _ Hrun). pose proof (proj1 Hd') as Hl'.
      destruct (Nat.ltb_spec y (length d)); cycle 1.
      { rewrite lrun_bind. erewrite find_top_abort by (first [apply lookup_insert|lia]). reflexivity. }
      destruct (Nat.eqb_spec (rep d x) (rep d y)); [exact I|].
      destruct (find_top_ok _ id _ cap _ y (lookup_insert ls id _) Hd' ltac:(lia)) as (A2 & Hrun2 & Hd2).
      rewrite (lrun_bind_ok _ _ _ _ _ _ Hrun2), insert_insert.
      destruct (union_ok _ id _ cap _ x y (lookup_insert ls id (LVec A2 cap)) Hd2 ltac:(lia) ltac:(lia) n) as (A3 & Hrun3 & Hd3).
      rewrite Hrun3, insert_insert. eexists. split; [reflexivity|]. apply wrel_insert; auto.
    + rewrite lrun_bind, lrun_bind. erewrite find_top_abort by (eauto; lia). reflexivity.
  - destruct (s !! id) as [d|] eqn:E; [|exact I]. destruct (wrel_some _ _ _ _ H E) as (A & cap & Hls & Hd).
    unfold ds_count. rewrite lrun_bind. lgo witer_ok. cbn [lrun]. rewrite (classes_neg _ _ Hd). eexists. split; [reflexivity|assumption].
  - destruct (s !! id) as [d|] eqn:E; [|exact I]. destruct (wrel_some _ _ _ _ H E) as (A & cap & Hls & Hd).
    lgo wsize_ok. cbn [lrun]. rewrite (proj1 Hd). eexists. split; [reflexivity|assumption].
  - destruct (s !! id) as [d|] eqn:E; [|exact I]. destruct (wrel_some _ _ _ _ H E) as (A & cap & Hls & Hd).
    lgo wempty_ok. cbn [lrun]. destruct Hd as [Hl Hd]. eexists. split; [|exact H].
    destruct A; destruct d; simpl in Hl; try discriminate; reflexivity.
Qed.

Lemma wrel_empty : wrel ∅ ∅.
Proof. intros id. rewrite !lookup_empty. exact I. Qed.

Lemma rep_history_l ops : agree wrel (srun dr_step ops ∅) (lrun true (arun ds_step ops) ∅).
Proof. apply arun_agree; [exact ds_step_agree|exact wrel_empty]. Qed.

Theorem rep_history : forall ops,
  match srun dr_step ops ∅ with
  | SVal (rs, s) => exists w, wrun true (arun ds_step ops) world_init = Ok (rs, w) /\ storage_ok w
  | SAbort => wrun true (arun ds_step ops) world_init = Abort
  | SUnspec => True
  end.
Proof.
  intros ops. pose proof (wrun_agree true wrel _ _ (rep_history_l ops)) as H.
  destruct (srun dr_step ops ∅) as [[rs s]| |]; auto. destruct H as (w & ? & _ & ?). eauto.
Qed.

(** ** Representatives against links *)
Definition lrel (l : dlinks) (d : list nat) : Prop :=
  length d = dl_n l /\
  (forall a b, In (a, b) (dl_pairs l) -> a < dl_n l /\ b < dl_n l /\ rep d a = rep d b) /\
  (forall x, x < dl_n l -> rep d x < dl_n l /\ rep d (rep d x) = rep d x /\ linked (dl_pairs l) x (rep d x)) /\
  classes d + length (dl_pairs l) = dl_n l.

Lemma linked_rep l d a b : lrel l d -> linked (dl_pairs l) a b -> rep d a = rep d b.
Proof.
  intros (_ & Hp & _) H. induction H as [x y H|x|x y H IH|x y z H IH H' IH']; [|reflexivity|congruence|congruence].
  apply Hp in H. tauto.
Qed.
Lemma rep_linked l d a b : lrel l d -> a < dl_n l -> b < dl_n l -> rep d a = rep d b <-> linked (dl_pairs l) a b.
Proof.
  intros Hl Ha Hb. split; [|apply linked_rep; assumption]. destruct Hl as (_ & _ & Hr & _). intros E.
  destruct (Hr a Ha) as (_ & _ & Hla). destruct (Hr b Hb) as (_ & _ & Hlb). rewrite E in Hla.
  eapply rst_trans; [exact Hla|]. apply rst_sym. exact Hlb.
Qed.

Lemma linked_mono E p a b : linked E a b -> linked (p :: E) a b.
Proof.
  induction 1; [apply rst_step; right; assumption|apply rst_refl|apply rst_sym; assumption|eapply rst_trans; eassumption].
Qed.

Lemma classes_init n : classes (seq 0 n) = n.
Proof.
  unfold classes. rewrite seq_length. transitivity (length (seq 0 n)); [f_equal|apply seq_length].
  assert (forall l, (forall i, In i l -> i < n) -> List.filter (fun i => Nat.eqb (rep (seq 0 n) i) i) l = l) as Hg.
  { induction l as [|a l IH]; intros Hl; [reflexivity|]. cbn [List.filter]. unfold rep at 1. rewrite seq_nth by (apply Hl; left; reflexivity).
    rewrite Nat.add_0_l, Nat.eqb_refl. f_equal. apply IH. intros i Hi. apply Hl. right. exact Hi. }
  apply Hg. intros i Hi. apply in_seq in Hi. lia.
Qed.

Lemma filter_remove_one (P Q : nat -> bool) a l : NoDup l -> In a l -> P a = true -> Q a = false ->
  (forall i, In i l -> i <> a -> Q i = P i) -> S (length (List.filter Q l)) = length (List.filter P l).
Proof.
  intros Hnd Hin HP HQ. induction l as [|b l IH]; intros Hl; [destruct Hin|].
  apply NoDup_cons in Hnd as [Hb Hnd]. rewrite elem_of_list_In in Hb. cbn [List.filter]. destruct (decide (b = a)) as [->|Hne].
  - rewrite HP, HQ. cbn [length]. f_equal.
    assert (forall l', (forall i, In i l' -> Q i = P i) -> List.filter Q l' = List.filter P l') as Hext.
    { induction l' as [|c l' IHl]; intros Hl'; [reflexivity|]. cbn [List.filter].
      rewrite Hl' by (left; reflexivity). rewrite IHl; [reflexivity|]. intros; apply Hl'; right; assumption. }
    rewrite Hext; [reflexivity|]. intros i Hi. apply Hl; [right; exact Hi|]. intros ->. contradiction.
  - destruct Hin as [->|Hin]; [contradiction|]. rewrite Hl by (first [left; reflexivity|assumption]).
    specialize (IH Hnd Hin ltac:(intros; apply Hl; [right|]; assumption)).
    destruct (P b); cbn [length]; rewrite <- IH; reflexivity.
Qed.

Lemma lrel_connect l d x y : lrel l d -> x < dl_n l -> y < dl_n l -> rep d x <> rep d y ->
  lrel (DLinks (dl_n l) ((x, y) :: dl_pairs l)) (map (fun z => if Nat.eqb z (rep d y) then rep d x else z) d).
Proof.
  intros Hl Hx Hy Hne. pose proof Hl as (Hlen & Hp & Hr & Hc).
  set (f := fun z => if Nat.eqb z (rep d y) then rep d x else z).
  destruct (Hr x Hx) as (Hrx & Hrrx & Hlx). destruct (Hr y Hy) as (Hry & Hrry & Hly).
  split_and!; cbn [dl_n dl_pairs].
  - rewrite map_length. assumption.
  - intros a b [E|Hin].
    + inversion E; subst a b. split_and!; [assumption|assumption|]. rewrite !rep_map by lia. unfold f.
      rewrite Nat.eqb_refl. destruct (Nat.eqb_spec (rep d x) (rep d y)); congruence.
    + destruct (Hp _ _ Hin) as (Ha & Hb & E). split_and!; [assumption|assumption|].
      rewrite !rep_map by lia. rewrite E. reflexivity.
  - intros z Hz. destruct (Hr z Hz) as (Hrz & Hrrz & Hlz). rewrite (rep_map f d z) by lia. 
    assert (f (rep d z) = if Nat.eqb (rep d z) (rep d y) then rep d x else rep d z) as -> by reflexivity.
    destruct (Nat.eqb_spec (rep d z) (rep d y)) as [E|E].
    + split_and!; [assumption| |].
      * fold f. rewrite (rep_map f d (rep d x)) by lia. unfold f. rewrite Hrrx. destruct (Nat.eqb_spec (rep d x) (rep d y)); congruence.
      * rewrite E in Hlz. eapply rst_trans; [apply linked_mono; exact Hlz|].
        eapply rst_trans; [apply rst_sym, linked_mono; exact Hly|].
        eapply rst_trans; [apply rst_sym, rst_step; left; reflexivity|]. apply linked_mono. exact Hlx.
    + split_and!; [assumption| |apply linked_mono; assumption].
      fold f. rewrite (rep_map f d (rep d z)) by lia. unfold f. rewrite Hrrz. destruct (Nat.eqb_spec (rep d z) (rep d y)); congruence.
  - cbn [length]. enough (S (classes (map f d)) = classes d) by lia. unfold classes. rewrite map_length.
    apply filter_remove_one with (rep d y).
    + apply NoDup_ListNoDup, seq_NoDup.
    + apply in_seq. lia.
    + rewrite Hrry. apply Nat.eqb_refl.
    + rewrite rep_map by lia. rewrite Hrry. unfold f. rewrite Nat.eqb_refl. apply Nat.eqb_neq. assumption.
    + intros i Hi Hiy. apply in_seq in Hi. rewrite rep_map by lia. unfold f.
      destruct (Nat.eqb_spec (rep d i) (rep d y)) as [E|E]; [|reflexivity].
      rewrite E. transitivity false; [apply Nat.eqb_neq|symmetry; apply Nat.eqb_neq; congruence].
      intros E'. rewrite <- E' in E. rewrite Hrrx in E. contradiction.
Qed.

Definition lwrel (s : gmap nat dlinks) (t : gmap nat (list nat)) : Prop :=
  forall id, match s !! id, t !! id with
             | Some l, Some d => lrel l d
             | None, None => True
             | _, _ => False
             end.
Lemma lwrel_insert s t id l d : lwrel s t -> lrel l d -> lwrel (<[id := l]> s) (<[id := d]> t).
Proof.
  intros H Hd j. destruct (decide (id = j)) as [<-|Hne].
  - rewrite !lookup_insert. exact Hd.
  - rewrite !lookup_insert_ne by assumption. apply H.
Qed.
Lemma lwrel_delete s t id : lwrel s t -> lwrel (delete id s) (delete id t).
Proof.
  intros H j. destruct (decide (id = j)) as [<-|Hne].
  - rewrite !lookup_delete. exact I.
  - rewrite !lookup_delete_ne by assumption. apply H.
Qed.
Lemma lrel_nil : lrel (DLinks 0 []) [].
Proof. split_and!; simpl; try reflexivity; intros; try contradiction; lia. Qed.
Lemma lrel_init n : lrel (DLinks n []) (seq 0 n).
Proof.
  split_and!; cbn [dl_n dl_pairs].
  - apply seq_length.
  - intros a b [].
  - intros x Hx. assert (rep (seq 0 n) x = x) as E by (unfold rep; rewrite seq_nth by assumption; reflexivity).
    rewrite !E. split_and!; [assumption|reflexivity|apply rst_refl].
  - rewrite classes_init. simpl. lia.
Qed.

Definition lift {X} (s : gmap nat dlinks) (r : sres (X * gmap nat (list nat))) (r' : sres (X * gmap nat dlinks)) : Prop :=
  match r, r' with
  | SVal (x, t), SVal (x', s') => x = x' /\ lwrel s' t
  | SAbort, SAbort => True
  | SUnspec, SUnspec => True
  | _, _ => False
  end.

Lemma d_step_lift o s t : lwrel s t -> exists r', d_step o s r' /\ lift s (dr_step o t) r'.
Proof.
  intros H.
  assert (forall id, match s !! id with Some l => exists d, t !! id = Some d /\ lrel l d | None => t !! id = None end) as Hl.
  { intros id. specialize (H id). destruct (s !! id), (t !! id); try (destruct H; fail); try contradiction; eauto. }
  destruct o as [id n|id src|id src|id src|id src|id|id x|id x y|id x y|id|id|id]; cbn [dr_step d_step];
    pose proof (Hl id) as Hid; try pose proof (Hl src) as Hsrc;
    (destruct (s !! id) as [l|] eqn:E; [destruct Hid as (d & -> & Hd)|rewrite Hid]);
    try (destruct (s !! src) as [l'|] eqn:E'; [destruct Hsrc as (d' & -> & Hd')|rewrite Hsrc]);
    try (exists SUnspec; split; [reflexivity|exact I]).
  - destruct (Nat.eqb_spec n 0); eexists; (split; [reflexivity|]); [exact I|]. split; [reflexivity|].
    apply lwrel_insert; [assumption|apply lrel_init].
  - eexists; (split; [reflexivity|]). split; [reflexivity|]. apply lwrel_insert; assumption.
  - eexists; (split; [reflexivity|]). split; [reflexivity|]. do 2 (try apply lwrel_insert); auto using lrel_nil.
  - eexists; (split; [reflexivity|]). split; [reflexivity|]. apply lwrel_insert; assumption.
  - destruct (Nat.eqb id src); eexists; (split; [reflexivity|]); (split; [reflexivity|]); [assumption|].
    do 2 (try apply lwrel_insert); auto using lrel_nil.
  - eexists; (split; [reflexivity|]). split; [reflexivity|]. apply lwrel_delete; assumption.
  - pose proof Hd as (Hn & _ & Hr & _). rewrite Hn. destruct (Nat.ltb_spec x (dl_n l)).
    + destruct (Hr x ltac:(lia)) as (Hlt & _ & Hlk). eexists. split; [exists (rep d x); eauto|]. split; auto.
    + eexists; (split; [reflexivity|]). exact I.
  - pose proof Hd as (Hn & _ & Hr & _). rewrite Hn. destruct (Nat.ltb_spec x (dl_n l)); destruct (Nat.ltb_spec y (dl_n l)); simpl andb; cbv iota;
      try (eexists; (split; [reflexivity|]); exact I).
    pose proof (rep_linked _ _ _ _ Hd H0 H1) as Hrl.
    eexists. split; [exists (Nat.eqb (rep d x) (rep d y)); split; [|reflexivity]; rewrite Nat.eqb_eq; exact Hrl|].
    split; auto.
  - pose proof Hd as (Hn & _ & Hr & _). rewrite Hn. destruct (Nat.ltb_spec x (dl_n l)); destruct (Nat.ltb_spec y (dl_n l)); simpl andb; cbv iota;
      try (eexists; (split; [reflexivity|]); exact I).
    pose proof (rep_linked _ _ _ _ Hd H0 H1) as Hrl.
    destruct (Nat.eqb_spec (rep d x) (rep d y)).
    + exists SUnspec. split; [right; tauto|exact I].
    + eexists. split; [left; split; [tauto|reflexivity]|]. split; [reflexivity|]. apply lwrel_insert; [assumption|].
      apply lrel_connect; assumption.
  - eexists; (split; [reflexivity|]). split; [|assumption]. destruct Hd as (_ & _ & _ & Hc). f_equal. lia.
  - eexists; (split; [reflexivity|]). split; [|assumption]. destruct Hd as (-> & _). reflexivity.
  - eexists; (split; [reflexivity|]). split; [|assumption]. destruct Hd as (-> & _). reflexivity.
Qed.

Lemma d_run_lift ops : forall s t, lwrel s t -> exists r', d_run ops s r' /\ lift s (srun dr_step ops t) r'.
Proof.
  induction ops as [|o ops IH]; intros s t H.
  - eexists. split; [reflexivity|]. split; auto.
  - destruct (d_step_lift o s t H) as (r1 & H1 & L1). cbn [srun].
    destruct (dr_step o t) as [[x t']| |]; destruct r1 as [[x' s']| |]; try destruct L1.
    + subst x'. destruct (IH s' t' H2) as (r2 & H2' & L2).
      destruct (srun dr_step ops t') as [[xs t'']| |]; destruct r2 as [[xs' s'']| |]; try destruct L2;
        (eexists; split; [exists (SVal (x, s')); split; [exact H1|]; eexists; split; [exact H2'|reflexivity]|]).
      * subst. split; auto.
      * exact I.
      * exact I.
    + exists SAbort. split; [exists SAbort; auto|exact I].
    + exists SUnspec. split; [exists SUnspec; auto|exact I].
Qed.

Lemma lwrel_empty : lwrel ∅ ∅.
Proof. intros id. rewrite !lookup_empty. exact I. Qed.

Theorem dsu_history : forall ops, exists r, d_run ops ∅ r /\
  match r with
  | SVal (rs, s) => exists w, wrun true (arun ds_step ops) world_init = Ok (rs, w) /\ storage_ok w
  | SAbort => wrun true (arun ds_step ops) world_init = Abort
  | SUnspec => True
  end.
Proof.
  intros ops. destruct (d_run_lift ops ∅ ∅ lwrel_empty) as (r & Hr & L). exists r. split; [exact Hr|].
  pose proof (rep_history ops) as H. destruct (srun dr_step ops ∅) as [[rs t]| |]; destruct r as [[rs' s]| |]; try destruct L; auto.
  subst. exact H.
Qed.

(** ** find is canonical and pure *)
Theorem find_canonical : forall ops, exists r, d_run ops ∅ r /\
  match r with
  | SVal (rs, s) => forall id n E, s !! id = Some (DLinks n E) ->
      forall x y, x < n -> y < n ->
      exists rx ry w, wrun true (arun ds_step (ops ++ [DFind id x; DFind id y; DFind id rx; DFind id x])) world_init
          = Ok (rs ++ [RVal (Z.of_nat rx); RVal (Z.of_nat ry); RVal (Z.of_nat rx); RVal (Z.of_nat rx)], w) /\
        rx < n /\ linked E x rx /\ (rx = ry <-> linked E x y)
  | _ => True
  end.
Proof.
  intros ops. destruct (d_run_lift ops ∅ ∅ lwrel_empty) as (r & Hr & L). exists r. split; [exact Hr|].
  destruct r as [[rs s]| |]; auto. intros id n E Hs x y Hx Hy.
  destruct (srun dr_step ops ∅) as [[rs' t]| |] eqn:Erun; try contradiction. destruct L as [-> L].
  pose proof (L id) as Hid. rewrite Hs in Hid. destruct (t !! id) as [d|] eqn:Et; [|contradiction].
  pose proof Hid as (Hlen & _ & Hrep & _). cbn [dl_n dl_pairs] in *.
  destruct (Hrep x Hx) as (Hrx & Hrrx & Hlx).
  pose proof (rep_history (ops ++ [DFind id x; DFind id y; DFind id (rep d x); DFind id x])) as H.
  rewrite srun_app, Erun in H. cbn [srun dr_step] in H. rewrite Et in H.
  rewrite (proj2 (Nat.ltb_lt x (length d))) in H by lia. rewrite Et in H.
  rewrite (proj2 (Nat.ltb_lt y (length d))) in H by lia. rewrite Et in H.
  rewrite (proj2 (Nat.ltb_lt (rep d x) (length d))) in H by lia. rewrite Et in H.
  rewrite (proj2 (Nat.ltb_lt x (length d))) in H by lia. rewrite Hrrx in H.
  destruct H as (w & H & _). exists (rep d x), (rep d y), w. split_and!; auto.
  apply (rep_linked _ _ _ _ Hid); assumption.
Qed.

Theorem find_pure : forall ops1 ops2 id x rs1 t1 d rs2 t2,
  srun dr_step ops1 ∅ = SVal (rs1, t1) -> t1 !! id = Some d -> x < length d ->
  srun dr_step ops2 t1 = SVal (rs2, t2) ->
  exists v w w', wrun true (arun ds_step (ops1 ++ ops2)) world_init = Ok (rs1 ++ rs2, w) /\
    wrun true (arun ds_step (ops1 ++ DFind id x :: ops2)) world_init = Ok (rs1 ++ RVal v :: rs2, w').
Proof.
  intros ops1 ops2 id x rs1 t1 d rs2 t2 H1 Ht Hx H2.
  pose proof (rep_history (ops1 ++ ops2)) as Ha. rewrite srun_app, H1, H2 in Ha.
  pose proof (rep_history (ops1 ++ DFind id x :: ops2)) as Hb. rewrite srun_app, H1 in Hb.
  cbn [srun dr_step] in Hb. rewrite Ht, (proj2 (Nat.ltb_lt x (length d))), H2 in Hb by lia.
  destruct Ha as (w & Ha & _). destruct Hb as (w' & Hb & _). eauto.
Qed.

(** ** connect of two elements of the same set *)
Lemma find_loop f : forall s id A cap z r d,
  rootd A z r d -> s !! id = Some (LVec (<[r := Z.of_nat r]> A) cap) ->
  lrun true (ds_find f id (Z.of_nat z)) s = Diverge.
Proof.
  induction f as [|f IH]; intros s id A cap z r d Hz Hs; [reflexivity|]. cbn [ds_find].
  assert (r < length A) as Hr by (eapply rootd_lt, rootd_self; eauto).
  destruct (decide (z = r)) as [->|Hne].
  - erewrite lrun_bind_ok by (eapply wget_ok; [exact Hs|apply list_lookup_insert; assumption]).
    destruct (Z.ltb_spec (Z.of_nat r) 0); [lia|]. rewrite lrun_bind. erewrite IH; eauto.
  - destruct Hz as [z v Hz Hv|z p r d Hz Hp]; [congruence|].
    erewrite lrun_bind_ok by (eapply wget_ok; [exact Hs|rewrite list_lookup_insert_ne by congruence; exact Hz]).
    destruct (Z.ltb_spec (Z.of_nat p) 0); [lia|]. rewrite lrun_bind. erewrite IH; eauto.
Qed.

Lemma union_self s id A cap r v : s !! id = Some (LVec A cap) -> A !! r = Some v ->
  lrun true (ds_union id (Z.of_nat r) (Z.of_nat r)) s = Ok (tt, <[id := LVec (<[r := Z.of_nat r]> A) cap]> s).
Proof.
  intros Hs Hr. assert (r < length A) by eauto using lookup_lt_Some. unfold ds_union. rewrite Z.ltb_irrefl.
  lgo wget_ok. lgo wget_ok. rewrite Z.eqb_refl. lgo wset_ok.
  erewrite wset_ok by (first [apply lookup_insert|rewrite insert_length; assumption]).
  rewrite insert_insert, list_insert_insert. reflexivity.
Qed.

Lemma neg_insert A r v : A !! r = Some v -> (v < 0)%Z ->
  S (length (List.filter (fun v => (v <? 0)%Z) (<[r := Z.of_nat r]> A))) = length (List.filter (fun v => (v <? 0)%Z) A).
Proof.
  assert (0 <= Z.of_nat r)%Z as Hu by lia. revert Hu. generalize (Z.of_nat r). intros u Hu. revert r. induction A as [|a A IH]; intros r Hr Hv; [discriminate|].
  destruct r as [|r]; cbn [insert list_insert List.filter].
  - injection Hr as ->. destruct (Z.ltb_spec u 0); [lia|]. destruct (Z.ltb_spec v 0); [reflexivity|lia].
  - specialize (IH r Hr Hv). destruct (a <? 0)%Z; cbn [length]; [f_equal|]; exact IH.
Qed.

(** From every reachable state: connect(x,y) with x, y in one set loses a set
    from count() and makes find recurse for ever on every member. *)
Theorem connect_same : forall ops, exists r, d_run ops ∅ r /\
  match r with
  | SVal (rs, s) => forall id n E, s !! id = Some (DLinks n E) ->
      forall x y, x < n -> y < n -> linked E x y ->
      (exists w, wrun true (arun ds_step (ops ++ [DConnect id x y; DCount id])) world_init
          = Ok (rs ++ [RUnit; RNat (n - length E - 1)], w)) /\
      forall z, z < n -> linked E x z -> forall fuel,
        wrun true (_ <- arun ds_step (ops ++ [DConnect id x y]) ;; ds_find fuel id (Z.of_nat z))%wprog world_init = Diverge
  | _ => True
  end.
Proof.
  intros ops. destruct (d_run_lift ops ∅ ∅ lwrel_empty) as (r & Hr & L). exists r. split; [exact Hr|].
  destruct r as [[rs s]| |]; auto. intros id n E Hs x y Hx Hy Hxy.
  pose proof (rep_history_l ops) as Hrun.
  destruct (srun dr_step ops ∅) as [[rs' t]| |] eqn:Erun; try contradiction. destruct L as [-> L].
  destruct Hrun as (ls & Hrun & HR).
  pose proof (L id) as Hid. rewrite Hs in Hid. destruct (t !! id) as [d|] eqn:Et; [|contradiction].
  pose proof Hid as (Hlen & _ & Hrep & Hcl). cbn [dl_n dl_pairs] in *.
  destruct (wrel_some _ _ _ _ HR Et) as (A & cap & Hls & Hd).
  destruct (find_top_ok _ _ _ _ _ x Hls Hd ltac:(lia)) as (A1 & Hf1 & Hd1).
  destruct (find_top_ok _ id _ cap _ y (lookup_insert ls id _) Hd1 ltac:(lia)) as (A2 & Hf2 & Hd2).
  assert (rep d x = rep d y) as Exy by (apply (rep_linked _ _ _ _ Hid); assumption).
  assert (root A2 x (rep d x)) as Hroot by (apply Hd2; rewrite <- (proj1 Hd2); lia).
  destruct (root_self _ _ _ Hroot) as [k Hk]. destruct (rootd_root _ _ _ _ Hk) as (v & Hv & Hv0).
  assert (lrun true (ds_connect id (Z.of_nat x) (Z.of_nat y)) ls =
      Ok (tt, <[id := LVec (<[rep d x := Z.of_nat (rep d x)]> A2) cap]> ls)) as Hcon.
  { unfold ds_connect. rewrite (lrun_bind_ok _ _ _ _ _ _ Hf1), (lrun_bind_ok _ _ _ _ _ _ Hf2), insert_insert, <- Exy.
    erewrite union_self by (first [apply lookup_insert|exact Hv]). rewrite insert_insert. reflexivity. }
  split.
  - pose proof (program_from_scratch true (arun ds_step (ops ++ [DConnect id x y; DCount id]))) as Hp.
    rewrite (lrun_arun_app _ _ _ _ _ _ _ Hrun) in Hp. cbn [arun ds_step] in Hp.
    rewrite !lrun_bind, Hcon in Hp. cbn [lrun] in Hp. rewrite !lrun_bind in Hp. unfold ds_count in Hp.
    rewrite !lrun_bind in Hp. erewrite witer_ok in Hp by apply lookup_insert. cbn [lrun wbind] in Hp.
    destruct Hp as (w & Hw & _). exists w.
    rewrite Hw. do 4 f_equal.
    pose proof (neg_insert _ _ _ Hv Hv0) as Hneg. rewrite (classes_neg _ _ Hd2) in Hneg. f_equal. f_equal. f_equal. lia.
  - intros z Hz Hxz fuel.
    pose proof (program_from_scratch true (_ <- arun ds_step (ops ++ [DConnect id x y]) ;; ds_find fuel id (Z.of_nat z))%wprog) as Hp.
    rewrite lrun_bind, (lrun_arun_app _ _ _ _ _ _ _ Hrun) in Hp. cbn [arun ds_step] in Hp.
    rewrite !lrun_bind, Hcon in Hp. cbn [lrun wbind] in Hp.
    assert (root A2 z (rep d x)) as [k' Hz'].
    { rewrite (linked_rep _ _ _ _ Hid Hxz). apply Hd2. rewrite <- (proj1 Hd2). lia. }
    erewrite find_loop in Hp by (first [exact Hz'|apply lookup_insert]). exact Hp.
Qed.
