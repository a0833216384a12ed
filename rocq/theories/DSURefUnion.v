(** union_set by reference, and what find and union_set do to the slots kept
    references are bound to. *)
From Verif Require Import Base VectorModel VectorSpec VecProg VectorProofs VectorWorld VectorExtra Adapter LRun DSUModel DSUSpec DSUProofs
  DSUUnionModel DSUUnionSpec DSUUnionProofs VecIterModel VecIterSpec VecIterProofs DSURefModel DSURefFind.

Notation lift := VectorModel.lift.

Section Union.
Implicit Types (st : rst) (ls : lZ).

(** A slot that names an element is in the set of that element. *)
Lemma child d A j y : drel d A -> A !! j = Some (Z.of_nat y) -> y < length d /\ j < length d /\ rep d j = rep d y.
Proof.
  intros Hd Hj. pose proof Hd as [Hl Hr]. assert (j < length A) as Hjl by eauto using lookup_lt_Some.
  destruct (Hr j Hjl) as [k Hk]. inversion Hk as [? v Hv Hn|? q ? k' Hv Hq]; subst.
  - assert (v = Z.of_nat y) by congruence. lia.
  - assert (q = y) as -> by (apply Nat2Z.inj; congruence). split_and!; [rewrite Hl; eapply rootd_lt; eauto|lia|].
    eapply drel_root_eq; [exact Hd|]. eexists; exact Hq.
Qed.
Lemma no_self d A x : drel d A -> A !! x <> Some (Z.of_nat x).
Proof.
  intros [Hl Hr] Hx. assert (x < length A) as Hxl by eauto using lookup_lt_Some.
  destruct (Hr x Hxl) as [k Hk]. inversion Hk as [? v Hv Hn|? q ? k' Hv Hq]; subst.
  - assert (v = Z.of_nat x) by congruence. lia.
  - assert (q = x) as -> by (apply Nat2Z.inj; congruence). destruct (rootd_det _ _ _ _ Hk _ _ Hq). lia.
Qed.

(** What find and a right union_set may do to the slots that name elements. *)
Definition moved (d d' : list nat) (A A' : list Z) : Prop :=
  drel d' A' /\ length d' = length d /\
  (forall a b, a < length d -> b < length d -> rep d a = rep d b -> rep d' a = rep d' b) /\
  forall j y, A !! j = Some (Z.of_nat y) -> A' !! j = Some (Z.of_nat y) \/ A' !! j = Some (Z.of_nat (rep d j)).
Lemma eased_moved d A A' : eased d A A' -> moved d d A A'.
Proof. intros [H1 H2]. split_and!; auto. intros j y Hj. destruct (H2 j _ Hj) as [E|[_ E]]; auto. Qed.
Lemma moved_trans d d' A B C : moved d d A B -> moved d d' B C -> moved d d' A C.
Proof.
  intros (R1 & _ & _ & S1) (R2 & L & M2 & S2). split_and!; auto. intros j y Hj.
  destruct (S1 j y Hj) as [E|E]; [apply S2; exact E|]. right. destruct (S2 j _ E) as [E2|E2]; exact E2.
Qed.

(** The slots after union_set(x, y). *)
Definition uni (A : list Z) (x y : nat) (a b : Z) : list Z :=
  <[y := Z.of_nat x]> (if (Z.of_nat x <? Z.of_nat y)%Z then A else if (a =? b)%Z then <[x := (a - 1)%Z]> A else A).

Lemma uni_run ls id A cap x y a b : ls !! id = Some (LVec A cap) -> A !! x = Some a -> A !! y = Some b ->
  lrun true (ds_union id (Z.of_nat x) (Z.of_nat y)) ls = Ok (tt, <[id := LVec (uni A x y a b) cap]> ls).
Proof.
  intros Hl Ha Hb. assert (x < length A) by eauto using lookup_lt_Some. assert (y < length A) by eauto using lookup_lt_Some.
  unfold ds_union, uni. destruct (Z.of_nat x <? Z.of_nat y)%Z; [eapply wset_ok; eauto|].
  lgo wget_ok. lgo wget_ok. destruct (a =? b)%Z; cbn [wbind].
  - lgo wset_ok. erewrite wset_ok; [|apply lookup_insert|rewrite insert_length; assumption]. rewrite insert_insert. reflexivity.
  - eapply wset_ok; eauto.
Qed.

(** union_set, by reference and by value. *)
Lemma union_ref st ls id A cap d x y a b r1 r2 : winv (r_vecs st) ls -> ls !! id = Some (LVec A cap) -> drel d A ->
  A !! x = Some a -> A !! y = Some b -> reads st ls r1 x -> reads st ls r2 y ->
  exists st', rf_union id r1 r2 st = Ok (tt, st') /\ later st st' /\
    winv (r_vecs st') (<[id := LVec (uni A x y a b) cap]> ls) /\
    wrun true (ds_union id (Z.of_nat x) (Z.of_nat y)) (r_vecs st) = Ok (tt, r_vecs st').
Proof.
  intros Hw Hl Hd Ha Hb H1 H2.
  assert (Hx : x < length A) by eauto using lookup_lt_Some. assert (Hy : y < length A) by eauto using lookup_lt_Some.
  destruct (slot_at_ok _ _ _ _ _ _ _ Hw Hl H1 Hx) as (p1 & Hs1 & Hp1).
  destruct (slot_at_ok _ _ _ _ _ _ _ Hw Hl H2 Hy) as (p2 & Hs2 & Hp2).
  unfold rf_union, uni, ds_union.
  rewrite (bind_ok _ _ _ _ _ (rd_ok _ _ _ _ Hw H1)), (bind_ok _ _ _ _ _ (rd_ok _ _ _ _ Hw H2)).
  assert (Hlast : exists st', (d <- slot_at id r2 ;; x0 <- rd r1 ;; wr d x0) st = Ok (tt, st') /\ later st st' /\
    winv (r_vecs st') (<[id := LVec (<[y := Z.of_nat x]> A) cap]> ls) /\
    wrun true (wset id (Z.of_nat y) (Z.of_nat x)) (r_vecs st) = Ok (tt, r_vecs st')).
  { rewrite (bind_ok _ _ _ _ _ Hs2), (bind_ok _ _ _ _ _ (rd_ok _ _ _ _ Hw H1)).
    destruct (wr_ok _ _ _ _ _ _ _ (Z.of_nat x) Hw Hp2 Hl Hy) as (st' & E1 & E2 & E3 & E4). exists st'. auto. }
  destruct (Z.of_nat x <? Z.of_nat y)%Z; [exact Hlast|].
  rewrite (bind_ok _ _ _ _ _ Hs1), (bind_ok _ _ _ _ _ (rd_slot _ _ _ _ _ _ _ _ Hw Hp1 Hl Ha)).
  rewrite (bind_ok _ _ _ _ _ Hs2), (bind_ok _ _ _ _ _ (rd_slot _ _ _ _ _ _ _ _ Hw Hp2 Hl Hb)).
  rewrite (wrun_wbind _ _ _ _ _ (wget_run _ _ _ _ _ _ _ Hw Hl Ha)), (wrun_wbind _ _ _ _ _ (wget_run _ _ _ _ _ _ _ Hw Hl Hb)).
  destruct (Z.eqb_spec a b) as [<-|Hne]; [|exact Hlast].
  destruct (wr_ok _ _ _ _ _ _ _ (a - 1)%Z Hw Hp1 Hl Hx) as (st1 & E1 & E2 & E3 & E4).
  assert (Hkeep : forall r z, reads st ls r z -> A !! x <> Some (Z.of_nat z) -> reads st1 (<[id := LVec (<[x := (a - 1)%Z]> A) cap]> ls) r z).
  { intros r z Hr Hz. destruct r as [v|p|v|]; cbn [reads] in *; auto.
    - destruct E3 as (-> & _). exact Hr.
    - destruct Hr as (id' & j & B & c & Hp & Hl' & Hj). destruct (decide (id' = id)) as [->|Hid].
      + assert (B = A /\ c = cap) as [-> ->] by (split; congruence). assert (j <> x) by congruence.
        exists id, j, (<[x := (a - 1)%Z]> A), cap. rewrite lookup_insert, list_lookup_insert_ne by congruence. split_and!; eauto using later_rvar.
      + exists id', j, B, c. rewrite lookup_insert_ne by congruence. split_and!; eauto using later_rvar. }
  assert (H1' := Hkeep r1 x H1 (no_self _ _ _ Hd)).
  assert (H2' : reads st1 (<[id := LVec (<[x := (a - 1)%Z]> A) cap]> ls) r2 y).
  { apply Hkeep; [exact H2|]. intros E. apply (no_self d A y Hd). congruence. }
  assert (Hdec : (d0 <- slot_at id r1 ;; v <- rd d0 ;; wr d0 (v - 1)%Z) st = Ok (tt, st1)).
  { rewrite (bind_ok _ _ _ _ _ Hs1), (bind_ok _ _ _ _ _ (rd_slot _ _ _ _ _ _ _ _ Hw Hp1 Hl Ha)). exact E1. }
  assert (Hl1 : <[id := LVec (<[x := (a - 1)%Z]> A) cap]> ls !! id = Some (LVec (<[x := (a - 1)%Z]> A) cap)) by apply lookup_insert.
  assert (Hy1 : y < length (<[x := (a - 1)%Z]> A)) by (rewrite insert_length; exact Hy).
  destruct (slot_at_ok _ _ _ _ _ _ _ E2 Hl1 H2' Hy1) as (p3 & Hs3 & Hp3).
  destruct (wr_ok _ _ _ _ _ _ _ (Z.of_nat x) E2 Hp3 Hl1 Hy1) as (st2 & F1 & F2 & F3 & F4).
  rewrite insert_insert in F2. exists st2. split_and!; eauto using later_trans.
  - rewrite (bind_ok _ _ _ _ _ Hdec), (bind_ok _ _ _ _ _ Hs3), (bind_ok _ _ _ _ _ (rd_ok _ _ _ _ E2 H1')). exact F1.
  - rewrite (wrun_wbind _ _ _ _ _ E4). exact F4.
Qed.
Lemma union_ref_abort st ls id A cap x y r1 r2 : winv (r_vecs st) ls -> ls !! id = Some (LVec A cap) ->
  length A <= x \/ length A <= y -> reads st ls r1 x -> reads st ls r2 y -> rf_union id r1 r2 st = Abort.
Proof.
  intros Hw Hl Hr H1 H2. unfold rf_union.
  rewrite (bind_ok _ _ _ _ _ (rd_ok _ _ _ _ Hw H1)), (bind_ok _ _ _ _ _ (rd_ok _ _ _ _ Hw H2)).
  destruct (Z.ltb_spec (Z.of_nat x) (Z.of_nat y)).
  - apply bind_abort. eapply slot_at_abort; eauto. lia.
  - apply bind_abort. eapply slot_at_abort; eauto. lia.
Qed.

(** The two right calls. *)
Lemma uni_link d A x y a b : drel d A -> A !! x = Some a -> A !! y = Some b -> rep d y = y -> rep d x <> y ->
  moved d (map (fun z => if Nat.eqb z y then rep d x else z) d) A (uni A x y a b).
Proof.
  intros Hd Ha Hb Ey Ex. pose proof Hd as [Hl Hr].
  assert (Hx : x < length A) by eauto using lookup_lt_Some. assert (Hy : y < length A) by eauto using lookup_lt_Some.
  assert (exists ls : lZ, ls !! 0 = Some (LVec A 0)) as [ls Hls] by (exists {[ 0 := LVec A 0 ]}; apply lookup_singleton).
  destruct (union_rep ls 0 A 0 d x y Hls Hd ltac:(lia) ltac:(lia) Ey Ex) as (A' & Hrun & Hd').
  rewrite (uni_run _ _ _ _ _ _ _ _ Hls Ha Hb) in Hrun.
  assert (uni A x y a b = A') as HA.
  { assert (<[0 := LVec (uni A x y a b) 0]> ls = <[0 := LVec A' 0]> ls) as E by congruence.
    apply (f_equal (fun m : lZ => m !! 0)) in E. rewrite !lookup_insert in E. congruence. }
  subst A'. split_and!; [exact Hd'|apply map_length| |].
  - intros i j Hi Hj E. rewrite !(rep_map (fun z => if Nat.eqb z y then rep d x else z)) by assumption. rewrite E. reflexivity.
  - intros j z Hj. left. pose proof (Hr y Hy) as Hry. rewrite Ey in Hry. destruct (proj1 (root_iff_neg _ _ _ Hry) eq_refl) as (v & Hv & Hv0).
    assert (j <> y) by (intros ->; assert (v = Z.of_nat z) by congruence; lia).
    unfold uni. rewrite list_lookup_insert_ne by congruence. destruct (Z.of_nat x <? Z.of_nat y)%Z; [exact Hj|].
    destruct (Z.eqb_spec a b) as [<-|]; [|exact Hj]. assert (j <> x). { intros ->. assert (v = Z.of_nat z) by congruence. lia. }
    rewrite list_lookup_insert_ne by congruence. exact Hj.
Qed.
Lemma uni_noop d A x y a b : drel d A -> A !! x = Some a -> A !! y = Some b -> rep d y = x -> y <> x ->
  moved d d A (uni A x y a b).
Proof.
  intros Hd Ha Hb Ey Ex. pose proof Hd as [Hl Hr].
  assert (Hx : x < length A) by eauto using lookup_lt_Some. assert (Hy : y < length A) by eauto using lookup_lt_Some.
  pose proof (Hr y Hy) as Hry. rewrite Ey in Hry. destruct (proj1 (root_iff_neg _ _ _ (root_self _ _ _ Hry)) eq_refl) as (v & Hv & Hv0).
  destruct (root_nonneg _ _ _ Hry Ex) as (p & Hp & _).
  assert (uni A x y a b = <[y := Z.of_nat x]> A) as ->.
  { unfold uni. destruct (Z.of_nat x <? Z.of_nat y)%Z; [reflexivity|]. destruct (Z.eqb_spec a b); [|reflexivity].
    assert (a = v) by congruence. assert (b = Z.of_nat p) by congruence. lia. }
  split_and!; auto.
  - split; [rewrite insert_length; exact Hl|]. rewrite insert_length. intros z Hz. apply compress_root; auto.
  - intros j z Hj. destruct (decide (j = y)) as [->|Hjy].
    + right. rewrite list_lookup_insert by exact Hy. rewrite Ey. reflexivity.
    + left. rewrite list_lookup_insert_ne by congruence. exact Hj.
Qed.

(** An argument, after such a call. *)
Lemma reads_moved st ls st' id d d' A A' cap r y : ls !! id = Some (LVec A cap) -> drel d A -> reads st ls r y -> later st st' -> moved d d' A A' ->
  exists y', reads st' (<[id := LVec A' cap]> ls) r y' /\ (y' = y \/ (y < length d /\ y' = rep d y)).
Proof.
  intros Hl Hd Hr Hlt (_ & _ & _ & He). destruct r as [v|p|v|]; cbn [reads] in *; eauto.
  - destruct Hlt as (-> & _). eauto.
  - destruct Hr as (id' & j & B & c & Hp & Hl' & Hj). destruct (decide (id' = id)) as [->|Hid].
    + assert (B = A /\ c = cap) as [-> ->] by (split; congruence). destruct (child _ _ _ _ Hd Hj) as (Hy & _ & E).
      destruct (He j _ Hj) as [Ej|Ej].
      * exists y. split; [|auto]. exists id, j, A', cap. rewrite lookup_insert. split_and!; eauto using later_rvar.
      * exists (rep d y). split; [|auto]. exists id, j, A', cap. rewrite lookup_insert, Ej, E. split_and!; eauto using later_rvar.
    + exists y. split; [|auto]. exists id', j, B, c. rewrite lookup_insert_ne by congruence. split_and!; eauto using later_rvar.
Qed.
End Union.
