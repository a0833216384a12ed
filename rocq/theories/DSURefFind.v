(** find by reference: what it returns, and that it does what find by value does. *)
From Verif Require Import Base VectorModel VectorSpec VecProg VectorProofs VectorWorld VectorExtra Adapter LRun DSUModel DSUSpec DSUProofs
  DSUUnionModel DSUUnionProofs VecIterModel VecIterSpec VecIterProofs DSURefModel.

Notation lZ := (lworld Z).
Notation lift := VectorModel.lift.

Section Find.
Context (ord : order).
Implicit Types (st : rst) (ls : lZ).

(** Only memory cells changed. *)
Definition later st st' : Prop :=
  r_ints st' = r_ints st /\ r_refs st' = r_refs st /\ w_objs (r_vecs st') = w_objs (r_vecs st) /\ elder (r_vecs st) (r_vecs st').
Lemma later_refl st : later st st.
Proof. repeat split; auto. Qed.
Lemma later_trans st1 st2 st3 : later st1 st2 -> later st2 st3 -> later st1 st3.
Proof.
  intros (H1 & H2 & H3 & [H4 H4']) (K1 & K2 & K3 & [K4 K4']). split_and!; try congruence. split; [lia|].
  intros b Hb Hn. apply K4'; [lia|]. apply H4'; assumption.
Qed.
Lemma later_rvar st st' p q : later st st' -> rvar (r_vecs st) p q -> rvar (r_vecs st') p q.
Proof.
  intros (_ & _ & Ho & He) H. destruct (r_vecs st') as [m os] eqn:E. cbn [w_objs] in Ho. subst os.
  apply rvar_mem; [exact He|exact H].
Qed.

(** Reading a reference gives [y]. *)
Definition reads st ls (r : cref) (y : nat) : Prop :=
  match r with
  | CVar x => r_ints st !! x = Some (Z.of_nat y)
  | CTmp z => z = Z.of_nat y
  | CSlot p => exists id j A cap, rvar (r_vecs st) p (PAt id j) /\ ls !! id = Some (LVec A cap) /\ A !! j = Some (Z.of_nat y)
  | CGone => False
  end.

Lemma sets_same {X} (m : M (world Z) X) st x : m (r_vecs st) = Ok (x, r_vecs st) -> on_sets m st = Ok (x, st).
Proof. intros H. unfold on_sets. rewrite H. destruct st; reflexivity. Qed.

Lemma rd_slot st ls p id j A cap v : winv (r_vecs st) ls -> rvar (r_vecs st) p (PAt id j) -> ls !! id = Some (LVec A cap) -> A !! j = Some v ->
  rd (CSlot p) st = Ok (v, st).
Proof.
  intros H Hp Hl Hj. cbn [rd]. apply sets_same. rewrite <- (world_same (r_vecs st)) at 2. apply lift_ok.
  rewrite (load_pos _ _ H _ _ Hp). cbn [pos_get]. rewrite Hl, nth_error_lookup. cbn [l_seq]. rewrite Hj. reflexivity.
Qed.
Lemma rd_ok st ls r y : winv (r_vecs st) ls -> reads st ls r y -> rd r st = Ok (Z.of_nat y, st).
Proof.
  intros H Hr. destruct r as [x|p|z|]; cbn [reads] in Hr.
  - cbn [rd]. rewrite Hr. reflexivity.
  - destruct Hr as (id & j & A & cap & Hp & Hl & Hj). eapply rd_slot; eauto.
  - subst z. reflexivity.
  - destruct Hr.
Qed.

Lemma slot_ok st ls id A cap i : winv (r_vecs st) ls -> ls !! id = Some (LVec A cap) -> i < length A ->
  exists p, slot id (Z.of_nat i) st = Ok (CSlot p, st) /\ rvar (r_vecs st) p (PAt id i).
Proof.
  intros H Hl Hi. destruct (winv_obj _ _ _ _ H Hl) as (v & Hv & Hr & Hc). cbn [l_seq l_cap] in *.
  assert (py_index (length A) (Z.of_nat i) = Some i) as Hk.
  { unfold py_index. destruct (Z.leb_spec 0 (Z.of_nat i)); [|lia]. destruct (Z.ltb_spec (Z.of_nat i) (Z.of_nat (length A))); [|lia]. rewrite Nat2Z.id. reflexivity. }
  destruct (v_index_ok _ _ _ _ _ Hr Hk) as [Hix _].
  exists (v_ptr v, i). split.
  - unfold slot. apply sets_same. rewrite (bind_ok _ _ _ _ _ (obj_ok _ _ _ Hv)).
    assert (lift (v_ref v (Z.of_nat i)) (r_vecs st) = Ok ((v_ptr v, i), r_vecs st)) as Hrun.
    { rewrite <- (world_same (r_vecs st)) at 2. apply lift_ok. unfold v_ref. rewrite (bind_ok _ _ _ _ _ Hix).
      destruct (Z.ltb_spec (Z.of_nat i) 0); [lia|]. rewrite Nat2Z.id. reflexivity. }
    rewrite (bind_ok _ _ _ _ _ Hrun). reflexivity.
  - destruct Hr as (Hs & Hle & Hp). destruct (v_ptr v) as [b|] eqn:Eb; [|lia]. exists v, b. split_and!; auto. lia.
Qed.
Lemma slot_abort st ls id A cap i : winv (r_vecs st) ls -> ls !! id = Some (LVec A cap) -> length A <= i ->
  slot id (Z.of_nat i) st = Abort.
Proof.
  intros H Hl Hi. destruct (winv_obj _ _ _ _ H Hl) as (v & Hv & Hr & Hc). cbn [l_seq l_cap] in *.
  unfold slot, on_sets. rewrite (bind_ok _ _ _ _ _ (obj_ok _ _ _ Hv)). unfold bind, lift, v_ref, bind.
  rewrite (v_index_abort _ _ _ _ Hr) by lia. reflexivity.
Qed.
Lemma slot_at_ok st ls id A cap r i : winv (r_vecs st) ls -> ls !! id = Some (LVec A cap) -> reads st ls r i -> i < length A ->
  exists p, slot_at id r st = Ok (CSlot p, st) /\ rvar (r_vecs st) p (PAt id i).
Proof.
  intros H Hl Hr Hi. destruct (slot_ok st ls id A cap i H Hl Hi) as (p & Hs & Hp). exists p. split; [|exact Hp].
  unfold slot_at. rewrite (bind_ok _ _ _ _ _ (rd_ok _ _ _ _ H Hr)). exact Hs.
Qed.
Lemma slot_at_abort st ls id A cap r i : winv (r_vecs st) ls -> ls !! id = Some (LVec A cap) -> reads st ls r i -> length A <= i ->
  slot_at id r st = Abort.
Proof.
  intros H Hl Hr Hi. unfold slot_at. rewrite (bind_ok _ _ _ _ _ (rd_ok _ _ _ _ H Hr)). eapply slot_abort; eauto.
Qed.

Lemma wr_ok st ls p id j A cap z : winv (r_vecs st) ls -> rvar (r_vecs st) p (PAt id j) -> ls !! id = Some (LVec A cap) -> j < length A ->
  exists st', wr (CSlot p) z st = Ok (tt, st') /\ winv (r_vecs st') (<[id := LVec (<[j := z]> A) cap]> ls) /\ later st st' /\
    wrun true (wset id (Z.of_nat j) z) (r_vecs st) = Ok (tt, r_vecs st').
Proof.
  intros H Hp Hl Hj. destruct (lookup_lt_is_Some_2 A j Hj) as [x Hx].
  destruct (store_pos _ _ H p id j z x Hp) as (m' & Hrun & Hw & He).
  { cbn [pos_get]. rewrite Hl, nth_error_lookup. exact Hx. }
  exists (RSt (World m' (w_objs (r_vecs st))) (r_ints st) (r_refs st)). split_and!.
  - cbn [wr]. unfold on_sets. rewrite (lift_ok _ _ _ _ Hrun). reflexivity.
  - unfold set_at in Hw. rewrite Hl in Hw. exact Hw.
  - repeat split; auto; apply He.
  - destruct (winv_obj _ _ _ _ H Hl) as (v & Hv & Hr & Hc). cbn [l_seq l_cap] in *.
    destruct Hp as (v' & b & Hv' & Hb & -> & _). assert (v' = v) as -> by congruence.
    unfold wset, wunit. cbn [wrun w_step v_step r_vecs].
    assert (py_index (length A) (Z.of_nat j) = Some j) as Hk.
    { unfold py_index. destruct (Z.leb_spec 0 (Z.of_nat j)); [|lia]. destruct (Z.ltb_spec (Z.of_nat j) (Z.of_nat (length A))); [|lia]. rewrite Nat2Z.id. reflexivity. }
    destruct (v_index_ok _ _ _ _ _ Hr Hk) as [Hix _].
    assert (v_set v (Z.of_nat j) z (w_mem (r_vecs st)) = Ok (tt, m')) as Hset.
    { unfold v_set. rewrite (bind_ok _ _ _ _ _ Hix). unfold store_z. destruct (Z.ltb_spec (Z.of_nat j) 0); [lia|].
      rewrite Nat2Z.id, Hb. exact Hrun. }
    unfold bind at 1. rewrite (bind_ok _ _ _ _ _ (obj_ok _ _ _ Hv)), (bind_ok _ _ _ _ _ (lift_ok _ _ _ _ Hset)). reflexivity.
Qed.

Lemma wget_run ls (w : world Z) id A cap i v : winv w ls -> ls !! id = Some (LVec A cap) -> A !! i = Some v ->
  wrun true (wget id (Z.of_nat i)) w = Ok (v, w).
Proof.
  intros H Hl Hi. destruct (winv_obj _ _ _ _ H Hl) as (u & Hu & Hr & Hc). cbn [l_seq l_cap] in *.
  unfold wget, wval. cbn [wrun w_step v_step].
  assert (py_index (length A) (Z.of_nat i) = Some i) as Hk.
  { apply lookup_lt_Some in Hi. unfold py_index. destruct (Z.leb_spec 0 (Z.of_nat i)); [|lia]. destruct (Z.ltb_spec (Z.of_nat i) (Z.of_nat (length A))); [|lia]. rewrite Nat2Z.id. reflexivity. }
  unfold bind at 1. rewrite (bind_ok _ _ _ _ _ (obj_ok _ _ _ Hu)), (bind_ok _ _ _ _ _ (lift_ok _ _ _ _ (v_get_ok _ _ _ _ _ _ Hr Hk Hi))), world_same. reflexivity.
Qed.
Lemma wrun_wbind {X Y} (p : wprog Z X) (f : X -> wprog Z Y) (w : world Z) x w' :
  wrun true p w = Ok (x, w') -> wrun true (wbind p f) w = wrun true (f x) w'.
Proof.
  revert w. induction p as [a| | | |o k IH]; intros w H; cbn [wbind wrun] in *; try discriminate.
  - injection H as -> ->. reflexivity.
  - unfold bind in *. destruct (w_step true o w) as [[r w1]| | |]; try discriminate. apply IH. exact H.
Qed.

(** What compressing paths may do to the stored parents. *)
Definition eased (d : list nat) (A A' : list Z) : Prop :=
  drel d A' /\ forall j v, A !! j = Some v -> A' !! j = Some v \/ ((0 <= v)%Z /\ A' !! j = Some (Z.of_nat (rep d j))).
Lemma eased_refl d A : drel d A -> eased d A A.
Proof. split; auto. Qed.
Lemma eased_trans d A B C : eased d A B -> eased d B C -> eased d A C.
Proof.
  intros [R1 S1] [R2 S2]. split; [exact R2|]. intros j v Hj.
  destruct (S1 j v Hj) as [E|[Hv E]]; [apply S2; exact E|]. right. split; [exact Hv|].
  destruct (S2 j _ E) as [E2|[_ E2]]; exact E2.
Qed.

(** find, by reference and by value. *)
Lemma rf_find_ok f : forall st ls id A cap x r d index,
  winv (r_vecs st) ls -> ls !! id = Some (LVec A cap) -> rootd A x r d -> d < f -> reads st ls index x ->
  exists st' A' r', rf_find ord f id index st = Ok (r', st') /\ winv (r_vecs st') (<[id := LVec A' cap]> ls) /\ later st st' /\
    wrun true (ds_find f id (Z.of_nat x)) (r_vecs st) = Ok (Z.of_nat r, r_vecs st') /\
    length A' = length A /\ (forall y ry, root A y ry -> root A' y ry) /\
    (forall j v, A !! j = Some v -> A' !! j = Some v \/ exists dj, 0 < dj /\ dj <= d /\ rootd A j r dj /\ A' !! j = Some (Z.of_nat r)) /\
    reads st' (<[id := LVec A' cap]> ls) r' r /\
    (if Nat.eqb x r then r' = index else exists p, r' = CSlot p /\ rvar (r_vecs st') p (PAt id x) /\ A' !! x = Some (Z.of_nat r)).
Proof.
  induction f as [|f IH]; intros st ls id A cap x r d index Hw Hl Hr Hd Hx; [lia|].
  assert (Hxl : x < length A) by eauto using rootd_lt.
  destruct (slot_at_ok _ _ _ _ _ _ _ Hw Hl Hx Hxl) as (p & Hs & Hp).
  cbn [rf_find ds_find]. rewrite (bind_ok _ _ _ _ _ Hs).
  pose proof Hr as Hr0. inversion Hr as [x' v Hv Hn|x' q r' d' Hv Hq]; subst.
  - rewrite (bind_ok _ _ _ _ _ (rd_slot _ _ _ _ _ _ _ _ Hw Hp Hl Hv)).
    rewrite (wrun_wbind _ _ _ _ _ (wget_run _ _ _ _ _ _ _ Hw Hl Hv)).
    destruct (Z.ltb_spec v 0); [|lia]. exists st, A, index.
    rewrite insert_id by exact Hl. rewrite Nat.eqb_refl. split_and!; auto using later_refl.
  - rewrite (bind_ok _ _ _ _ _ (rd_slot _ _ _ _ _ _ _ _ Hw Hp Hl Hv)).
    rewrite (wrun_wbind _ _ _ _ _ (wget_run _ _ _ _ _ _ _ Hw Hl Hv)).
    destruct (Z.ltb_spec (Z.of_nat q) 0); [lia|].
    destruct (IH st ls id A cap q r d' (CSlot p) Hw Hl Hq ltac:(lia)) as (st1 & A1 & r1 & Hrun & Hw1 & Hlt & Hval & Hlen & Hroot & Hpath & Hrd & _).
    { exists id, x, A, cap. auto. }
    assert (Hx1 : reads st1 (<[id := LVec A1 cap]> ls) index x).
    { destruct index as [y|p'|z|]; cbn [reads] in *.
      - destruct Hlt as (-> & _). exact Hx.
      - destruct Hx as (id' & j & B & c & Hp' & Hl' & Hj). destruct (decide (id' = id)) as [->|Hne].
        + assert (B = A /\ c = cap) as [-> ->] by (split; congruence). exists id, j, A1, cap. rewrite lookup_insert. split_and!; eauto using later_rvar.
          destruct (Hpath j _ Hj) as [E|(dj & _ & Hdj & Hrj & _)]; [exact E|]. exfalso.
          assert (rootd A j r (S (S d'))) as Hrj' by (econstructor; eauto). destruct (rootd_det _ _ _ _ Hrj _ _ Hrj'). lia.
        + exists id', j, B, c. rewrite lookup_insert_ne by congruence. split_and!; eauto using later_rvar.
      - exact Hx.
      - exact Hx. }
    assert (Hl1 : <[id := LVec A1 cap]> ls !! id = Some (LVec A1 cap)) by apply lookup_insert.
    destruct (slot_at_ok _ _ _ _ _ _ _ Hw1 Hl1 Hx1 ltac:(lia)) as (p1 & Hs1 & Hp1).
    assert (Hne : x <> r). { intros ->. pose proof (rootd_self _ _ _ _ Hq) as Hself. destruct (rootd_det _ _ _ _ Hself _ _ Hr0). lia. }
    (* the assignment, to the slot of [x] *)
    assert (Hend : forall p2, rvar (r_vecs st1) p2 (PAt id x) -> exists st2,
      wr (CSlot p2) (Z.of_nat r) st1 = Ok (tt, st2) /\
      winv (r_vecs st2) (<[id := LVec (<[x := Z.of_nat r]> A1) cap]> ls) /\ later st st2 /\
      wrun true (r0 <- ds_find f id (Z.of_nat q) ;; wset id (Z.of_nat x) r0 ;;; WRet r0)%wprog (r_vecs st) = Ok (Z.of_nat r, r_vecs st2) /\
      rvar (r_vecs st2) p2 (PAt id x)).
    { intros p2 Hp2. destruct (wr_ok st1 _ p2 id x A1 cap (Z.of_nat r) Hw1 Hp2 Hl1 ltac:(lia)) as (st2 & Hwr & Hw2 & Hlt2 & Hv2).
      rewrite insert_insert in Hw2. exists st2. split_and!; eauto using later_trans, later_rvar.
      rewrite (wrun_wbind _ _ _ _ _ Hval), (wrun_wbind _ _ _ _ _ Hv2). reflexivity. }
    assert (Hfin : forall p2 st2, rvar (r_vecs st2) p2 (PAt id x) -> 
      length (<[x := Z.of_nat r]> A1) = length A /\ (forall y ry, root A y ry -> root (<[x := Z.of_nat r]> A1) y ry) /\
      (forall j v, A !! j = Some v -> <[x := Z.of_nat r]> A1 !! j = Some v \/ exists dj, 0 < dj /\ dj <= S d' /\ rootd A j r dj /\ <[x := Z.of_nat r]> A1 !! j = Some (Z.of_nat r)) /\
      reads st2 (<[id := LVec (<[x := Z.of_nat r]> A1) cap]> ls) (CSlot p2) r /\
      (if Nat.eqb x r then CSlot p2 = index else exists p, CSlot p2 = CSlot p /\ rvar (r_vecs st2) p (PAt id x) /\ <[x := Z.of_nat r]> A1 !! x = Some (Z.of_nat r))).
    { intros p2 st2 Hp2. assert (Hix : <[x := Z.of_nat r]> A1 !! x = Some (Z.of_nat r)) by (apply list_lookup_insert; lia). split_and!.
      - rewrite insert_length. exact Hlen.
      - assert (root A x r) as Hxr by (eexists; eauto). intros y ry Hy. apply compress_root; auto.
      - intros j v Hj. destruct (decide (j = x)) as [->|Hjx]; [right; exists (S d'); split_and!; auto; lia|].
        rewrite list_lookup_insert_ne by congruence. destruct (Hpath j v Hj) as [E|(dj & H0 & H1 & H2 & H3)]; [auto|]. right. exists dj. split_and!; auto.
      - exists id, x, (<[x := Z.of_nat r]> A1), cap. rewrite lookup_insert. auto.
      - destruct (Nat.eqb_spec x r); [contradiction|]. eauto. }
    assert (Hrd1 := rd_ok _ _ _ _ Hw1 Hrd).
    destruct (o_left ord).
    + rewrite (bind_ok _ _ _ _ _ Hs), (bind_ok _ _ _ _ _ Hs), (bind_ok _ _ _ _ _ Hrun), (bind_ok _ _ _ _ _ Hrd1).
      destruct (Hend p (later_rvar _ _ _ _ Hlt Hp)) as (st2 & Hwr & Hw2 & Hlt2 & Hv2 & Hp2).
      rewrite (bind_ok _ _ _ _ _ Hwr). exists st2, (<[x := Z.of_nat r]> A1), (CSlot p).
      destruct (Hfin p st2 Hp2) as (F1 & F2 & F3 & F4 & F5). split_and!; auto.
    + rewrite (bind_ok _ _ _ _ _ Hs), (bind_ok _ _ _ _ _ Hrun), (bind_ok _ _ _ _ _ Hs1), (bind_ok _ _ _ _ _ Hrd1).
      destruct (Hend p1 Hp1) as (st2 & Hwr & Hw2 & Hlt2 & Hv2 & Hp2).
      rewrite (bind_ok _ _ _ _ _ Hwr). exists st2, (<[x := Z.of_nat r]> A1), (CSlot p1).
      destruct (Hfin p1 st2 Hp2) as (F1 & F2 & F3 & F4 & F5). split_and!; auto.
Qed.

Lemma top_size st ls id A cap : winv (r_vecs st) ls -> ls !! id = Some (LVec A cap) ->
  exists v, on_sets (obj id) st = Ok (v, st) /\ v_size v = length A /\ wrun true (wsize id) (r_vecs st) = Ok (length A, r_vecs st).
Proof.
  intros H Hl. destruct (winv_obj _ _ _ _ H Hl) as (v & Hv & Hr & Hc). cbn [l_seq l_cap] in *. exists v. split_and!.
  - apply sets_same, obj_ok, Hv.
  - apply (vrep_size _ _ _ Hr).
  - unfold wsize. cbn [wrun w_step v_step]. unfold bind at 1. rewrite (bind_ok _ _ _ _ _ (obj_ok _ _ _ Hv)). cbn. rewrite (vrep_size _ _ _ Hr). reflexivity.
Qed.

Lemma find_top_ref st ls id A cap d x index : winv (r_vecs st) ls -> ls !! id = Some (LVec A cap) -> drel d A -> x < length d -> reads st ls index x ->
  exists st' A' r', rf_find_top ord id index st = Ok (r', st') /\ winv (r_vecs st') (<[id := LVec A' cap]> ls) /\ later st st' /\
    wrun true (ds_find_top id (Z.of_nat x)) (r_vecs st) = Ok (Z.of_nat (rep d x), r_vecs st') /\
    eased d A A' /\ reads st' (<[id := LVec A' cap]> ls) r' (rep d x) /\
    (if Nat.eqb (rep d x) x then r' = index else exists p, r' = CSlot p /\ rvar (r_vecs st') p (PAt id x) /\ A' !! x = Some (Z.of_nat (rep d x))).
Proof.
  intros Hw Hl [Hlen Hd] Hx Hrd. destruct (Hd x ltac:(lia)) as [k Hk].
  destruct (top_size _ _ _ _ _ Hw Hl) as (v & Hv & Hs & Hsz).
  destruct (rf_find_ok (S (length A)) st ls id A cap x (rep d x) k index Hw Hl Hk) as (st' & A' & r' & Hrun & Hw' & Hlt & Hval & Hl' & Hroot & Hpath & Hr' & Hshape); [pose proof (rootd_depth _ _ _ _ Hk); lia|exact Hrd|].
  exists st', A', r'. split_and!; auto.
  - unfold rf_find_top. rewrite (bind_ok _ _ _ _ _ Hv), Hs. exact Hrun.
  - unfold ds_find_top. rewrite (wrun_wbind _ _ _ _ _ Hsz). exact Hval.
  - split; [split; [lia|intros y Hy; apply Hroot, Hd; lia]|]. intros j u Hj. destruct (Hpath j u Hj) as [E|(dj & H0 & _ & Hrj & E)]; [auto|]. right. split.
    + inversion Hrj; subst; [lia|]. assert (u = Z.of_nat p) by congruence. lia.
    + rewrite E. f_equal. f_equal. eapply root_det; [eexists; exact Hrj|]. apply Hd. eauto using lookup_lt_Some.
  - rewrite Nat.eqb_sym. exact Hshape.
Qed.
Lemma find_top_ref_abort st ls id A cap x index : winv (r_vecs st) ls -> ls !! id = Some (LVec A cap) -> length A <= x -> reads st ls index x ->
  rf_find_top ord id index st = Abort.
Proof.
  intros Hw Hl Hx Hrd. destruct (top_size _ _ _ _ _ Hw Hl) as (v & Hv & _ & _). unfold rf_find_top. rewrite (bind_ok _ _ _ _ _ Hv).
  cbn [rf_find]. apply bind_abort. eapply slot_at_abort; eauto.
Qed.
End Find.
