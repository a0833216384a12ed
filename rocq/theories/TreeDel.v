(** AVLTree::_delete and pop. *)
From Coq Require Import Sorted.
From Verif Require Import Base Alloc TreeModel TreeSpec TreeBase TreeSets TreeRot TreeIns TreeZip TreeSwap.
From Verif Require Export TreeIns.
Open Scope Z_scope.

Section Del.
Context {A : Type} (cmp : A -> A -> bool) (Hc : swo cmp).
Notation tree := (atree A).
Implicit Types (h : gmap nat (node A)) (t l r : tree) (x : A).
Notation asc := (ascending cmp).
Notation atF := (atF cmp).

(** Without the smallest element; without [x]. *)
Fixpoint delminF t : tree :=
  match t with
  | Lf => Lf
  | Br Lf _ _ _ r => r
  | Br l a hh v r => balF (updF (Br (delminF l) a hh v r))
  end.
Fixpoint delF x t : tree :=
  match t with
  | Lf => Lf
  | Br l a hh v r =>
      if cmp x v then balF (updF (Br (delF x l) a hh v r))
      else if cmp v x then balF (updF (Br l a hh v (delF x r)))
      else match l, r with
           | Lf, _ => r
           | _, Lf => l
           | _, _ => match minA r with
                     | Some (b, y) => balF (updF (Br l b hh y (delminF r)))
                     | None => Lf
                     end
           end
  end.

Lemma delmin_Br l a hh v r : l <> Lf -> delminF (Br l a hh v r) = balF (updF (Br (delminF l) a hh v r)).
Proof. destruct l; [congruence|reflexivity]. Qed.
Lemma minA_Br l a (hh : Z) v r : l <> Lf -> minA (Br l a hh v r) = minA l.
Proof. destruct l; [congruence|reflexivity]. Qed.
Lemma setmin_Br l a (hh : Z) v r b y : l <> Lf -> setmin (Br l a hh v r) b y = Br (setmin l b y) a hh v r.
Proof. destruct l; [congruence|reflexivity]. Qed.
Lemma lf_dec t : t = Lf \/ t <> Lf.
Proof. destruct t; [left; reflexivity|right; discriminate]. Qed.
Lemma setmin_nonleaf t b y : t <> Lf -> setmin t b y <> Lf.
Proof. destruct t as [|l a hh v r]; [congruence|]. intros _. destruct l; discriminate. Qed.

(** Deleting what was put in the smallest element's place. *)
Lemma delF_setmin t a v x : equiv cmp x v -> (forall y, In y (elems t) -> cmp x y = true) ->
  delF x (setmin t a v) = delminF t.
Proof.
  intros He. induction t as [|l IHl b hb y r _]; intros Hlt; [reflexivity|].
  destruct (lf_dec l) as [->|Hl].
  - cbn [setmin delF delminF]. destruct He as [-> ->]. reflexivity.
  - rewrite setmin_Br, delmin_Br by exact Hl. cbn [delF]. rewrite (Hlt y) by (cbn [elems]; apply in_or_app; right; left; reflexivity).
    rewrite IHl; [reflexivity|]. intros w Hw. apply Hlt. cbn [elems]. apply in_or_app. left. exact Hw.
Qed.
Lemma atF_setmin t a v x : t <> Lf -> equiv cmp x v -> (forall y, In y (elems t) -> cmp x y = true) ->
  atF x (setmin t a v) = Some a.
Proof.
  intros Ht He. revert Ht. induction t as [|l IHl b hb y r _]; intros Ht Hlt; [congruence|].
  destruct (lf_dec l) as [->|Hl].
  - cbn [setmin atF]. destruct He as [-> ->]. reflexivity.
  - rewrite setmin_Br by exact Hl. cbn [atF]. rewrite (Hlt y) by (cbn [elems]; apply in_or_app; right; left; reflexivity).
    apply IHl; [exact Hl|]. intros w Hw. apply Hlt. cbn [elems]. apply in_or_app. left. exact Hw.
Qed.
Lemma depth_setmin t a v : depth (setmin t a v) = depth t.
Proof.
  induction t as [|l IHl b hb y r _]; [reflexivity|]. destruct (lf_dec l) as [->|Hl]; [reflexivity|].
  rewrite setmin_Br by exact Hl. cbn [depth]. rewrite IHl. reflexivity.
Qed.
Lemma nodes_setmin t a v : nodes (setmin t a v) = nodes t.
Proof.
  induction t as [|l IHl b hb y r _]; [reflexivity|]. destruct (lf_dec l) as [->|Hl]; [reflexivity|].
  rewrite setmin_Br by exact Hl. cbn [nodes]. rewrite IHl. reflexivity.
Qed.
Lemma avl_setmin t a v : avl t -> avl (setmin t a v).
Proof.
  induction t as [|l IHl b hb y r _]; [auto|]. destruct (lf_dec l) as [->|Hl].
  - cbn [setmin]. rewrite !avl_Br. auto.
  - rewrite setmin_Br by exact Hl. rewrite !avl_Br, depth_setmin. intros (? & ? & ? & ?). split; [assumption|]. split; [assumption|]. split; [apply IHl; assumption|assumption].
Qed.

Lemma elems_delmin t : elems (delminF t) = tail (elems t).
Proof.
  induction t as [|l IHl b hb y r _]; [reflexivity|]. destruct (lf_dec l) as [->|Hl]; [reflexivity|].
  rewrite delmin_Br by exact Hl. rewrite elems_bal, elems_upd. cbn [elems]. rewrite IHl.
  destruct (minA_some l Hl) as (b2 & y2 & Hm). destruct (minA_elems _ _ _ Hm) as (L & -> & _). reflexivity.
Qed.
Lemma cnt_delmin k t b y : minA t = Some (b, y) -> (cnt k (delminF t) + one k b = cnt k t)%nat.
Proof.
  induction t as [|l IHl c hb w r _]; [discriminate|]. destruct (lf_dec l) as [->|Hl].
  - cbn. intros [= -> ->]. lia.
  - rewrite delmin_Br, minA_Br by exact Hl. intros Hm. rewrite cnt_bal, cnt_upd. cbn [cnt]. specialize (IHl Hm). lia.
Qed.
Lemma delmin_avl t : avl t -> avl (delminF t) /\ depth t - 1 <= depth (delminF t) <= depth t.
Proof.
  induction t as [|l IHl b hb y r _]; [cbn; split; [assumption|lia]|]. intros H. apply avl_Br in H as (Eh & Hb & Hl & Hr).
  destruct (lf_dec l) as [->|Hn].
  - cbn [delminF depth] in *. split; [assumption|]. pose proof (depth_nonneg r). lia.
  - rewrite delmin_Br by exact Hn. destruct (IHl Hl) as [Hl' Hd].
    destruct (bal_avl (delminF l) b hb y r Hl' Hr ltac:(lia)) as [Ha Hd']. split; [exact Ha|]. cbn [depth]. lia.
Qed.

Lemma elems_del x t : asc (elems t) -> elems (delF x t) = remove_set cmp x (elems t).
Proof.
  induction t as [|l IHl a hh v r IHr]; cbn [delF elems]; [reflexivity|].
  intros Ha. pose proof (proj1 (asc_mid cmp Hc _ _ _) Ha) as (Hal & Har & _ & _).
  destruct (c_cases cmp Hc x v) as [[E E']|[[E E']|E]].
  - rewrite E, (remove_lt cmp Hc _ _ _ Ha _ E), elems_bal, elems_upd. cbn [elems]. rewrite IHl by exact Hal. reflexivity.
  - rewrite E, E', (remove_gt cmp Hc _ _ _ Ha _ E'), elems_bal, elems_upd. cbn [elems]. rewrite IHr by exact Har. reflexivity.
  - rewrite (remove_eq cmp Hc _ _ _ Ha _ E). destruct E as [-> ->].
    destruct (lf_dec l) as [->|Hl]; [reflexivity|]. destruct (lf_dec r) as [->|Hr].
    { destruct l; [congruence|]. rewrite app_nil_r. reflexivity. }
    destruct (minA_some r Hr) as (b & y & Hm). destruct (minA_elems _ _ _ Hm) as (L & EL & _).
    rewrite Hm. destruct l as [|? ? ? ? ?]; [congruence|]. destruct r as [|? ? ? ? ?]; [congruence|].
    rewrite elems_bal, elems_upd. change (elems (Br ?l ?a ?h ?x ?r)) with (elems l ++ x :: elems r) at 1.
    rewrite elems_delmin, EL. reflexivity.
Qed.
Lemma cnt_del k x t b : atF x t = Some b -> (cnt k (delF x t) + one k b = cnt k t)%nat.
Proof.
  induction t as [|l IHl a hh v r IHr]; cbn [delF atF]; [discriminate|].
  destruct (cmp x v); [intros H; rewrite cnt_bal, cnt_upd; cbn [cnt]; specialize (IHl H); lia|].
  destruct (cmp v x); [intros H; rewrite cnt_bal, cnt_upd; cbn [cnt]; specialize (IHr H); lia|].
  intros [= <-]. destruct (lf_dec l) as [->|Hl]; [cbn; lia|]. destruct (lf_dec r) as [->|Hr].
  { destruct l; [congruence|]. cbn [cnt]. lia. }
  destruct (minA_some r Hr) as (b & y & Hm). pose proof (cnt_delmin k _ _ _ Hm) as Hk. rewrite Hm.
  destruct l as [|? ? ? ? ?]; [congruence|]. destruct r as [|? ? ? ? ?]; [congruence|].
  rewrite cnt_bal, cnt_upd. cbn [cnt] in *. lia.
Qed.
Lemma del_avl x t : avl t -> avl (delF x t) /\ depth t - 1 <= depth (delF x t) <= depth t.
Proof.
  induction t as [|l IHl a hh v r IHr]; [cbn; split; [assumption|lia]|]. intros H. apply avl_Br in H as (Eh & Hb & Hl & Hr).
  destruct (IHl Hl) as [Hl' Hdl]. destruct (IHr Hr) as [Hr' Hdr]. cbn [delF].
  destruct (cmp x v).
  { destruct (bal_avl (delF x l) a hh v r Hl' Hr ltac:(lia)) as [Ha Hd']. split; [exact Ha|]. cbn [depth]. lia. }
  destruct (cmp v x).
  { destruct (bal_avl l a hh v (delF x r) Hl Hr' ltac:(lia)) as [Ha Hd']. split; [exact Ha|]. cbn [depth]. lia. }
  pose proof (depth_nonneg l). pose proof (depth_nonneg r).
  destruct (lf_dec l) as [->|Hnl]; [cbn [depth] in *; split; [assumption|lia]|]. destruct (lf_dec r) as [->|Hnr].
  { destruct l; [congruence|]. cbn [depth] in *. split; [assumption|lia]. }
  destruct (minA_some r Hnr) as (b & y & Hm). rewrite Hm. destruct (delmin_avl r Hr) as [Hr2 Hd2].
  destruct (bal_avl l b hh y (delminF r) Hl Hr2 ltac:(lia)) as [Ha Hd'].
  destruct l as [|? ? ? ? ?]; [congruence|]. destruct r as [|? ? ? ? ?]; [congruence|].
  split; [exact Ha|]. cbn [depth] in *. lia.
Qed.

(** The leftmost node. *)
Lemma down_left_ok t : forall fl h f rt z par b y, t <> Lf -> linked h par t -> (nodes t < fl)%nat -> minA t = Some (b, y) ->
  down_left fl (rootp t) (TSt h f rt z) = Ok (Some b, TSt h f rt z).
Proof.
  induction t as [|l IHl a hh v r _]; intros fl h f rt z par b y Hn H Hf Hm; [congruence|].
  destruct fl as [|fl]; [cbn [nodes] in Hf; lia|]. pose proof H as (Ha & Hl & _). cbn [rootp down_left]. hgo.
  destruct (lf_dec l) as [->|Hnl].
  - cbn [rootp is_null]. cbn in Hm. injection Hm as -> ->. reflexivity.
  - rewrite minA_Br in Hm by exact Hnl. destruct l as [|l1 c hc w l2]; [congruence|]. cbn [rootp is_null].
    apply (IHl fl _ _ _ _ (Some a) b y Hnl Hl ltac:(cbn [nodes] in *; lia) Hm).
Qed.
Lemma first_node_ok t h f rt z par b y : t <> Lf -> nd t -> linked h par t -> minA t = Some (b, y) ->
  first_node (rootp t) InOrder (TSt h f rt z) = Ok (Some b, TSt h f rt z).
Proof.
  intros Hn Hd H Hm. cbn [first_node]. erewrite bind_ok by reflexivity. cbn [t_heap].
  eapply down_left_ok; eauto. pose proof (nodes_size _ _ _ Hd H). lia.
Qed.

(** New height and rotations at a node. *)
Lemma fix_root_ok h f rt z par l a hh v r : nd (Br l a hh v r) -> linked h par (Br l a hh v r) -> heights_ok l -> heights_ok r ->
  exists h', (avl_update_height (Some a) ;;; avl_check_balance (Some a)) (TSt h f rt z) =
      Ok (rootp (balF (updF (Br l a hh v r))), TSt h' f rt z) /\
    linked h' par (balF (updF (Br l a hh v r))) /\ forall k, cnt k (Br l a hh v r) = 0%nat -> h' !! k = h !! k.
Proof.
  intros Hn H Hl Hr.
  destruct (update_height_root h f rt z par (Br l a hh v r) ltac:(discriminate) Hn H) as (h1 & E1 & H1 & F1).
  assert (nd (updF (Br l a hh v r))) as Hn1 by (intros k; rewrite cnt_upd; apply Hn).
  destruct (avl_check_balance_ok h1 f rt z par (updF (Br l a hh v r)) Hn1 H1) as (h2 & E2 & H2 & F2).
  { cbn [updF kids_ok]. split; assumption. }
  exists h2. split_and!; [|exact H2|].
  - cbn [rootp] in E1. rewrite (bind_ok _ _ _ _ _ E1). exact E2.
  - intros k Hk. rewrite F2 by (rewrite cnt_upd; exact Hk). apply F1, Hk.
Qed.

(** What a call may do to its surroundings. *)
Definition par_frame h h' (par : option nat) t : Prop :=
  (forall k, cnt k t = 0%nat -> par <> Some k -> h' !! k = h !! k) /\
  (forall p a, par = Some p -> rootp t = Some a -> exists b, h' !! p = fixn a b <$> h !! p).
Lemma fixn_id a (n : node A) : fixn a a n = n.
Proof.
  assert (forall p, swapc a a p = p) as E.
  { intros p. unfold swapc, ptr_eqb. destruct (bool_decide_reflect (p = Some a)) as [->|]; reflexivity. }
  unfold fixn. rewrite !E. destruct n; reflexivity.
Qed.
Lemma par_frame_same h h' par t : (forall k, cnt k t = 0%nat -> h' !! k = h !! k) -> (forall p, par = Some p -> cnt p t = 0%nat) ->
  par_frame h h' par t.
Proof.
  intros H Hp. split; [intros k Hk _; auto|]. intros p a Ep _. exists a. rewrite H by auto.
  destruct (h !! p) as [n|]; cbn; [rewrite fixn_id; reflexivity|reflexivity].
Qed.
Lemma swapc_ne a b p : p <> Some a -> swapc a b p = p.
Proof. intros H. unfold swapc. rewrite ptr_eqb_ne by exact H. reflexivity. Qed.
Lemma rootp_ne t1 t2 a : rootp t1 = Some a -> (forall k, cnt k t1 + cnt k t2 <= 1)%nat -> rootp t2 <> Some a.
Proof. intros H1 Hn H2. apply rootp_cnt in H1, H2. specialize (Hn a). lia. Qed.

Definition del_ok (x : A) fl t : Prop := forall h f rt z par,
  nd t -> linked h par t -> avl t -> asc (elems t) -> depth t < Z.of_nat fl ->
  (forall p, par = Some p -> is_Some (h !! p) /\ cnt p t = 0%nat) ->
  match atF x t with
  | None => avl_delete cmp fl (rootp t) x (TSt h f rt z) = UB
  | Some b => exists h' rt', avl_delete cmp fl (rootp t) x (TSt h f rt z) = Ok (rootp (delF x t), TSt h' (al_gave b f) rt' (z - 1)) /\
      linked h' par (delF x t) /\ h' !! b = None /\ par_frame h h' par t /\ (par <> None -> rt' = rt)
  end.

Lemma avl_delete_ok x fl : forall t, del_ok x fl t.
Proof.
  induction fl as [|fl IH]; intros t h f rt z par Hn H Ht Ha Hfu Hp; [pose proof (depth_nonneg t); lia|].
  destruct t as [|l a hh v r].
  { cbn [atF rootp avl_delete]. reflexivity. }
  cbn [depth] in Hfu. cbn [elems] in *. pose proof (proj1 (asc_mid cmp Hc _ _ _) Ha) as (Hal & Har & Hlv & Hvr).
  apply avl_Br in Ht as (Eh & Hb & Hl & Hr).
  pose proof H as (Hla & Hll & Hlr). pose proof (nd_l _ _ _ _ _ Hn) as Hnl. pose proof (nd_r _ _ _ _ _ Hn) as Hnr.
  pose proof (Hn a) as Hna. cbn [cnt] in Hna. rewrite one_eq in Hna.
  assert (forall p, par = Some p -> p <> a) as Hpa.
  { intros p E ->. destruct (Hp a E) as [_ E0]. cbn [cnt] in E0. rewrite one_eq in E0. lia. }
  cbn [avl_delete rootp atF delF].
  erewrite bind_ok by hacc. cbn [n_val].
  destruct (c_cases cmp Hc x v) as [[E E']|[[E E']|E]].
  - rewrite E. erewrite bind_ok by hacc. cbn [n_left].
    specialize (IH l h f rt z (Some a) Hnl Hll Hl Hal ltac:(lia)).
    assert (forall p, Some a = Some p -> is_Some (h !! p) /\ cnt p l = 0%nat) as Hp1 by (intros p [= <-]; split; [eauto|lia]).
    specialize (IH Hp1). destruct (atF x l) as [b|] eqn:Eb.
    + destruct IH as (h1 & rt1 & E1 & H1 & Hb1 & (F1 & G1) & R1). rewrite R1 in E1 by discriminate. clear R1 rt1.
      destruct (rootp l) as [la|] eqn:Erl; [|destruct l; discriminate].
      destruct (G1 a la eq_refl eq_refl) as (b0 & Ga). rewrite Hla in Ga. cbn in Ga.
      assert (rootp r <> Some la) as Hrla. { apply (rootp_ne l r la Erl). intros k. specialize (Hn k). cbn [cnt] in Hn. lia. }
      unfold fixn in Ga. cbn [n_par n_left n_right n_h n_val] in Ga. rewrite (swapc_ne _ _ (rootp r) Hrla) in Ga.
      rewrite (bind_ok _ _ _ _ _ E1). erewrite bind_ok by (eapply st_left_ok; exact Ga). cbn [n_par n_right n_h n_val].
      set (h2 := <[a := Nd par (rootp (delF x l)) (rootp r) hh v]> h1).
      pose proof (cnt_del a x l b Eb) as Hca.
      assert (nd (Br (delF x l) a hh v r)) as Hn2.
      { intros k. cbn [cnt]. pose proof (cnt_del k x l b Eb). specialize (Hn k). cbn [cnt] in Hn. lia. }
      assert (linked h2 par (Br (delF x l) a hh v r)) as H2.
      { cbn [linked]. split_and!; [apply lookup_insert|apply linked_insert; [lia|exact H1]|].
        apply linked_insert; [lia|]. eapply linked_same; [|exact Hlr]. intros k Hk. apply F1; [specialize (Hn k); cbn [cnt] in Hn; lia|].
        intros [= <-]. lia. }
      destruct (del_avl x l Hl) as [Hl' _].
      destruct (fix_root_ok h2 (al_gave b f) rt (z-1) par _ _ _ _ _ Hn2 H2 (proj1 Hl') (proj1 Hr)) as (h3 & E3 & H3 & F3).
      exists h3, rt. split_and!; [exact E3|exact H3| | |reflexivity].
      * pose proof (cnt_del b x l b Eb) as Hcb. rewrite one_eq in Hcb. pose proof (Hn b) as Hnb. cbn [cnt] in Hnb.
        assert (b <> a) as Hba by (intros ->; lia).
        rewrite F3. { unfold h2. rewrite lookup_insert_ne by congruence. exact Hb1. }
        cbn [cnt]. rewrite one_ne by congruence. lia.
      * apply par_frame_same; [|intros p Ep; apply Hp, Ep]. intros k Hk. cbn [cnt] in Hk.
        pose proof (cnt_del k x l b Eb) as Hck.
        assert (k <> a) as Hka by (intros ->; rewrite one_eq in Hk; lia).
        rewrite F3 by (cbn [cnt]; lia). unfold h2. rewrite lookup_insert_ne by congruence. apply F1; [lia|congruence].
    + apply bind_ub. exact IH.
  - rewrite E, E'. erewrite bind_ok by hacc. cbn [n_right].
    specialize (IH r h f rt z (Some a) Hnr Hlr Hr Har ltac:(lia)).
    assert (forall p, Some a = Some p -> is_Some (h !! p) /\ cnt p r = 0%nat) as Hp1 by (intros p [= <-]; split; [eauto|lia]).
    specialize (IH Hp1). destruct (atF x r) as [b|] eqn:Eb.
    + destruct IH as (h1 & rt1 & E1 & H1 & Hb1 & (F1 & G1) & R1). rewrite R1 in E1 by discriminate. clear R1 rt1.
      destruct (rootp r) as [la|] eqn:Erl; [|destruct r; discriminate].
      destruct (G1 a la eq_refl eq_refl) as (b0 & Ga). rewrite Hla in Ga. cbn in Ga.
      assert (rootp l <> Some la) as Hrla. { apply (rootp_ne r l la Erl). intros k. specialize (Hn k). cbn [cnt] in Hn. lia. }
      unfold fixn in Ga. cbn [n_par n_left n_right n_h n_val] in Ga. rewrite (swapc_ne _ _ (rootp l) Hrla) in Ga.
      rewrite (bind_ok _ _ _ _ _ E1). erewrite bind_ok by (eapply st_right_ok; exact Ga). cbn [n_par n_left n_h n_val].
      set (h2 := <[a := Nd par (rootp l) (rootp (delF x r)) hh v]> h1).
      pose proof (cnt_del a x r b Eb) as Hca.
      assert (nd (Br l a hh v (delF x r))) as Hn2.
      { intros k. cbn [cnt]. pose proof (cnt_del k x r b Eb). specialize (Hn k). cbn [cnt] in Hn. lia. }
      assert (linked h2 par (Br l a hh v (delF x r))) as H2.
      { cbn [linked]. split_and!; [apply lookup_insert| |apply linked_insert; [lia|exact H1]].
        apply linked_insert; [lia|]. eapply linked_same; [|exact Hll]. intros k Hk. apply F1; [specialize (Hn k); cbn [cnt] in Hn; lia|].
        intros [= <-]. lia. }
      destruct (del_avl x r Hr) as [Hr' _].
      destruct (fix_root_ok h2 (al_gave b f) rt (z-1) par _ _ _ _ _ Hn2 H2 (proj1 Hl) (proj1 Hr')) as (h3 & E3 & H3 & F3).
      exists h3, rt. split_and!; [exact E3|exact H3| | |reflexivity].
      * pose proof (cnt_del b x r b Eb) as Hcb. rewrite one_eq in Hcb. pose proof (Hn b) as Hnb. cbn [cnt] in Hnb.
        assert (b <> a) as Hba by (intros ->; lia).
        rewrite F3. { unfold h2. rewrite lookup_insert_ne by congruence. exact Hb1. }
        cbn [cnt]. rewrite one_ne by congruence. lia.
      * apply par_frame_same; [|intros p Ep; apply Hp, Ep]. intros k Hk. cbn [cnt] in Hk.
        pose proof (cnt_del k x r b Eb) as Hck.
        assert (k <> a) as Hka by (intros ->; rewrite one_eq in Hk; lia).
        rewrite F3 by (cbn [cnt]; lia). unfold h2. rewrite lookup_insert_ne by congruence. apply F1; [lia|congruence].
    + apply bind_ub. exact IH.
  - pose proof E as [E1 E2]. rewrite E1, E2. erewrite bind_ok by hacc. erewrite bind_ok by hacc. cbn [n_left n_right].
    destruct (decide (negb (is_null (rootp l)) && negb (is_null (rootp r)) = true)) as [Ebo|Ebo].
    + (* two children *)
      assert (l <> Lf) as Hnl' by (intros ->; discriminate).
      assert (r <> Lf) as Hnr' by (intros ->; destruct l; discriminate).
      rewrite Ebo. destruct (minA_some r Hnr') as (b & y & Hm).
      erewrite bind_ok by (eapply first_node_ok; eauto).
      destruct (swap_ok h f rt z par l a hh v r b y Hn H Hm Hp) as (h1 & Es & Hs & Fs).
      rewrite (bind_ok _ _ _ _ _ Es). cbn [fst]. pose proof Hs as (Hsb & Hsl & Hsr).
      erewrite bind_ok by hacc. cbn [n_right].
      destruct (minA_cnt _ _ _ Hm) as [Hmc1 Hmc2]. destruct (minA_elems _ _ _ Hm) as (L & EL & EL2).
      assert (forall k, cnt k (setmin r a v) + one k b = cnt k r + one k a)%nat as Hmc by (intros k; apply Hmc2).
      assert (a <> b) as Hab by (intros ->; lia).
      assert (forall y0, In y0 (elems r) -> cmp x y0 = true) as Hxr.
      { intros y0 Hy0. eapply (c_equiv_l cmp Hc); [apply equiv_sym; exact E|]. apply Hvr, Hy0. }
      assert (nd (setmin r a v)) as Hn1.
      { intros k. specialize (Hmc k). specialize (Hn k). cbn [cnt] in Hn. onecase. }
      assert (cnt b (setmin r a v) = 0%nat) as Hbs.
      { specialize (Hmc b). rewrite one_eq, one_ne in Hmc by congruence. specialize (Hn b). cbn [cnt] in Hn. lia. }
      assert (asc (elems (setmin r a v))) as Has.
      { rewrite EL2. rewrite EL in Har, Hvr. apply asc_cons in Har as [HaL _]. apply asc_cons.
        split; [exact HaL|]. intros w Hw. apply Hvr. right. exact Hw. }
      assert (forall p, Some b = Some p -> is_Some (h1 !! p) /\ cnt p (setmin r a v) = 0%nat) as Hp1.
      { intros p [= <-]. split; [eauto|exact Hbs]. }
      specialize (IH (setmin r a v) h1 f (match par with None => Some b | Some _ => rt end) z (Some b) Hn1 Hsr (avl_setmin _ _ _ Hr) Has).
      rewrite depth_setmin in IH. specialize (IH ltac:(lia) Hp1).
      rewrite (atF_setmin r a v x Hnr' E Hxr) in IH.
      rewrite (delF_setmin r a v x E Hxr) in IH.
      destruct IH as (h2 & rt2 & Ed & H2 & Ha2 & (F2 & G2) & R2). rewrite R2 in Ed by discriminate. clear R2 rt2.
      rewrite (bind_ok _ _ _ _ _ Ed).
      destruct (rootp (setmin r a v)) as [ra|] eqn:Ers; [|exfalso; eapply (setmin_nonleaf r a v); [exact Hnr'|]; destruct (setmin r a v); [reflexivity|discriminate]].
      destruct (G2 b ra eq_refl eq_refl) as (b0 & Gb). rewrite Hsb in Gb. cbn in Gb.
      assert (rootp l <> Some ra) as Hrla.
      { apply (rootp_ne (setmin r a v) l ra Ers). intros k. specialize (Hmc k). specialize (Hn k). cbn [cnt] in Hn. onecase. }
      unfold fixn in Gb. cbn [n_par n_left n_right n_h n_val] in Gb. rewrite (swapc_ne _ _ (rootp l) Hrla) in Gb.
      erewrite bind_ok by (eapply st_right_ok; exact Gb). cbn [n_par n_left n_h n_val].
      set (h3 := <[b := Nd par (rootp l) (rootp (delminF r)) hh y]> h2).
      assert (forall k, cnt k (delminF r) + one k b = cnt k r)%nat as Hcm by (intros k; apply (cnt_delmin k r b y Hm)).
      assert (forall k, cnt k (Br l b hh y (delminF r)) + one k a = cnt k (Br l a hh v r))%nat as Hcm2.
      { intros k. cbn [cnt]. specialize (Hcm k). lia. }
      assert (cnt b l = 0)%nat as Hbl by (specialize (Hn b); cbn [cnt] in Hn; lia).
      assert (nd (Br l b hh y (delminF r))) as Hn3 by (intros k; specialize (Hcm2 k); specialize (Hn k); lia).
      assert (linked h3 par (Br l b hh y (delminF r))) as H3.
      { cbn [linked]. split_and!; [apply lookup_insert| |apply linked_insert; [specialize (Hn3 b); cbn [cnt] in Hn3; rewrite one_eq in Hn3; lia|exact H2]].
        apply linked_insert; [exact Hbl|]. eapply linked_same; [|exact Hsl]. intros k Hk. apply F2; [|intros [= <-]; lia].
        specialize (Hmc k). specialize (Hn k). cbn [cnt] in Hn. onecase. }
      destruct (delmin_avl r Hr) as [Hr' _].
      destruct (fix_root_ok h3 (al_gave a f) (match par with None => Some b | Some _ => rt end) (z-1) par _ _ _ _ _ Hn3 H3 (proj1 Hl) (proj1 Hr')) as (h4 & E4 & H4 & F4).
      exists h4, (match par with None => Some b | Some _ => rt end).
      assert (match l with Lf => r | Br _ _ _ _ _ => match r with Lf => l | Br _ _ _ _ _ => balF (updF (Br l b hh y (delminF r))) end end = balF (updF (Br l b hh y (delminF r)))) as Edl.
      { destruct l; [congruence|]. destruct r; [congruence|reflexivity]. }
      rewrite Hm. rewrite Edl. split_and!; [exact E4|exact H4| | |destruct par; [reflexivity|congruence]].
      * rewrite F4 by (specialize (Hcm2 a); specialize (Hn a); rewrite one_eq in Hcm2; lia).
        unfold h3. rewrite lookup_insert_ne by congruence. exact Ha2.
      * assert (forall k, cnt k (Br l a hh v r) = 0%nat -> h4 !! k = fixp h par a b !! k) as Hfin.
        { intros k Hk. pose proof (Hcm2 k) as Hk2. rewrite F4 by lia.
          assert (k <> b) as Hkb. { intros ->. cbn [cnt] in Hk. lia. }
          unfold h3. rewrite lookup_insert_ne by congruence. rewrite F2; [|specialize (Hmc k); cbn [cnt] in Hk; lia|congruence].
          apply Fs, Hk. }
        split.
        -- intros k Hk Hpk. rewrite Hfin by exact Hk. apply fp_ne, Hpk.
        -- intros p a0 -> [= <-]. exists b. rewrite Hfin by apply (Hp p eq_refl). cbn [fixp]. apply lookup_alter.
    + (* at most one child *)
      apply not_true_is_false in Ebo. rewrite Ebo.
      set (sub := if is_null (rootp l) then r else l).
      assert ((if is_null (rootp l) then rootp r else rootp l) = rootp sub) as Esub by (unfold sub; destruct l; reflexivity).
      cbn zeta. rewrite Esub.
      assert (match l with Lf => r | Br _ _ _ _ _ => match r with Lf => l | Br _ _ _ _ _ => match minA r with Some (b, y) => balF (updF (Br l b hh y (delminF r))) | None => Lf end end end = sub) as ->.
      { unfold sub. destruct l; [reflexivity|]. destruct r; [reflexivity|discriminate]. }
      assert (linked h (Some a) sub) as Hsub by (unfold sub; destruct l; assumption).
      assert (nd sub) as Hns by (unfold sub; destruct l; assumption).
      assert (forall k, cnt k sub <= cnt k l + cnt k r)%nat as Hcs by (intros k; unfold sub; destruct l; cbn [is_null rootp]; lia).
      exists (delete a (setparp h (rootp sub) par)), rt. split_and!.
      * assert (when (negb (is_null (rootp sub))) (p <- ld_par (Some a) ;; st_par (rootp sub) p) (TSt h f rt z) = Ok (tt, TSt (setparp h (rootp sub) par) f rt z)) as Ew.
        { destruct sub as [|s1 c hc w s2] eqn:Es; [reflexivity|]. cbn [rootp is_null negb when]. hgo.
          destruct Hsub as (Hsc & _). apply (st_par_al _ _ _ _ _ _ _ Hsc). }
        rewrite (bind_ok _ _ _ _ _ Ew). unfold avl_real_delete. rewrite bind_assoc.
        assert (setparp h (rootp sub) par !! a = h !! a) as Eaa by (apply sp_ne; specialize (Hcs a); lia).
        unfold free_node. erewrite bind_ok. 2:{ cbn [t_heap]. rewrite Eaa, Hla. reflexivity. }
        reflexivity.
      * apply linked_delete; [specialize (Hcs a); lia|]. eapply linked_reparent; eauto.
      * apply lookup_delete.
      * apply par_frame_same; [|intros p Ep; apply Hp, Ep]. intros k Hk. cbn [cnt] in Hk.
        rewrite lookup_delete_ne by (intros <-; rewrite one_eq in Hk; lia). apply sp_ne. specialize (Hcs k). lia.
      * reflexivity.
Qed.
End Del.
