(** What iterating from begin(PostOrder) visits. *)
From Coq Require Import Sorted.
From Verif Require Import Base TreeModel TreeSpec TreeBase TreeSets TreeRot TreeIns TreeZip TreeSwap TreeDel TreeErase TreeIter TreeObj.
Open Scope Z_scope.

Section Post.
Context {A : Type}.
Notation tree := (atree A).
Implicit Types (h : gmap nat (node A)) (t l r : tree) (x y : A) (C : list (frame A)) (F : frame A).

(** Entering a subtree by way of down_leaf: nodes without left but with right
    child, on the way down, are skipped. *)
Fixpoint sk t : list A :=
  match t with
  | Lf => []
  | Br l _ _ x r => sk l ++ match l, r with Lf, Br _ _ _ _ _ => [] | _, _ => [x] end ++ sk r
  end.
(** Starting at the leftmost node. *)
Fixpoint visited t : list A :=
  match t with Lf => [] | Br l _ _ x r => visited l ++ x :: sk r end.
Fixpoint skR C : list A :=
  match C with [] => [] | FL _ _ x r :: C => x :: sk r ++ skR C | FR _ _ _ _ :: C => skR C end.
Lemma skR_app C1 C2 : skR (C1 ++ C2) = skR C1 ++ skR C2.
Proof. induction C1 as [|F C1 IH]; [reflexivity|]. destruct F; cbn [app skR]; [rewrite IH, <- app_assoc; reflexivity|exact IH]. Qed.

(** The leaf that down_leaf finds. *)
Fixpoint leafA t : option nat :=
  match t with
  | Lf => None
  | Br l a _ _ r => match leafA l with Some b => Some b | None => match leafA r with Some b => Some b | None => Some a end end
  end.
Lemma leafA_none t : leafA t = None -> t = Lf.
Proof. destruct t as [|l a hh x r]; [auto|]. cbn. destruct (leafA l), (leafA r); discriminate. Qed.
Lemma down_leaf_ok t : forall fl h f rt z par, t <> Lf -> linked h par t -> (nodes t <= fl)%nat ->
  down_leaf fl (rootp t) (TSt h f rt z) = Ok (leafA t, TSt h f rt z).
Proof.
  induction t as [|l IHl a hh x r IHr]; intros fl h f rt z par Ht H Hfl; [congruence|]. cbn [nodes] in Hfl. destruct fl as [|fl]; [lia|].
  destruct H as (Ha & Hl & Hr). cbn [down_leaf rootp leafA]. erewrite bind_ok by hacc. cbn [n_left].
  destruct (leafA l) as [b|] eqn:El.
  - assert (l <> Lf) as Hnl by (intros ->; discriminate). assert (is_null (rootp l) = false) as -> by (destruct l; [congruence|reflexivity]).
    cbn [negb]. apply (IHl fl h f rt z (Some a) Hnl Hl ltac:(lia)).
  - apply leafA_none in El as ->. cbn [rootp is_null negb]. erewrite bind_ok by hacc. cbn [n_right].
    destruct (leafA r) as [b|] eqn:Er.
    + assert (r <> Lf) as Hnr by (intros ->; discriminate). assert (is_null (rootp r) = false) as -> by (destruct r; [congruence|reflexivity]).
      cbn [negb]. apply (IHr fl h f rt z (Some a) Hnr Hr ltac:(cbn in Hfl; lia)).
    + apply leafA_none in Er as ->. reflexivity.
Qed.
Lemma leaf_zip t b : leafA t = Some b -> exists C hb y, t = plug C (Br Lf b hb y Lf) /\ sk t = y :: skR C.
Proof.
  revert b. induction t as [|l IHl a hh x r IHr]; intros b; [discriminate|]. cbn [leafA]. destruct (leafA l) as [b1|] eqn:El.
  - intros [= <-]. destruct (IHl _ eq_refl) as (C & hb & y & E1 & E2). exists (C ++ [FL a hh x r]), hb, y. split.
    + rewrite plug_app, <- E1. reflexivity.
    + cbn [sk]. rewrite E2, skR_app. cbn [skR]. rewrite app_nil_r. destruct l; [discriminate|]. reflexivity.
  - apply leafA_none in El as ->. destruct (leafA r) as [b1|] eqn:Er.
    + intros [= <-]. destruct (IHr _ eq_refl) as (C & hb & y & E1 & E2). exists (C ++ [FR Lf a hh x]), hb, y. split.
      * rewrite plug_app, <- E1. reflexivity.
      * cbn [sk app]. rewrite E2, skR_app. cbn [skR]. rewrite app_nil_r. destruct r; [discriminate|]. reflexivity.
    + apply leafA_none in Er as ->. intros [= <-]. exists [], hh, x. auto.
Qed.
Lemma up_post_ok C : forall fl h f rt z t, t <> Lf -> nd (plug C t) -> linked h None (plug C t) -> (length C < fl)%nat ->
  up_post fl (rootp t) (TSt h f rt z) = Ok (upres C, TSt h f rt z).
Proof.
  induction C as [|F C IH]; intros fl h f rt z t Ht Hn H Hfl; (destruct fl as [|fl]; [lia|]); cbn [up_post length] in *.
  - cbn [plug] in H. destruct t as [|l a hh x r]; [congruence|]. destruct H as (Ha & _). cbn [rootp]. hgo. reflexivity.
  - pose proof (linked_unplug _ _ _ H) as Ht1. cbn [hpar] in Ht1. destruct t as [|l a hh x r]; [congruence|].
    destruct Ht1 as (Ha & _). cbn [plug] in H, Hn. pose proof (linked_unplug _ _ _ H) as Hf. pose proof (nd_unplug _ _ Hn) as Hnf.
    cbn [rootp]. destruct F as [b hb y rb|lb b hb y]; cbn [fa fill1 upres] in *; destruct Hf as (Hb & _); hgo.
    + rewrite ptr_eqb_ne; [reflexivity|].
      intros E. apply rootp_cnt in E. specialize (Hnf a). cbn [cnt] in Hnf. rewrite one_eq in Hnf. lia.
    + cbn [rootp]. rewrite ptr_eqb_refl. apply (IH fl h f rt z (Br lb b hb y (Br l a hh x r)) ltac:(discriminate) Hn H). lia.
Qed.
Definition next_p C r : option nat := match leafA r with Some b => Some b | None => upres C end.
Lemma next_postorder_ok C h f rt z l a hh x r : nd (plug C (Br l a hh x r)) -> linked h None (plug C (Br l a hh x r)) ->
  next_postorder (Some a) (TSt h f rt z) = Ok (next_p C r, TSt h f rt z).
Proof.
  intros Hn H. pose proof (linked_unplug _ _ _ H) as (Ha & Hl & Hr). pose proof (plug_length _ _ _ Hn H) as Hsz.
  unfold next_postorder, next_p. cbn [is_null]. erewrite bind_ok by hacc. cbn [n_right].
  erewrite bind_ok by reflexivity. cbn [t_heap]. destruct (lf_dec r) as [->|Hnr].
  - cbn [rootp is_null negb leafA]. apply (up_post_ok C _ h f rt z (Br l a hh x Lf)); [discriminate|exact Hn|exact H|lia].
  - destruct (leafA r) as [b|] eqn:E; [|apply leafA_none in E; congruence].
    assert (is_null (rootp r) = false) as -> by (destruct r; [congruence|reflexivity]). cbn [negb].
    rewrite <- E. eapply down_leaf_ok; eauto. cbn [nodes] in Hsz. lia.
Qed.
Lemma upres_noneS C : upres C = None -> skR C = [].
Proof. induction C as [|F C IH]; [reflexivity|]. destruct F; [discriminate|exact IH]. Qed.
Lemma upres_someS C b : upres C = Some b -> forall t, exists C2 l hb y r,
  plug C t = plug C2 (Br l b hb y r) /\ skR C = y :: sk r ++ skR C2.
Proof.
  induction C as [|F C IH]; [discriminate|]. intros E t. destruct F as [a hh x r|l a hh x]; cbn [upres plug fill1 skR] in *.
  - injection E as ->. exists C, t, hh, x, r. auto.
  - apply IH, E.
Qed.
Lemma next_p_ok C l a hh x r : match next_p C r with
  | None => sk r ++ skR C = []
  | Some b => exists C2 l2 hb y r2, plug C (Br l a hh x r) = plug C2 (Br l2 b hb y r2) /\ sk r ++ skR C = y :: sk r2 ++ skR C2
  end.
Proof.
  unfold next_p. destruct (leafA r) as [b|] eqn:E.
  - destruct (leaf_zip r b E) as (Cr & hb & y & Er & Es). exists (Cr ++ FR l a hh x :: C), Lf, hb, y, Lf. split.
    + rewrite plug_app. cbn [plug fill1]. rewrite <- Er. reflexivity.
    + rewrite Es, skR_app. reflexivity.
  - apply leafA_none in E as ->. cbn [sk app]. destruct (upres C) as [b|] eqn:E; [|apply upres_noneS, E].
    destruct (upres_someS C b E (Br l a hh x Lf)) as (C2 & l2 & hb & y & r2 & E1 & E2). eauto 10.
Qed.
Lemma iter_post_from n : forall C l a hh x r fl h f rt z, nd (plug C (Br l a hh x r)) -> linked h None (plug C (Br l a hh x r)) ->
  length (sk r ++ skR C) = n -> (n < pred fl)%nat ->
  iter_from PostOrder fl (Some a) (TSt h f rt z) = Ok (x :: sk r ++ skR C, TSt h f rt z).
Proof.
  induction n as [|n IH]; intros C l a hh x r fl h f rt z Hn H Hl Hfl; (destruct fl as [|fl]; [cbn in Hfl; lia|]); cbn [pred] in Hfl;
    pose proof (linked_unplug _ _ _ H) as (Ha & _); cbn [iter_from is_null next_of]; erewrite bind_ok by hacc; cbn [n_val];
    rewrite (bind_ok _ _ _ _ _ (next_postorder_ok C h f rt z l a hh x r Hn H)); pose proof (next_p_ok C l a hh x r) as Hnx;
    destruct (next_p C r) as [b|].
  - destruct Hnx as (C2 & l2 & hb & y & r2 & E1 & E2). rewrite E2 in Hl. discriminate.
  - rewrite Hnx. destruct fl as [|fl]; [lia|]. reflexivity.
  - destruct Hnx as (C2 & l2 & hb & y & r2 & E1 & E2). rewrite E1 in Hn, H. rewrite E2 in Hl |- *.
    erewrite bind_ok; [reflexivity|]. apply (IH C2 l2 b hb y r2 fl h f rt z Hn H); [cbn in Hl; lia|lia].
  - rewrite Hnx in Hl. discriminate.
Qed.
Lemma visited_plug C t : Forall isFL C -> visited (plug C t) = visited t ++ skR C.
Proof.
  intros HC. revert t. induction HC as [|F C HF _ IH]; intros t; cbn [plug skR]; [rewrite app_nil_r; reflexivity|].
  rewrite IH. destruct F as [a hh x r|]; [|contradiction]. cbn [fill1 visited]. rewrite <- app_assoc. reflexivity.
Qed.
Lemma sk_sub t : sublist (sk t) (elems t).
Proof.
  induction t as [|l IHl a hh x r IHr]; [constructor|]. cbn [sk elems]. apply sublist_app; [exact IHl|].
  assert (sublist (x :: sk r) (x :: elems r)) as H1 by (apply sublist_skip, IHr).
  destruct l; [destruct r|]; cbn [app]; try exact H1. apply sublist_cons, IHr.
Qed.
Lemma visited_sub t : sublist (visited t) (elems t).
Proof. induction t as [|l IHl a hh x r _]; [constructor|]. cbn [visited elems]. apply sublist_app; [exact IHl|apply sublist_skip, sk_sub]. Qed.
Lemma iterate_post_ok t h f z : t <> Lf -> nd t -> linked h None t ->
  bt_iterate PostOrder (TSt h f (rootp t) z) = Ok (visited t, TSt h f (rootp t) z).
Proof.
  intros Ht Hn H. destruct (min_zip t Ht) as (C & b & hb & y & r & E & HC & Hm & _).
  unfold bt_iterate, bt_begin. rewrite bind_assoc. erewrite bind_ok by reflexivity. cbn [t_root].
  assert (first_node (rootp t) PostOrder = @first_node A (rootp t) InOrder) as -> by reflexivity.
  erewrite bind_ok by (eapply first_node_ok; eauto). erewrite bind_ok by reflexivity. cbn [t_heap].
  assert (visited t = y :: sk r ++ skR C) as Ee by (rewrite E at 1; rewrite visited_plug by exact HC; reflexivity).
  pose proof (nodes_size _ _ _ Hn H) as Hs. rewrite <- length_elems in Hs. pose proof (sublist_length _ _ (visited_sub t)) as Hs2.
  rewrite Ee in Hs2. cbn [length] in Hs2. rewrite Ee.
  pose proof H as H'. pose proof Hn as Hn'. rewrite E in Hn', H'.
  rewrite (iter_post_from _ C Lf b hb y r _ h f (rootp t) z Hn' H' eq_refl); [reflexivity|]. cbn [pred]. lia.
Qed.

(** Trees in which no node has a right child. *)
Fixpoint left_only t : Prop := match t with Lf => True | Br l _ _ _ r => r = Lf /\ left_only l end.
Lemma left_only_post t : left_only t -> visited t = post t.
Proof. induction t as [|l IHl a hh x r _]; [reflexivity|]. cbn. intros [-> Hl]. cbn. rewrite IHl by exact Hl. reflexivity. Qed.
Lemma post_perm t : Permutation (post t) (elems t).
Proof.
  induction t as [|l IHl a hh x r IHr]; [reflexivity|]. cbn [post elems]. rewrite IHl, IHr. apply Permutation_app_head.
  symmetry. apply Permutation_cons_append.
Qed.
Lemma elems_post t : NoDup (elems t) -> elems t = post t -> left_only t.
Proof.
  induction t as [|l IHl a hh x r _]; [exact (fun _ _ => I)|]. cbn [elems post left_only]. intros Hn E.
  assert (r = Lf) as ->.
  { destruct (lf_dec r) as [Er|Hr]; [exact Er|exfalso].
    destruct (exists_last (l := elems r)) as (er & y & Ey).
    { destruct r; [congruence|]. cbn. destruct (elems r1); discriminate. }
    rewrite Ey in E. rewrite app_comm_cons, !app_assoc in E. apply app_inj_tail in E as [_ ->].
    apply NoDup_app in Hn as (_ & _ & Hn). apply NoDup_cons in Hn as [Hn _]. apply Hn. rewrite Ey. set_solver. }
  split; [reflexivity|]. cbn [post app] in E. apply app_inj_tail in E as [E _]. apply IHl; [|exact E].
  apply NoDup_app in Hn. apply Hn.
Qed.
Lemma sublist_same (l1 l2 : list A) : sublist l1 l2 -> (length l2 <= length l1)%nat -> l1 = l2.
Proof.
  induction 1 as [|x l1 l2 H IH|x l1 l2 H IH]; cbn [length]; intros Hl; [reflexivity|f_equal; apply IH; lia|].
  apply sublist_length in H. lia.
Qed.
Theorem iterate_post t h f z : t <> Lf -> nd t -> linked h None t -> NoDup (elems t) -> exists l : list A,
  bt_iterate PostOrder (TSt h f (rootp t) z) = Ok (l, TSt h f (rootp t) z) /\ sublist l (elems t) /\ (l = post t <-> left_only t).
Proof.
  intros Ht Hn H Hd. exists (visited t). split; [apply iterate_post_ok; assumption|]. split; [apply visited_sub|].
  split; [|apply left_only_post]. intros E. apply elems_post; [exact Hd|]. rewrite <- E. symmetry. apply sublist_same; [apply visited_sub|].
  rewrite E. rewrite (Permutation_length (post_perm t)). lia.
Qed.
Lemma asc_nodup (cmp : A -> A -> bool) (l : list A) : swo cmp -> ascending cmp l -> NoDup l.
Proof.
  intros Hc. induction l as [|x l IH]; intros Hs; [constructor|]. apply asc_cons in Hs as [Hs Hx]. constructor; [|apply IH, Hs].
  intros Hin. apply elem_of_list_In in Hin. apply Hx in Hin. rewrite (c_irr cmp Hc) in Hin. discriminate.
Qed.
End Post.
