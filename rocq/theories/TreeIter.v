(** Iterators and traversals of EmbeddedBinaryTree and BinaryTree. *)
From Coq Require Import Sorted.
From Verif Require Import Base Alloc TreeModel TreeSpec TreeBase TreeSets TreeRot TreeIns TreeZip TreeSwap TreeDel TreeErase.
Open Scope Z_scope.

Section Iter.
Context {A : Type}.
Notation tree := (atree A).
Implicit Types (h : gmap nat (node A)) (t l r : tree) (x : A) (C : list (frame A)) (F : frame A).

Lemma elemsL_app C1 C2 : elemsL (C1 ++ C2) = elemsL C2 ++ elemsL C1.
Proof.
  induction C1 as [|F C1 IH]; cbn [app elemsL]; [rewrite app_nil_r; reflexivity|].
  destruct F; rewrite IH; [reflexivity|]. rewrite <- app_assoc. reflexivity.
Qed.
Lemma elemsR_app C1 C2 : elemsR (C1 ++ C2) = elemsR C1 ++ elemsR C2.
Proof.
  induction C1 as [|F C1 IH]; cbn [app elemsR]; [reflexivity|].
  destruct F; rewrite IH; [|reflexivity]. cbn [app]. rewrite <- app_assoc. reflexivity.
Qed.
Lemma elemsL_FL C : Forall isFL C -> elemsL C = [].
Proof. induction 1 as [|F C HF _ IH]; [reflexivity|]. destruct F; [exact IH|contradiction]. Qed.
Lemma linked_unplug h C t : linked h None (plug C t) -> linked h (hpar None C) t.
Proof. intros H. apply linked_plug in H. apply H. Qed.
Lemma nd_unplug C t : nd (plug C t) -> nd t.
Proof. intros H k. specialize (H k). rewrite cnt_plug in H. lia. Qed.
Lemma plug_length h C t : nd (plug C t) -> linked h None (plug C t) -> (length C + nodes t <= size h)%nat.
Proof. intros Hn H. pose proof (nodes_size _ _ _ Hn H). pose proof (length_nodes C t). lia. Qed.

(** ** Next in order *)
Fixpoint upres C : option nat :=
  match C with [] => None | FL a _ _ _ :: _ => Some a | FR _ _ _ _ :: C => upres C end.
Lemma up_in_ok C : forall fl h f rt z t, t <> Lf -> nd (plug C t) -> linked h None (plug C t) -> (length C < fl)%nat ->
  up_in fl (rootp t) (TSt h f rt z) = Ok (upres C, TSt h f rt z).
Proof.
  induction C as [|F C IH]; intros fl h f rt z t Ht Hn H Hfl; (destruct fl as [|fl]; [lia|]); cbn [up_in length] in *.
  - cbn [plug] in H. destruct t as [|l a hh x r]; [congruence|]. destruct H as (Ha & _). cbn [rootp]. hgo. reflexivity.
  - pose proof (linked_unplug _ _ _ H) as Ht1. cbn [hpar] in Ht1. destruct t as [|l a hh x r]; [congruence|].
    destruct Ht1 as (Ha & _). cbn [plug] in H, Hn. pose proof (linked_unplug _ _ _ H) as Hf. pose proof (nd_unplug _ _ Hn) as Hnf.
    cbn [rootp]. destruct F as [b hb y rb|lb b hb y]; cbn [fa fill1 upres] in *; destruct Hf as (Hb & _); hgo.
    + cbn [rootp]. rewrite ptr_eqb_refl. reflexivity.
    + rewrite ptr_eqb_ne.
      2:{ intros E. apply rootp_cnt in E. specialize (Hnf a). cbn [cnt] in Hnf. rewrite one_eq in Hnf. lia. }
      apply (IH fl h f rt z (Br lb b hb y (Br l a hh x r)) ltac:(discriminate) Hn H). lia.
Qed.
Definition next_pos C r : option nat := match minA r with Some (b, _) => Some b | None => upres C end.
Lemma next_inorder_ok C h f rt z l a hh x r : nd (plug C (Br l a hh x r)) -> linked h None (plug C (Br l a hh x r)) ->
  next_inorder (Some a) (TSt h f rt z) = Ok (next_pos C r, TSt h f rt z).
Proof.
  intros Hn H. pose proof (linked_unplug _ _ _ H) as (Ha & Hl & Hr). pose proof (plug_length _ _ _ Hn H) as Hsz.
  pose proof (nd_unplug _ _ Hn) as Hn1.
  unfold next_inorder, next_pos. cbn [is_null]. erewrite bind_ok by hacc. cbn [n_right].
  erewrite bind_ok by reflexivity. cbn [t_heap]. destruct (lf_dec r) as [->|Hnr].
  - cbn [rootp is_null negb minA]. apply (up_in_ok C _ h f rt z (Br l a hh x Lf)); [discriminate|exact Hn|exact H|lia].
  - destruct (minA_some r Hnr) as (b & y & Hm). rewrite Hm. destruct r as [|r1 c hc w r2]; [congruence|].
    cbn [rootp is_null negb]. eapply (down_left_ok (Br r1 c hc w r2)); eauto. cbn [nodes] in *. lia.
Qed.

Lemma upres_none C : upres C = None -> elemsR C = [].
Proof. induction C as [|F C IH]; [reflexivity|]. destruct F; [discriminate|exact IH]. Qed.
Lemma upres_some C b : upres C = Some b -> forall t, exists C2 l hb y r,
  plug C t = plug C2 (Br l b hb y r) /\ elemsR C = y :: elems r ++ elemsR C2.
Proof.
  induction C as [|F C IH]; [discriminate|]. intros E t. destruct F as [a hh x r|l a hh x]; cbn [upres plug fill1 elemsR] in *.
  - injection E as ->. exists C, t, hh, x, r. auto.
  - apply IH, E.
Qed.
(** The next position, its element, and what is left after it. *)
Lemma next_pos_ok C l a hh x r : match next_pos C r with
  | None => elems r ++ elemsR C = []
  | Some b => exists C2 l2 hb y r2, plug C (Br l a hh x r) = plug C2 (Br l2 b hb y r2) /\
      elems r ++ elemsR C = y :: elems r2 ++ elemsR C2
  end.
Proof.
  unfold next_pos. destruct (lf_dec r) as [->|Hnr].
  - cbn [minA elems app]. destruct (upres C) as [b|] eqn:E; [|apply upres_none, E].
    destruct (upres_some C b E (Br l a hh x Lf)) as (C2 & l2 & hb & y & r2 & E1 & E2). eauto 10.
  - destruct (min_zip r Hnr) as (Cr & b & hb & y & br & Er & HCr & Hm & _). rewrite Hm.
    exists (Cr ++ FR l a hh x :: C), Lf, hb, y, br. split.
    + rewrite plug_app. cbn [plug fill1]. rewrite <- Er. reflexivity.
    + rewrite Er at 1. rewrite elems_plug, (elemsL_FL _ HCr), elemsR_app. cbn [elemsR elems app]. rewrite <- app_assoc. reflexivity.
Qed.

Lemma iter_in_from n : forall C l a hh x r fl h f rt z, nd (plug C (Br l a hh x r)) -> linked h None (plug C (Br l a hh x r)) ->
  length (elems r ++ elemsR C) = n -> (n < pred fl)%nat ->
  iter_from InOrder fl (Some a) (TSt h f rt z) = Ok (x :: elems r ++ elemsR C, TSt h f rt z).
Proof.
  induction n as [|n IH]; intros C l a hh x r fl h f rt z Hn H Hl Hfl; (destruct fl as [|fl]; [cbn in Hfl; lia|]); cbn [pred] in Hfl;
    pose proof (linked_unplug _ _ _ H) as (Ha & _); cbn [iter_from is_null next_of]; erewrite bind_ok by hacc; cbn [n_val];
    rewrite (bind_ok _ _ _ _ _ (next_inorder_ok C h f rt z l a hh x r Hn H)); pose proof (next_pos_ok C l a hh x r) as Hnx;
    destruct (next_pos C r) as [b|].
  - destruct Hnx as (C2 & l2 & hb & y & r2 & E1 & E2). rewrite E2 in Hl. discriminate.
  - rewrite Hnx. destruct fl as [|fl]; [lia|]. reflexivity.
  - destruct Hnx as (C2 & l2 & hb & y & r2 & E1 & E2). rewrite E1 in Hn, H. rewrite E2 in Hl |- *.
    erewrite bind_ok; [reflexivity|]. apply (IH C2 l2 b hb y r2 fl h f rt z Hn H); [cbn in Hl; lia|lia].
  - rewrite Hnx in Hl. discriminate.
Qed.
Lemma iterate_in_ok t h f z : t <> Lf -> nd t -> linked h None t ->
  bt_iterate InOrder (TSt h f (rootp t) z) = Ok (elems t, TSt h f (rootp t) z).
Proof.
  intros Ht Hn H. destruct (min_zip t Ht) as (C & b & hb & y & r & E & HC & Hm & _).
  unfold bt_iterate, bt_begin. rewrite bind_assoc. erewrite bind_ok by reflexivity. cbn [t_root].
  erewrite bind_ok by (eapply first_node_ok; eauto). erewrite bind_ok by reflexivity. cbn [t_heap].
  assert (elems t = y :: elems r ++ elemsR C) as Ee.
  { rewrite E at 1. rewrite elems_plug, (elemsL_FL _ HC). reflexivity. }
  pose proof (nodes_size _ _ _ Hn H) as Hs. rewrite <- length_elems, Ee in Hs. cbn [length] in Hs. rewrite Ee.
  pose proof H as H'. pose proof Hn as Hn'. rewrite E in Hn', H'.
  rewrite (iter_in_from _ C Lf b hb y r _ h f (rootp t) z Hn' H' eq_refl); [reflexivity|]. cbn [pred]. lia.
Qed.

(** ** Next in pre-order *)
Fixpoint preR C : list A := match C with [] => [] | FL _ _ _ r :: C => pre r ++ preR C | FR _ _ _ _ :: C => preR C end.
Fixpoint upp C : option nat :=
  match C with [] => None | FL _ _ _ r :: C => match rootp r with Some b => Some b | None => upp C end | FR _ _ _ _ :: C => upp C end.
Lemma up_pre_ok C : forall fl h f rt z t, t <> Lf -> nd (plug C t) -> linked h None (plug C t) -> (length C < fl)%nat ->
  up_pre fl (rootp t) (TSt h f rt z) = Ok (upp C, TSt h f rt z).
Proof.
  induction C as [|F C IH]; intros fl h f rt z t Ht Hn H Hfl; (destruct fl as [|fl]; [lia|]); cbn [up_pre length] in *.
  - cbn [plug] in H. destruct t as [|l a hh x r]; [congruence|]. destruct H as (Ha & _). cbn [rootp]. hgo. reflexivity.
  - pose proof (linked_unplug _ _ _ H) as Ht1. cbn [hpar] in Ht1. destruct t as [|l a hh x r]; [congruence|].
    destruct Ht1 as (Ha & _). cbn [plug] in H, Hn. pose proof (linked_unplug _ _ _ H) as Hf. pose proof (nd_unplug _ _ Hn) as Hnf.
    cbn [rootp]. destruct F as [b hb y rb|lb b hb y]; cbn [fa fill1 upp] in *; destruct Hf as (Hb & _); hgo.
    + destruct (rootp rb) as [c|] eqn:Ec.
      * cbn [is_null negb andb]. rewrite ptr_eqb_ne; [reflexivity|]. intros [= ->]. apply rootp_cnt in Ec.
        specialize (Hnf a). cbn [cnt] in Hnf. rewrite one_eq in Hnf. lia.
      * cbn [is_null negb andb]. apply (IH fl h f rt z (Br (Br l a hh x r) b hb y rb) ltac:(discriminate) Hn H). lia.
    + cbn [rootp is_null negb andb]. rewrite ptr_eqb_refl. cbn [negb].
      apply (IH fl h f rt z (Br lb b hb y (Br l a hh x r)) ltac:(discriminate) Hn H). lia.
Qed.
Definition nextp C l r : option nat :=
  match rootp l with Some b => Some b | None => match rootp r with Some b => Some b | None => upp C end end.
Lemma next_preorder_ok C h f rt z l a hh x r : nd (plug C (Br l a hh x r)) -> linked h None (plug C (Br l a hh x r)) ->
  next_preorder (Some a) (TSt h f rt z) = Ok (nextp C l r, TSt h f rt z).
Proof.
  intros Hn H. pose proof (linked_unplug _ _ _ H) as (Ha & Hl & Hr). pose proof (plug_length _ _ _ Hn H) as Hsz.
  unfold next_preorder, nextp. cbn [is_null]. erewrite bind_ok by hacc. cbn [n_left].
  destruct (rootp l) as [b|] eqn:El; [reflexivity|]. cbn [is_null negb]. erewrite bind_ok by hacc. cbn [n_right].
  destruct (rootp r) as [b|] eqn:Er; [reflexivity|]. cbn [is_null negb].
  erewrite bind_ok by reflexivity. cbn [t_heap]. apply (up_pre_ok C _ h f rt z (Br l a hh x r)); [discriminate|exact Hn|exact H|lia].
Qed.
Lemma upp_ok C : forall t, match upp C with
  | None => preR C = []
  | Some b => exists C2 l2 hb y r2, plug C t = plug C2 (Br l2 b hb y r2) /\ preR C = y :: pre l2 ++ pre r2 ++ preR C2
  end.
Proof.
  induction C as [|F C IH]; intros t; [reflexivity|]. destruct F as [a hh x r|l a hh x]; cbn [upp plug fill1 preR].
  - destruct r as [|l2 b hb y r2]; cbn [rootp].
    + apply (IH (Br t a hh x Lf)).
    + exists (FR t a hh x :: C), l2, hb, y, r2. split; [reflexivity|]. cbn [pre preR app]. rewrite <- !app_assoc. reflexivity.
  - apply IH.
Qed.
Lemma nextp_ok C l a hh x r : match nextp C l r with
  | None => pre l ++ pre r ++ preR C = []
  | Some b => exists C2 l2 hb y r2, plug C (Br l a hh x r) = plug C2 (Br l2 b hb y r2) /\
      pre l ++ pre r ++ preR C = y :: pre l2 ++ pre r2 ++ preR C2
  end.
Proof.
  unfold nextp. destruct l as [|l1 b hb y l2]; cbn [rootp].
  - destruct r as [|r1 c hc w r2]; cbn [rootp].
    + exact (upp_ok C (Br Lf a hh x Lf)).
    + exists (FR Lf a hh x :: C), r1, hc, w, r2. split; [reflexivity|]. cbn [pre preR app]. rewrite <- !app_assoc. reflexivity.
  - exists (FL a hh x r :: C), l1, hb, y, l2. split; [reflexivity|]. cbn [pre preR app]. rewrite <- !app_assoc. reflexivity.
Qed.
Lemma iter_pre_from n : forall C l a hh x r fl h f rt z, nd (plug C (Br l a hh x r)) -> linked h None (plug C (Br l a hh x r)) ->
  length (pre l ++ pre r ++ preR C) = n -> (n < pred fl)%nat ->
  iter_from PreOrder fl (Some a) (TSt h f rt z) = Ok (x :: pre l ++ pre r ++ preR C, TSt h f rt z).
Proof.
  induction n as [|n IH]; intros C l a hh x r fl h f rt z Hn H Hl Hfl; (destruct fl as [|fl]; [cbn in Hfl; lia|]); cbn [pred] in Hfl;
    pose proof (linked_unplug _ _ _ H) as (Ha & _); cbn [iter_from is_null next_of]; erewrite bind_ok by hacc; cbn [n_val];
    rewrite (bind_ok _ _ _ _ _ (next_preorder_ok C h f rt z l a hh x r Hn H)); pose proof (nextp_ok C l a hh x r) as Hnx;
    destruct (nextp C l r) as [b|].
  - destruct Hnx as (C2 & l2 & hb & y & r2 & E1 & E2). rewrite E2 in Hl. discriminate.
  - rewrite Hnx. destruct fl as [|fl]; [lia|]. reflexivity.
  - destruct Hnx as (C2 & l2 & hb & y & r2 & E1 & E2). rewrite E1 in Hn, H. rewrite E2 in Hl |- *.
    erewrite bind_ok; [reflexivity|]. apply (IH C2 l2 b hb y r2 fl h f rt z Hn H); [cbn in Hl; lia|lia].
  - rewrite Hnx in Hl. discriminate.
Qed.
Lemma length_pre t : length (pre t) = nodes t.
Proof. induction t as [|l IHl a hh x r IHr]; [reflexivity|]. cbn [pre nodes length]. rewrite app_length. lia. Qed.
Lemma length_post t : length (post t) = nodes t.
Proof. induction t as [|l IHl a hh x r IHr]; [reflexivity|]. cbn [post nodes]. rewrite !app_length. cbn [length]. lia. Qed.
Lemma iterate_pre_ok t h f z : nd t -> linked h None t ->
  bt_iterate PreOrder (TSt h f (rootp t) z) = Ok (pre t, TSt h f (rootp t) z).
Proof.
  intros Hn H. unfold bt_iterate, bt_begin. rewrite bind_assoc. erewrite bind_ok by reflexivity. cbn [t_root first_node].
  rewrite bind_ret. erewrite bind_ok by reflexivity. cbn [t_heap].
  destruct t as [|l a hh x r]; [reflexivity|].
  pose proof (nodes_size _ _ _ Hn H) as Hs. rewrite <- length_pre in Hs. cbn [pre length] in Hs. cbn [rootp pre].
  rewrite (iter_pre_from _ [] l a hh x r _ h f (Some a) z Hn H eq_refl); cbn [preR]; rewrite app_nil_r; [reflexivity|]. cbn [pred]. lia.
Qed.

(** ** Traversals *)
Definition ord (o : ttype) t : list A := match o with PreOrder => pre t | InOrder => elems t | PostOrder => post t end.
Lemma traverse_ok o t : forall fl h f rt z par, linked h par t -> (nodes t < fl)%nat ->
  traverse o fl (rootp t) ld_val (TSt h f rt z) = Ok (ord o t, TSt h f rt z).
Proof.
  induction t as [|l IHl a hh x r IHr]; intros fl h f rt z par H Hfl; (destruct fl as [|fl]; [lia|]); cbn [traverse rootp is_null].
  - destruct o; reflexivity.
  - destruct H as (Ha & Hl & Hr). cbn [nodes] in Hfl.
    specialize (IHl fl h f rt z _ Hl ltac:(lia)). specialize (IHr fl h f rt z _ Hr ltac:(lia)).
    destruct o; cbn [ord elems pre post] in *; hgo; rewrite (bind_ok _ _ _ _ _ IHl); hgo; rewrite (bind_ok _ _ _ _ _ IHr); hgo; reflexivity.
Qed.
(** The subtree at the leftmost node. *)
Fixpoint lowest t : tree := match t with Lf => Lf | Br Lf _ _ _ _ => t | Br l _ _ _ _ => lowest l end.
Lemma lowest_zip t : t <> Lf -> exists C b hb y r, t = plug C (Br Lf b hb y r) /\ Forall isFL C /\ lowest t = Br Lf b hb y r /\ minA t = Some (b, y).
Proof.
  induction t as [|l IH b hb y r _]; [congruence|]. intros _. destruct l as [|ll b2 hb2 y2 lr].
  - exists [], b, hb, y, r. auto.
  - destruct IH as (C & b3 & hb3 & y3 & r3 & E & HC & Hm & Hs); [discriminate|].
    exists (C ++ [FL b hb y r]), b3, hb3, y3, r3. split_and!.
    + rewrite plug_app, <- E. reflexivity.
    + apply Forall_app. split; [exact HC|repeat constructor].
    + exact Hm.
    + exact Hs.
Qed.
Lemma traversal_ok o t h f z : (o = PreOrder \/ t <> Lf) -> nd t -> linked h None t ->
  bt_traversal o (TSt h f (rootp t) z) =
  Ok (match o with PreOrder => pre t | _ => ord o (lowest t) end, TSt h f (rootp t) z).
Proof.
  intros Ho Hn H. pose proof (nodes_size _ _ _ Hn H) as Hs. unfold bt_traversal. erewrite bind_ok by reflexivity. cbn [t_root].
  assert (o = PreOrder \/ o <> PreOrder) as [->|Hne] by (destruct o; [left; reflexivity|right; discriminate|right; discriminate]).
  - cbn [first_node]. rewrite bind_ret. erewrite bind_ok by reflexivity. cbn [t_heap].
    apply (traverse_ok PreOrder t _ h f _ z None H). lia.
  - destruct Ho as [?|Ht]; [congruence|]. destruct (lowest_zip t Ht) as (C & b & hb & y & r & E & HC & Hlow & Hm).
    assert (forall o', o' <> PreOrder -> first_node (rootp t) o' (TSt h f (rootp t) z) = Ok (Some b, TSt h f (rootp t) z)) as Ef.
    { intros o' Ho'. destruct o'; [congruence| |]; eapply (first_node_ok t); eauto. }
    rewrite (bind_ok _ _ _ _ _ (Ef o Hne)). erewrite bind_ok by reflexivity. cbn [t_heap].
    pose proof (length_nodes C (Br Lf b hb y r)) as Hln. rewrite <- E in Hln.
    rewrite E in H. pose proof (linked_unplug _ _ _ H) as Hb.
    change (Some b) with (rootp (Br Lf b hb y r)). rewrite (traverse_ok o _ _ h f _ z _ Hb) by lia. rewrite Hlow. destruct o; [congruence|reflexivity|reflexivity].
Qed.
Lemma lowest_all t : nodes (lowest t) = nodes t -> match t with Lf => True | Br l _ _ _ _ => l = Lf end.
Proof.
  destruct t as [|l a hh x r]; [auto|]. intros H. destruct (lf_dec l) as [E|Hl]; [exact E|exfalso].
  assert (lowest (Br l a hh x r) = lowest l) as E by (destruct l; [congruence|reflexivity]). rewrite E in H.
  destruct (lowest_zip l Hl) as (C & b & hb & y & br & El & _ & Hlow & _). rewrite Hlow in H.
  pose proof (length_nodes C (Br Lf b hb y br)) as Hln. rewrite <- El in Hln. cbn [nodes] in H, Hln. lia.
Qed.

(** Clearing: every node is freed. *)
Definition remove_tree h t : gmap nat (node A) := fold_right delete h (addrs t).
Lemma lookup_remove_list k (L : list nat) h : fold_right delete h L !! k = if decide (k ∈ L) then None else h !! k.
Proof.
  induction L as [|a L IH]; cbn [fold_right].
  - destruct (decide (k ∈ [])) as [H|H]; [inversion H|reflexivity].
  - destruct (decide (k = a)) as [->|Hne].
    + rewrite lookup_delete. destruct (decide (a ∈ a :: L)) as [_|H]; [reflexivity|]. destruct H. left.
    + rewrite lookup_delete_ne by congruence. rewrite IH.
      destruct (decide (k ∈ L)) as [H|H], (decide (k ∈ a :: L)) as [H'|H']; try reflexivity.
      * destruct H'. right. exact H.
      * apply elem_of_cons in H' as [?|?]; [congruence|contradiction].
Qed.
Lemma lookup_remove_tree k h t : remove_tree h t !! k = if decide (cnt k t = 0%nat) then h !! k else None.
Proof.
  unfold remove_tree. rewrite lookup_remove_list. pose proof (addrs_cnt t k).
  destruct (decide (k ∈ addrs t)) as [H'|H'], (decide (cnt k t = 0%nat)); try reflexivity; exfalso.
  - apply H in H'. lia.
  - apply H'. apply H. lia.
Qed.
(** The nodes given back, in post-order. *)
Fixpoint gaves t (f : alloc) : alloc := match t with Lf => f | Br l a _ _ r => al_gave a (gaves r (gaves l f)) end.
Lemma free_all_ok t : forall fl h f rt z par, nd t -> linked h par t -> (nodes t < fl)%nat ->
  exists L, traverse PostOrder fl (rootp t) free_node (TSt h f rt z) = Ok (L, TSt (remove_tree h t) (gaves t f) rt z).
Proof.
  induction t as [|l IHl a hh x r IHr]; intros fl h f rt z par Hn H Hfl; (destruct fl as [|fl]; [lia|]); cbn [traverse rootp is_null].
  - eexists. reflexivity.
  - destruct H as (Ha & Hl & Hr). cbn [nodes] in Hfl. pose proof (Hn a) as Hna. cbn [cnt] in Hna. rewrite one_eq in Hna.
    destruct (IHl fl h f rt z _ (nd_l _ _ _ _ _ Hn) Hl ltac:(lia)) as [L1 E1].
    set (h1 := remove_tree h l) in *.
    assert (h1 !! a = h !! a) as Ha1. { unfold h1. rewrite lookup_remove_tree. destruct (decide _); [reflexivity|lia]. }
    assert (linked h1 (Some a) r) as Hr1.
    { eapply linked_same; [|exact Hr]. intros k Hk. unfold h1. rewrite lookup_remove_tree. destruct (decide _); [reflexivity|].
      specialize (Hn k). cbn [cnt] in Hn. lia. }
    destruct (IHr fl h1 (gaves l f) rt z _ (nd_r _ _ _ _ _ Hn) Hr1 ltac:(lia)) as [L2 E2].
    set (h2 := remove_tree h1 r) in *.
    assert (h2 !! a = h !! a) as Ha2. { unfold h2. rewrite lookup_remove_tree. destruct (decide _); [exact Ha1|lia]. }
    rewrite Ha in Ha1, Ha2.
    hgo. rewrite (bind_ok _ _ _ _ _ E1). hgo. rewrite (bind_ok _ _ _ _ _ E2). unfold free_node. cbn [t_heap].
    erewrite bind_ok. 2:{ cbn [t_heap]. rewrite Ha2. reflexivity. }
    exists (L1 ++ L2 ++ [tt]). unfold ret. cbn [t_al t_root t_size]. f_equal. f_equal. cbn [gaves]. f_equal.
    apply map_eq. intros k. rewrite lookup_remove_tree. cbn [cnt].
    destruct (decide (k = a)) as [->|Hka].
    + rewrite lookup_delete. rewrite one_eq. destruct (decide _); [lia|reflexivity].
    + rewrite lookup_delete_ne by congruence. unfold h2. rewrite lookup_remove_tree. unfold h1. rewrite lookup_remove_tree.
      rewrite one_ne by congruence. destruct (decide (cnt k r = 0%nat)), (decide (cnt k l = 0%nat)), (decide (cnt k l + 0 + cnt k r = 0)%nat); try reflexivity; lia.
Qed.
Lemma clear_ok t h f z : nd t -> linked h None t ->
  bt_clear (TSt h f (rootp t) z) = Ok (tt, TSt (remove_tree h t) (gaves t f) None 0).
Proof.
  intros Hn H. unfold bt_clear, bt_clear_nodes. rewrite bind_assoc. erewrite bind_ok by reflexivity. cbn [t_root].
  destruct t as [|l a hh x r]; [reflexivity|].
  destruct (free_all_ok (Br l a hh x r) (S (S (size h))) h f (Some a) z None Hn H) as [L E].
  { pose proof (nodes_size _ _ _ Hn H). lia. }
  cbn [rootp is_null negb when]. rewrite !bind_assoc. erewrite bind_ok by reflexivity. cbn [t_heap]. rewrite ?bind_assoc.
  cbn [rootp] in E. rewrite (bind_ok _ _ _ _ _ E). reflexivity.
Qed.
End Iter.
