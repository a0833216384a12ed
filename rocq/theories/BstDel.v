(** BinarySearchTree::pop and erase. *)
From Coq Require Import Sorted.
From Verif Require Import Base Alloc AllocProofs TreeAlloc TreeModel TreeSpec TreeBase TreeSets TreeZip TreeDel TreeErase TreeIter TreeObj TreeWorld BstWorld BstSpec BstObj.
Open Scope Z_scope.

Section Del.
Context {A : Type} (cmp : A -> A -> bool) (Hc : swo cmp).
Notation tree := (atree A).
Implicit Types (h : gmap nat (node A)) (t l r : tree) (x : A) (C : list (frame A)) (F : frame A).
Notation asc := (ascending cmp).

(** What the code does to the tree; None is undefined behaviour. *)
Fixpoint tdelF t : option tree :=
  match t with
  | Lf => None
  | Br l a hh v r =>
      match l, r with
      | Lf, _ => Some r
      | _, Lf => Some l
      | _, Br Lf _ _ _ _ => None
      | _, Br _ _ _ y _ => option_map (Br l a hh y) (tdelF r)
      end
  end.
Fixpoint bdelF x t : option tree :=
  match t with
  | Lf => None
  | Br l a hh v r =>
      if cmp x v then option_map (fun l' => Br l' a hh v r) (bdelF x l)
      else if cmp v x then option_map (fun r' => Br l a hh v r') (bdelF x r)
      else tdelF t
  end.

(** [h'] holds [t'] where [h] held [t], one node less. *)
Definition lost h (f : alloc) par t h' (f' : alloc) t' : Prop :=
  linked h' par t' /\ (forall k, cnt k t = 0%nat -> h' !! k = h !! k) /\
  exists b, (forall k, cnt k t' + one k b = cnt k t)%nat /\ h' !! b = None /\ f' = al_gave b f.

Lemma bst_down_ok g h f rt z l b hb y r par : linked h par (Br l b hb y r) ->
  bst_down (S (S g)) (Some b) (TSt h f rt z) = if is_null (rootp l) then UB else Ok (Some b, TSt h f rt z).
Proof.
  intros (Hb & _). cbn [bst_down]. erewrite bind_ok by hacc. cbn [n_left]. destruct (rootp l); reflexivity.
Qed.
Lemma try_delete_ok t : forall fl h f rt z par, t <> Lf -> nd t -> linked h par t -> (2 * nodes t <= fl)%nat ->
  match tdelF t with
  | None => bst_try_delete cmp fl (rootp t) (TSt h f rt z) = UB
  | Some t' => exists h' f', bst_try_delete cmp fl (rootp t) (TSt h f rt z) = Ok (rootp t', TSt h' f' rt (z - 1)) /\ lost h f par t h' f' t'
  end.
Proof.
  induction t as [|l IHl a hh v r IHr]; intros fl h f rt z par Ht Hn H Hfl; [congruence|clear Ht IHl].
  pose proof H as (Ha & Hl & Hr). cbn [nodes] in Hfl. destruct fl as [|fl]; [lia|].
  pose proof (Hn a) as Hna. cbn [cnt] in Hna. rewrite one_eq in Hna.
  assert (forall sub, linked h (Some a) sub -> nd sub -> cnt a sub = 0%nat -> (forall k, cnt k sub + one k a = cnt k (Br l a hh v r))%nat ->
    exists h' f', (when (negb (is_null (rootp sub))) (p <- ld_par (Some a) ;; st_par (rootp sub) p) ;;; free_node (Some a) ;;;
      n <- ld_size ;; st_size (n - 1) ;;; ret (rootp sub)) (TSt h f rt z) = Ok (rootp sub, TSt h' f' rt (z - 1)) /\ lost h f par (Br l a hh v r) h' f' sub) as Hsub.
  { intros sub Hs Hns Has Hcs. exists (delete a (setparp h (rootp sub) par)), (al_gave a f). split.
    - assert (when (negb (is_null (rootp sub))) (p <- ld_par (Some a) ;; st_par (rootp sub) p) (TSt h f rt z) = Ok (tt, TSt (setparp h (rootp sub) par) f rt z)) as E.
      { destruct sub as [|l1 b hb y r1]; [reflexivity|]. cbn [rootp is_null negb when setparp]. erewrite bind_ok by hacc. cbn [n_par].
        destruct Hs as (Hb & _). apply (st_par_al _ _ _ _ _ _ _ Hb). }
      rewrite (bind_ok _ _ _ _ _ E).
      assert (setparp h (rootp sub) par !! a = Some (Nd par (rootp l) (rootp r) hh v)) as Ea.
      { destruct sub as [|l1 b hb y r1]; [exact Ha|]. cbn [rootp setparp]. rewrite lookup_alter_ne; [exact Ha|].
        intros ->. cbn [cnt] in Has. rewrite one_eq in Has. lia. }
      erewrite bind_ok; [|unfold free_node; cbn [t_heap]; rewrite Ea; reflexivity]. reflexivity.
    - split_and!.
      + apply linked_delete; [exact Has|]. eapply linked_reparent; eassumption.
      + intros k Hk. specialize (Hcs k). assert (k <> a) as Hka by (intros ->; rewrite one_eq in Hcs; lia).
        rewrite lookup_delete_ne by congruence. destruct sub as [|l1 b hb y r1]; [reflexivity|]. cbn [rootp setparp]. apply lookup_alter_ne.
        intros ->. cbn [cnt] in Hcs, Hk. rewrite one_eq in Hcs. lia.
      + exists a. split; [exact Hcs|]. split; [apply lookup_delete|reflexivity]. }
  pose proof (nd_l _ _ _ _ _ Hn) as Hnl. pose proof (nd_r _ _ _ _ _ Hn) as Hnr.
  cbn [rootp bst_try_delete]. erewrite bind_ok by hacc. erewrite bind_ok by hacc. cbn [n_left n_right].
  destruct l as [|ll la lh lv lr] eqn:El.
  { cbn [rootp is_null negb andb tdelF]. apply Hsub; [exact Hr|exact Hnr|cbn in Hna; lia|]. intros k. cbn [cnt]. lia. }
  destruct r as [|rl b hb y rr] eqn:Er.
  { cbn [rootp is_null negb andb tdelF]. apply (Hsub (Br ll la lh lv lr)); [exact Hl|exact Hnl|cbn [cnt] in Hna |- *; lia|]. intros k. cbn [cnt]. lia. }
  rewrite <- El, <- Er in *. assert (rootp r = Some b) as Erb by (rewrite Er; reflexivity).
  replace (tdelF (Br l a hh v r)) with (match rl with Lf => None | _ => option_map (Br l a hh y) (tdelF r) end) by (rewrite El, Er; destruct rl; reflexivity).
  replace (negb (is_null (rootp l)) && negb (is_null (rootp r))) with true by (rewrite El, Er; reflexivity).
  erewrite bind_ok by hacc. cbn [n_right]. erewrite bind_ok by reflexivity. cbn [t_heap]. rewrite Erb.
  pose proof (bst_down_ok (size h) h f rt z rl b hb y rr (Some a)) as Hd. rewrite <- Er in Hd. specialize (Hd Hr).
  assert (a <> b) as Hab. { intros ->. rewrite Er in Hna. cbn [cnt] in Hna. rewrite one_eq in Hna. lia. }
  destruct rl as [|rll c hc w rlr] eqn:Erl; cbn [rootp is_null] in Hd; [apply bind_ub, Hd|]. rewrite (bind_ok _ _ _ _ _ Hd). clear Hd.
  pose proof Hr as Hr2. rewrite Er in Hr2. destruct Hr2 as (Hb & _).
  erewrite bind_ok by hacc. cbn [n_val]. erewrite bind_ok by hacc. cbn [n_par n_left n_right n_h n_val]. rewrite Erb.
  erewrite bind_ok by hacc. cbn [n_right]. erewrite bind_ok by hacc. cbn [n_val].
  set (h1 := <[a := Nd par (rootp l) (Some b) hh y]> h).
  assert (linked h1 (Some a) r) as Hr1 by (apply linked_insert; [lia|exact Hr]).
  assert (linked h1 (Some a) l) as Hl1 by (apply linked_insert; [lia|exact Hl]).
  assert (bst_delete cmp fl (Some b) y (TSt h1 f rt z) = bst_try_delete cmp (pred fl) (Some b) (TSt h1 f rt z)) as Ed.
  { destruct fl as [|fl]; [cbn in Hfl; lia|]. cbn [bst_delete pred]. unfold h1. erewrite bind_ok by hacc. cbn [n_val].
    rewrite (c_irr cmp Hc). reflexivity. }
  specialize (IHr (pred fl) h1 f rt z (Some a) ltac:(rewrite Er; discriminate) Hnr Hr1 ltac:(cbn in Hfl; lia)). rewrite Erb in IHr.
  destruct (tdelF r) as [r'|]; cbn [option_map]; [|apply bind_ub; etransitivity; [exact Ed|exact IHr]].
  destruct IHr as (h2 & f2 & E2 & Hl2 & F2 & c2 & Hc2 & Hn2 & Hf2). rewrite <- Ed in E2. rewrite (bind_ok _ _ _ _ _ E2).
  assert (h2 !! a = Some (Nd par (rootp l) (Some b) hh y)) as Ha2 by (rewrite F2 by lia; apply lookup_insert).
  erewrite bind_ok by hacc. cbn [n_par n_left n_h n_val]. eexists _, _. split; [reflexivity|].
  assert (c2 <> a) as Hca. { intros ->. specialize (Hc2 a). rewrite one_eq in Hc2. lia. }
  split_and!.
  - cbn [linked rootp]. split_and!; [apply lookup_insert| |].
    + apply linked_insert; [lia|]. eapply linked_same; [|exact Hl1]. intros k Hk. apply F2. specialize (Hn k). cbn [cnt] in Hn. lia.
    + apply linked_insert; [|exact Hl2]. specialize (Hc2 a). lia.
  - intros k Hk. cbn [cnt] in Hk. assert (k <> a) as Hka by (intros ->; rewrite one_eq in Hk; lia).
    rewrite lookup_insert_ne by congruence. rewrite F2 by lia. apply lookup_insert_ne. congruence.
  - exists c2. split; [intros k; specialize (Hc2 k); cbn [cnt]; lia|]. split; [rewrite lookup_insert_ne by congruence; exact Hn2|exact Hf2].
Qed.

Lemma bst_delete_ok x t : forall fl h f rt z par, nd t -> linked h par t -> (2 * nodes t < fl)%nat ->
  match bdelF x t with
  | None => bst_delete cmp fl (rootp t) x (TSt h f rt z) = UB
  | Some t' => exists h' f', bst_delete cmp fl (rootp t) x (TSt h f rt z) = Ok (rootp t', TSt h' f' rt (z - 1)) /\ lost h f par t h' f' t'
  end.
Proof.
  induction t as [|l IHl a hh v r IHr]; intros fl h f rt z par Hn H Hfl; (destruct fl as [|fl]; [lia|]).
  { reflexivity. }
  pose proof H as (Ha & Hl & Hr). cbn [nodes] in Hfl. cbn [rootp bst_delete bdelF]. erewrite bind_ok by hacc. cbn [n_val].
  pose proof (Hn a) as Hna. cbn [cnt] in Hna. rewrite one_eq in Hna.
  destruct (cmp x v) eqn:E1; [|destruct (cmp v x) eqn:E2].
  - erewrite bind_ok by hacc. cbn [n_left]. specialize (IHl fl h f rt z (Some a) (nd_l _ _ _ _ _ Hn) Hl ltac:(lia)).
    destruct (bdelF x l) as [l'|]; cbn [option_map]; [|apply bind_ub, IHl].
    destruct IHl as (h2 & f2 & E & Hl2 & F2 & b & Hb & Hbn & Hbf). rewrite (bind_ok _ _ _ _ _ E).
    assert (h2 !! a = h !! a) as Ha2 by (apply F2; lia). rewrite Ha in Ha2.
    assert (b <> a) as Hba. { intros ->. specialize (Hb a). rewrite one_eq in Hb. lia. }
    erewrite bind_ok by hacc. cbn [n_par n_right n_h n_val]. eexists _, _. split; [reflexivity|]. split_and!.
    + cbn [linked]. split_and!; [apply lookup_insert| |].
      * apply linked_insert; [specialize (Hb a); lia|exact Hl2].
      * apply linked_insert; [lia|]. eapply linked_same; [|exact Hr]. intros k Hk. apply F2. specialize (Hn k). cbn [cnt] in Hn. lia.
    + intros k Hk. cbn [cnt] in Hk. rewrite lookup_insert_ne by (intros ->; rewrite one_eq in Hk; lia). apply F2. lia.
    + exists b. split; [intros k; specialize (Hb k); cbn [cnt]; lia|]. split; [rewrite lookup_insert_ne by congruence; exact Hbn|exact Hbf].
  - erewrite bind_ok by hacc. cbn [n_right]. specialize (IHr fl h f rt z (Some a) (nd_r _ _ _ _ _ Hn) Hr ltac:(lia)).
    destruct (bdelF x r) as [r'|]; cbn [option_map]; [|apply bind_ub, IHr].
    destruct IHr as (h2 & f2 & E & Hr2 & F2 & b & Hb & Hbn & Hbf). rewrite (bind_ok _ _ _ _ _ E).
    assert (h2 !! a = h !! a) as Ha2 by (apply F2; lia). rewrite Ha in Ha2.
    assert (b <> a) as Hba. { intros ->. specialize (Hb a). rewrite one_eq in Hb. lia. }
    erewrite bind_ok by hacc. cbn [n_par n_left n_h n_val]. eexists _, _. split; [reflexivity|]. split_and!.
    + cbn [linked]. split_and!; [apply lookup_insert| |].
      * apply linked_insert; [lia|]. eapply linked_same; [|exact Hl]. intros k Hk. apply F2. specialize (Hn k). cbn [cnt] in Hn. lia.
      * apply linked_insert; [specialize (Hb a); lia|exact Hr2].
    + intros k Hk. cbn [cnt] in Hk. rewrite lookup_insert_ne by (intros ->; rewrite one_eq in Hk; lia). apply F2. lia.
    + exists b. split; [intros k; specialize (Hb k); cbn [cnt]; lia|]. split; [rewrite lookup_insert_ne by congruence; exact Hbn|exact Hbf].
  - apply (try_delete_ok (Br l a hh v r)); [discriminate|exact Hn|exact H|cbn [nodes]; lia].
Qed.

(** pop, on a non-zero size. *)
Lemma pop_nz h f z t x : nd t -> linked h None t -> z <> 0 ->
  match bdelF x t with
  | None => bst_pop cmp x (TSt h f (rootp t) z) = UB
  | Some t' => exists h' f', bst_pop cmp x (TSt h f (rootp t) z) = Ok (tt, TSt h' f' (rootp t') (z - 1)) /\ lost h f None t h' f' t'
  end.
Proof.
  intros Hn H Hz. pose proof (nodes_size _ _ _ Hn H) as Hsz.
  pose proof (bst_delete_ok x t (S (S (size h)) + S (S (size h))) h f (rootp t) z None Hn H ltac:(lia)) as P.
  unfold bst_pop, fuel2. erewrite bind_ok by reflexivity. cbn [t_size]. destruct (Z.eqb_spec z 0); [congruence|].
  erewrite bind_ok by reflexivity. rewrite bind_assoc. erewrite bind_ok by reflexivity. rewrite bind_ret. cbn [t_heap t_root].
  destruct (bdelF x t) as [t'|]; [|apply bind_ub, P].
  destruct P as (h' & f' & E & L). rewrite (bind_ok _ _ _ _ _ E). erewrite bind_ok by reflexivity. cbn [t_root].
  exists h', f'. split; [|exact L]. unfold ptr_eqb. destruct (bool_decide_reflect (rootp t = rootp t')) as [->|Hne]; [reflexivity|].
  cbn [negb when]. apply update_root_ok, L.
Qed.

(** Deletion of a key with at most one child. *)
Lemma del1_shape x t s : bdel1 cmp x (shape t) = Some s -> exists t', bdelF x t = Some t' /\ shape t' = s.
Proof.
  revert s. induction t as [|l IHl a hh v r IHr]; intros s; cbn [shape bdel1 bdelF]; [discriminate|].
  destruct (cmp x v); [|destruct (cmp v x)].
  - destruct (bdel1 cmp x (shape l)) as [s'|]; cbn [option_map]; [|discriminate]. intros [= <-].
    destruct (IHl _ eq_refl) as (l' & -> & <-). eexists. split; reflexivity.
  - destruct (bdel1 cmp x (shape r)) as [s'|]; cbn [option_map]; [|discriminate]. intros [= <-].
    destruct (IHr _ eq_refl) as (r' & -> & <-). eexists. split; reflexivity.
  - cbn [tdelF]. destruct l; cbn [shape]; [intros [= <-]; eauto|]. destruct r; cbn [shape]; [intros [= <-]; eauto|discriminate].
Qed.
Lemma del1_zip x t s : bdel1 cmp x (shape t) = Some s -> exists C l a hh v r, t = plug C (Br l a hh v r) /\ equiv cmp x v /\ (l = Lf \/ r = Lf) /\
  atF cmp x t = Some a /\ bdelF x t = Some (plug C (match l with Lf => r | _ => l end)) /\ s = shape (plug C (match l with Lf => r | _ => l end)).
Proof.
  revert s. induction t as [|l IHl a hh v r IHr]; intros s; cbn [shape bdel1 bdelF atF]; [discriminate|].
  destruct (cmp x v) eqn:E1; [|destruct (cmp v x) eqn:E2].
  - destruct (bdel1 cmp x (shape l)) as [s'|]; cbn [option_map]; [|discriminate]. intros [= <-].
    destruct (IHl _ eq_refl) as (C & l1 & b & hb & y & r1 & -> & He & Hlr & Hat & -> & ->).
    exists (C ++ [FL a hh v r]), l1, b, hb, y, r1. rewrite !plug_app. cbn [plug fill1 option_map]. split_and!; auto.
  - destruct (bdel1 cmp x (shape r)) as [s'|]; cbn [option_map]; [|discriminate]. intros [= <-].
    destruct (IHr _ eq_refl) as (C & l1 & b & hb & y & r1 & -> & He & Hlr & Hat & -> & ->).
    exists (C ++ [FR l a hh v]), l1, b, hb, y, r1. rewrite !plug_app. cbn [plug fill1 option_map]. split_and!; auto.
  - intros Hs. exists [], l, a, hh, v, r. cbn [plug]. split; [reflexivity|]. split; [split; assumption|].
    cbn [tdelF]. destruct l; cbn [shape] in Hs; [injection Hs as <-; split_and!; auto|].
    destruct r; cbn [shape] in Hs; [injection Hs as <-; split_and!; auto|discriminate].
Qed.
Lemma del1_elems x t t' : asc (elems t) -> bdel1 cmp x (shape t) = Some (shape t') -> elems t' = remove_set cmp x (elems t) /\ exists v, lookup_set cmp x (elems t) = Some v.
Proof.
  intros Hs E. destruct (del1_zip _ _ _ E) as (C & l & a & hh & v & r & Et & He & Hlr & _ & _ & Es).
  assert (elems t = (elemsL C ++ elems l) ++ v :: (elems r ++ elemsR C)) as Eel.
  { rewrite Et, elems_plug. cbn [elems]. rewrite <- !app_assoc. reflexivity. }
  rewrite Eel in *. rewrite (remove_eq cmp Hc _ _ _ Hs _ He), (lookup_eq cmp Hc _ _ _ Hs _ He). split; [|eauto].
  rewrite <- inorder_shape, Es, inorder_shape, elems_plug. destruct Hlr as [->| ->]; cbn [elems app]; [rewrite app_nil_r; reflexivity|].
  destruct l; cbn [elems app]; [rewrite app_nil_r; reflexivity|]. rewrite <- !app_assoc. reflexivity.
Qed.
Lemma lost_goes h f t h' f' t' : bwf cmp h f t -> lost h f None t h' f' t' -> asc (elems t') -> bgoes cmp h f t h' f' t'.
Proof.
  intros W (H' & Fr & b & Hb & Hbn & ->) Hs. pose proof W as [Hl Hn _ Hf]. split; [split|reflexivity| |].
  - exact H'.
  - intros k. specialize (Hb k). specialize (Hn k). lia.
  - exact Hs.
  - exact (alok_less h f t h' t' b Hf Hl H' Hn Hb Hbn Fr).
  - intros k Hk. specialize (Hb k). destruct (decide (k = b)) as [->|Hka].
    + rewrite one_eq in Hb. rewrite Hbn. destruct (decide _); [lia|reflexivity].
    + rewrite one_ne in Hb by congruence. rewrite Fr by lia. destruct (decide _); [reflexivity|lia].
  - intros k Hk. specialize (Hb k). left. lia.
Qed.

(** A key with two children: undefined behaviour, or the tree is not ordered
    any more. *)
Lemma tdel_bad l a hh v r t' : asc (elems (Br l a hh v r)) -> l <> Lf -> r <> Lf -> tdelF (Br l a hh v r) = Some t' -> exists e z u1 u2 u3,
  elems t' = u1 ++ e :: u2 ++ z :: u3 /\ cmp z e = true.
Proof.
  intros Hs Hl Hr E. destruct r as [|rl b hb y rr]; [congruence|]. cbn [tdelF] in E. destruct l as [|l0 la lh lv lr] eqn:El; [congruence|]. rewrite <- El in *.
  destruct rl as [|rll c hc w rlr] eqn:Erl; [discriminate|]. rewrite <- Erl in *.
  assert (exists u2 u3 r', tdelF (Br rl b hb y rr) = Some r' /\ t' = Br l a hh y r' /\ elems r' = u2 ++ w :: u3) as (u2 & u3 & r' & Et & -> & Er').
  { cbn [tdelF]. rewrite Erl in E |- *. destruct rr as [|rrl d hd z rrr] eqn:Err.
    - injection E as <-. exists (elems rll), (elems rlr). eexists. split_and!; reflexivity.
    - destruct rrl as [|? ? ? ? ?] eqn:Errl; [discriminate|]. rewrite <- Errl, <- Err in *.
      destruct (tdelF rr) as [rr'|]; cbn [option_map] in *; [|discriminate]. injection E as <-.
      eexists (elems rll), _, _. split_and!; [reflexivity|reflexivity|]. cbn [elems]. rewrite <- app_assoc. reflexivity. }
  exists y, w, (elems l), u2, u3. cbn [elems]. rewrite Er'. split; [reflexivity|].
  cbn [elems] in Hs. apply (asc_mid cmp Hc) in Hs as (_ & Hs & _ & _). apply (asc_mid cmp Hc) in Hs as (_ & _ & Hs & _).
  apply Hs. rewrite Erl. cbn [elems]. apply in_or_app. right. left. reflexivity.
Qed.
Lemma bdel_bad x t t' y : asc (elems t) -> lookup_set cmp x (elems t) = Some y -> bdel1 cmp x (shape t) = None -> bdelF x t = Some t' ->
  exists e z u1 u2 u3, elems t' = u1 ++ e :: u2 ++ z :: u3 /\ cmp z e = true.
Proof.
  revert t'. induction t as [|l IHl a hh v r IHr]; intros t' Hs Hx; [discriminate|]. cbn [shape bdel1 bdelF].
  pose proof Hs as Hs0. cbn [elems] in Hs, Hx. pose proof (proj1 (asc_mid cmp Hc _ _ _) Hs) as (Hal & Har & _ & _).
  destruct (c_cases cmp Hc x v) as [[E E']|[[E E']|[E E']]].
  - rewrite E. rewrite (lookup_lt cmp Hc _ _ _ Hs _ E) in Hx. destruct (bdel1 cmp x (shape l)); [discriminate|]. intros _.
    destruct (bdelF x l) as [l'|]; [|discriminate]. intros [= <-]. destruct (IHl l' Hal Hx eq_refl eq_refl) as (e & z & u1 & u2 & u3 & Ee & Hez).
    exists e, z, u1, u2, (u3 ++ v :: elems r). cbn [elems]. rewrite Ee. rewrite <- app_assoc. cbn [app]. rewrite <- app_assoc. auto.
  - rewrite E, E'. rewrite (lookup_gt cmp Hc _ _ _ Hs _ E') in Hx. destruct (bdel1 cmp x (shape r)); [discriminate|]. intros _.
    destruct (bdelF x r) as [r'|]; [|discriminate]. intros [= <-]. destruct (IHr r' Har Hx eq_refl eq_refl) as (e & z & u1 & u2 & u3 & Ee & Hez).
    exists e, z, (elems l ++ v :: u1), u2, u3. cbn [elems]. rewrite Ee. rewrite <- app_assoc. auto.
  - rewrite E, E'. intros Hn Ht. eapply tdel_bad; [exact Hs0| | |exact Ht].
    + intros ->. discriminate.
    + intros ->. destruct l; discriminate.
Qed.
Lemma bdel_absent x t : asc (elems t) -> lookup_set cmp x (elems t) = None -> bdelF x t = None.
Proof.
  induction t as [|l IHl a hh v r IHr]; intros Hs Hx; [reflexivity|]. cbn [bdelF]. cbn [elems] in Hs, Hx.
  pose proof (proj1 (asc_mid cmp Hc _ _ _) Hs) as (Hal & Har & _ & _).
  destruct (c_cases cmp Hc x v) as [[E E']|[[E E']|E]].
  - rewrite E. rewrite (lookup_lt cmp Hc _ _ _ Hs _ E) in Hx. rewrite IHl by assumption. reflexivity.
  - rewrite E, E'. rewrite (lookup_gt cmp Hc _ _ _ Hs _ E') in Hx. rewrite IHr by assumption. reflexivity.
  - rewrite (lookup_eq cmp Hc _ _ _ Hs _ E) in Hx. discriminate.
Qed.

(** ** erase *)
Lemma set_child0 h f rt z par F c t' : (forall k, cntF k F + cnt k t' <= 1)%nat -> flinked h par F (Some c) -> cntF c F = 0%nat ->
  linked h (Some (fa F)) t' ->
  exists h', (l <- ld_left (Some (fa F)) ;;
     (if ptr_eqb l (Some c) then st_left (Some (fa F)) (rootp t') else st_right (Some (fa F)) (rootp t'))) (TSt h f rt z) = Ok (tt, TSt h' f rt z) /\
    linked h' par (fill1 F t') /\ forall k, cntF k F = 0%nat -> h' !! k = h !! k.
Proof.
  intros Hn HF Hp Ht'. destruct F as [a hh x r|l a hh x]; cbn [fa flinked fill1 cntF] in *; destruct HF as [Ha Hs];
    pose proof (Hn a) as Hna; rewrite one_eq in Hna; hgo.
  - rewrite ptr_eqb_refl. eexists. split; [apply (st_left_ok _ _ _ _ _ _ _ Ha)|]. cbn [n_par n_right n_h n_val]. split.
    + cbn [linked]. split_and!; [apply lookup_insert| |]; apply linked_insert; (assumption || lia).
    + intros k Hk. apply lookup_insert_ne. intros ->. rewrite one_eq in Hk. lia.
  - rewrite ptr_eqb_ne. 2:{ intros E. apply rootp_cnt in E. lia. }
    eexists. split; [apply (st_right_ok _ _ _ _ _ _ _ Ha)|]. cbn [n_par n_left n_h n_val]. split.
    + cbn [linked]. split_and!; [apply lookup_insert| |]; apply linked_insert; (assumption || lia).
    + intros k Hk. apply lookup_insert_ne. intros ->. rewrite one_eq in Hk. lia.
Qed.

(** Losing a node inside a hole. *)
Lemma lost_plug h f C t h1 f1 t1 : nd (plug C t) -> linked h None (plug C t) -> lost h f (hpar None C) t h1 f1 t1 ->
  linkedC h1 None C (rootp t) /\ (forall k, cntC k C + cnt k t1 <= 1)%nat.
Proof.
  intros Hn H (_ & Fr & b & Hb & _). apply linked_plug in H as [HC _]. split.
  - eapply linkedC_same; [|exact HC]. intros k Hk. apply Fr. specialize (Hn k). rewrite cnt_plug in Hn. lia.
  - intros k. specialize (Hn k). rewrite cnt_plug in Hn. specialize (Hb k). lia.
Qed.
Lemma erase_at C l a hh v r h f z : let sub := Br l a hh v r in nd (plug C sub) -> linked h None (plug C sub) ->
  match tdelF sub with
  | None => bst_erase cmp InOrder (Some a) (TSt h f (rootp (plug C sub)) z) = UB
  | Some t1 => exists h' f', bst_erase cmp InOrder (Some a) (TSt h f (rootp (plug C sub)) z) =
      Ok (match l, r with Br _ _ _ _ _, Br _ _ _ _ _ => Some a | _, _ => next_pos C r end, TSt h' f' (rootp (plug C t1)) (z - 1)) /\
      lost h f None (plug C sub) h' f' (plug C t1)
  end.
Proof.
  intros sub Hn H. pose proof (linked_unplug _ _ _ H) as Hs. pose proof (nd_unplug _ _ Hn) as Hns. pose proof (plug_length _ _ _ Hn H) as Hsz.
  pose proof Hs as (Ha & _). unfold bst_erase. erewrite bind_ok by hacc. cbn [n_par next_of].
  rewrite (bind_ok _ _ _ _ _ (next_inorder_ok C h f _ z l a hh v r Hn H)).
  unfold fuel2. rewrite bind_assoc. erewrite bind_ok by reflexivity. rewrite bind_ret. cbn [t_heap].
  pose proof (try_delete_ok sub (S (S (size h)) + S (S (size h))) h f (rootp (plug C sub)) z (hpar None C) ltac:(discriminate) Hns Hs ltac:(lia)) as P.
  change (rootp sub) with (Some a) in P. destruct (tdelF sub) as [t1|] eqn:Et; [|apply bind_ub, P].
  destruct P as (h1 & f1 & E1 & L1). rewrite (bind_ok _ _ _ _ _ E1).
  destruct (lost_plug _ _ _ _ _ _ _ Hn H L1) as [HC1 Hcn]. change (rootp sub) with (Some a) in HC1.
  pose proof L1 as (Hl1 & Fr & b & Hb & Hbn & Hbf).
  assert (rootp t1 = Some a /\ (match l, r with Br _ _ _ _ _, Br _ _ _ _ _ => True | _, _ => False end) \/
    cnt a t1 = 0%nat /\ (match l, r with Br _ _ _ _ _, Br _ _ _ _ _ => False | _, _ => True end)) as Hcase.
  { pose proof (Hns a) as Hna. unfold sub in Hna, Et. cbn [cnt] in Hna. rewrite one_eq in Hna. cbn [tdelF] in Et.
    destruct l as [|ll la lh lv lr]; [injection Et as <-; right; split; [cbn in Hna; lia|exact I]|].
    destruct r as [|rl rb rh rv rr]; [injection Et as <-; right; split; [lia|exact I]|]. left. split; [|exact I].
    destruct rl; [discriminate|]. destruct (tdelF _); [|discriminate]. injection Et as <-. reflexivity. }
  assert (forall h2, linked h2 None (plug C t1) -> (forall k, cntC k C = 0%nat -> h2 !! k = h1 !! k) -> lost h f None (plug C sub) h2 f1 (plug C t1)) as Hlost.
  { intros h2 H2 F2. split_and!; [exact H2| |].
    - intros k Hk. rewrite cnt_plug in Hk. rewrite F2 by lia. apply Fr. lia.
    - exists b. split; [intros k; rewrite !cnt_plug; specialize (Hb k); lia|]. split; [|exact Hbf]. rewrite F2; [exact Hbn|].
      specialize (Hn b). rewrite cnt_plug in Hn. specialize (Hb b). rewrite one_eq in Hb. lia. }
  destruct Hcase as [[Er Hlr]|[Er Hlr]].
  - rewrite Er, ptr_eqb_refl. cbn [negb]. exists h1, f1. split.
    + replace (rootp (plug C t1)) with (rootp (plug C sub)) by (rewrite !rootp_plug, Er; reflexivity).
      destruct l, r; try contradiction. reflexivity.
    + apply Hlost; [|auto]. apply linked_plug. rewrite Er. split; assumption.
  - replace (match l, r with Br _ _ _ _ _, Br _ _ _ _ _ => Some a | _, _ => next_pos C r end) with (next_pos C r) by (destruct l, r; (reflexivity || contradiction)).
    rewrite ptr_eqb_ne. 2:{ intros E. symmetry in E. apply rootp_cnt in E. lia. }
    cbn [negb]. destruct C as [|F C].
    + cbn [hpar is_null plug] in *. rewrite (bind_ok _ _ _ _ _ (update_root_ok _ _ _ _ _ Hl1)). exists h1, f1. split; [reflexivity|apply Hlost; auto].
    + cbn [hpar is_null] in *. cbn [linkedC] in HC1. destruct HC1 as [HF HC].
      assert (cntF a F = 0%nat) as Haf. { specialize (Hn a). rewrite cnt_plug in Hn. unfold sub in Hn. cbn [cntC cnt] in Hn. rewrite one_eq in Hn. lia. }
      destruct (set_child0 h1 f1 (rootp (plug (F :: C) sub)) (z - 1) (hpar None C) F a t1) as (h2 & E2 & H2 & F2); try assumption.
      { intros k. specialize (Hcn k). cbn [cntC] in Hcn. lia. }
      rewrite <- bind_assoc, (bind_ok _ _ _ _ _ E2). exists h2, f1. rewrite (rootp_plug_ne _ _ t1) by discriminate. split; [reflexivity|].
      apply Hlost.
      * cbn [plug]. apply linked_plug. rewrite rootp_fill1. split; [|exact H2].
        eapply linkedC_same; [|exact HC]. intros k Hk. apply F2. specialize (Hcn k). cbn [cntC] in Hcn. lia.
      * intros k Hk. cbn [cntC] in Hk. apply F2. lia.
Qed.
(** The iterator that erase returns. *)
Lemma next_after C l r h' f rt z : l = Lf \/ r = Lf ->
  linked h' None (plug C (match l with Lf => r | _ => l end)) ->
  deref (next_pos C r) (TSt h' f rt z) = Ok (head (elems r ++ elemsR C), TSt h' f rt z).
Proof.
  intros Hlr H. assert (forall b C2 l2 hb y r2 rest, plug C (match l with Lf => r | _ => l end) = plug C2 (Br l2 b hb y r2) ->
    elems r ++ elemsR C = y :: rest -> deref (Some b) (TSt h' f rt z) = Ok (head (elems r ++ elemsR C), TSt h' f rt z)) as Hat.
  { intros b C2 l2 hb y r2 rest E1 E2. rewrite E1 in H. apply linked_unplug in H as (Hb & _). unfold deref. cbn [is_null].
    erewrite bind_ok by hacc. cbn [n_val]. rewrite E2. reflexivity. }
  unfold next_pos. destruct (lf_dec r) as [->|Hr].
  - cbn [minA]. destruct (upres C) as [b|] eqn:E.
    + destruct (upres_some C b E (match l with Lf => Lf | _ => l end)) as (C2 & l2 & hb & y & r2 & E1 & E2). eapply Hat; [exact E1|exact E2].
    + rewrite (upres_none C E). reflexivity.
  - assert (l = Lf) as -> by tauto. destruct (min_zip r Hr) as (Cr & b & hb & y & br & Er & HCr & Hm & _). rewrite Hm.
    eapply (Hat b (Cr ++ C)); [rewrite plug_app, <- Er; reflexivity|]. rewrite Er, elems_plug, (elemsL_FL _ HCr). reflexivity.
Qed.
End Del.
