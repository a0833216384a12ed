(** Facts about stored trees and how node accesses run. *)
From Coq Require Import Sorted.
From Verif Require Import Base TreeModel TreeSpec.

Section Access.
Context {A : Type}.
Notation tree := (atree A).
Implicit Types (h : gmap nat (node A)) (t : tree).

Lemma ldn_ok h f r z a n : h !! a = Some n -> ldn (Some a) (TSt h f r z) = Ok (n, TSt h f r z).
Proof. intros H. unfold ldn. cbn. rewrite H. reflexivity. Qed.
Lemma ld_par_ok h f r z a n : h !! a = Some n -> ld_par (Some a) (TSt h f r z) = Ok (n_par n, TSt h f r z).
Proof. intros H. unfold ld_par. rewrite (bind_ok _ _ _ _ _ (ldn_ok _ _ _ _ _ _ H)). reflexivity. Qed.
Lemma ld_left_ok h f r z a n : h !! a = Some n -> ld_left (Some a) (TSt h f r z) = Ok (n_left n, TSt h f r z).
Proof. intros H. unfold ld_left. rewrite (bind_ok _ _ _ _ _ (ldn_ok _ _ _ _ _ _ H)). reflexivity. Qed.
Lemma ld_right_ok h f r z a n : h !! a = Some n -> ld_right (Some a) (TSt h f r z) = Ok (n_right n, TSt h f r z).
Proof. intros H. unfold ld_right. rewrite (bind_ok _ _ _ _ _ (ldn_ok _ _ _ _ _ _ H)). reflexivity. Qed.
Lemma ld_h_ok h f r z a n : h !! a = Some n -> ld_h (Some a) (TSt h f r z) = Ok (n_h n, TSt h f r z).
Proof. intros H. unfold ld_h. rewrite (bind_ok _ _ _ _ _ (ldn_ok _ _ _ _ _ _ H)). reflexivity. Qed.
Lemma ld_val_ok h f r z a n : h !! a = Some n -> ld_val (Some a) (TSt h f r z) = Ok (n_val n, TSt h f r z).
Proof. intros H. unfold ld_val. rewrite (bind_ok _ _ _ _ _ (ldn_ok _ _ _ _ _ _ H)). reflexivity. Qed.
Lemma stn_ok h f r z a n m : h !! a = Some n -> stn (Some a) m (TSt h f r z) = Ok (tt, TSt (<[a := m]> h) f r z).
Proof. intros H. unfold stn. cbn. rewrite H. reflexivity. Qed.
Lemma st_par_ok h f r z a n q : h !! a = Some n ->
  st_par (Some a) q (TSt h f r z) = Ok (tt, TSt (<[a := Nd q (n_left n) (n_right n) (n_h n) (n_val n)]> h) f r z).
Proof. intros H. unfold st_par. rewrite (bind_ok _ _ _ _ _ (ldn_ok _ _ _ _ _ _ H)). eapply stn_ok, H. Qed.
Lemma st_left_ok h f r z a n q : h !! a = Some n ->
  st_left (Some a) q (TSt h f r z) = Ok (tt, TSt (<[a := Nd (n_par n) q (n_right n) (n_h n) (n_val n)]> h) f r z).
Proof. intros H. unfold st_left. rewrite (bind_ok _ _ _ _ _ (ldn_ok _ _ _ _ _ _ H)). eapply stn_ok, H. Qed.
Lemma st_right_ok h f r z a n q : h !! a = Some n ->
  st_right (Some a) q (TSt h f r z) = Ok (tt, TSt (<[a := Nd (n_par n) (n_left n) q (n_h n) (n_val n)]> h) f r z).
Proof. intros H. unfold st_right. rewrite (bind_ok _ _ _ _ _ (ldn_ok _ _ _ _ _ _ H)). eapply stn_ok, H. Qed.
Lemma st_h_ok h f r z a n q : h !! a = Some n ->
  st_h (Some a) q (TSt h f r z) = Ok (tt, TSt (<[a := Nd (n_par n) (n_left n) (n_right n) q (n_val n)]> h) f r z).
Proof. intros H. unfold st_h. rewrite (bind_ok _ _ _ _ _ (ldn_ok _ _ _ _ _ _ H)). eapply stn_ok, H. Qed.
Lemma st_val_ok h f r z a n q : h !! a = Some n ->
  st_val (Some a) q (TSt h f r z) = Ok (tt, TSt (<[a := Nd (n_par n) (n_left n) (n_right n) (n_h n) q]> h) f r z).
Proof. intros H. unfold st_val. rewrite (bind_ok _ _ _ _ _ (ldn_ok _ _ _ _ _ _ H)). eapply stn_ok, H. Qed.

Lemma one_eq a : one a a = 1.
Proof. unfold one. destruct (Nat.eq_dec a a); congruence. Qed.
Lemma one_ne a b : a <> b -> one a b = 0.
Proof. unfold one. destruct (Nat.eq_dec a b); congruence. Qed.

Lemma linked_same h h' par t : (forall k, cnt k t = 1 \/ 1 < cnt k t -> h' !! k = h !! k) -> linked h par t -> linked h' par t.
Proof.
  revert par. induction t as [|l IHl a hh x r IHr]; intros par Hs; cbn [linked]; [auto|].
  intros (Ha & Hl & Hr). cbn [cnt] in Hs. split_and!.
  - rewrite Hs; [exact Ha|]. rewrite one_eq. lia.
  - apply IHl; [|exact Hl]. intros k Hk. apply Hs. lia.
  - apply IHr; [|exact Hr]. intros k Hk. apply Hs. lia.
Qed.
Lemma linked_insert h par t k n : cnt k t = 0 -> linked h par t -> linked (<[k := n]> h) par t.
Proof. intros Hk. apply linked_same. intros j Hj. rewrite lookup_insert_ne; [reflexivity|]. intros ->. lia. Qed.
Lemma linked_delete h par t k : cnt k t = 0 -> linked h par t -> linked (delete k h) par t.
Proof. intros Hk. apply linked_same. intros j Hj. rewrite lookup_delete_ne; [reflexivity|]. intros ->. lia. Qed.

Lemma linked_in h par t k : linked h par t -> 0 < cnt k t -> is_Some (h !! k).
Proof.
  revert par. induction t as [|l IHl a hh x r IHr]; intros par; cbn [linked cnt]; [lia|].
  intros (Ha & Hl & Hr) Hk. destruct (decide (k = a)) as [->|Hne]; [rewrite Ha; eauto|].
  rewrite one_ne in Hk by congruence. destruct (decide (0 < cnt k l)); [eapply IHl; eauto|eapply IHr; eauto; lia].
Qed.

(** Giving the stored tree another parent. *)
Definition setpar (h : gmap nat (node A)) (t : tree) (q : option nat) : gmap nat (node A) :=
  match t with Lf => h | Br l a hh x r => <[a := Nd q (rootp l) (rootp r) hh x]> h end.
Lemma linked_setpar h par t q : nd t -> linked h par t -> linked (setpar h t q) q t.
Proof.
  intros Hn H. destruct t as [|l a hh x r]; [exact I|]. cbn [linked setpar] in *. destruct H as (Ha & Hl & Hr).
  pose proof (Hn a) as Hna. cbn [cnt] in Hna. rewrite one_eq in Hna.
  split_and!; [apply lookup_insert| |]; apply linked_insert; (assumption || lia).
Qed.
Lemma setpar_other h t q k : cnt k t = 0 -> setpar h t q !! k = h !! k.
Proof.
  destruct t as [|l a hh x r]; [reflexivity|]. cbn [cnt setpar]. intros Hk. apply lookup_insert_ne. intros ->.
  rewrite one_eq in Hk. lia.
Qed.

(** A run of [st_par] on the root of a subtree that may be empty. *)
Lemma when_st_par h f r z par t q : linked h par t ->
  when (negb (is_null (rootp t))) (st_par (rootp t) q) (TSt h f r z) = Ok (tt, TSt (setpar h t q) f r z).
Proof.
  intros H. destruct t as [|l a hh x rr]; [reflexivity|]. cbn [rootp is_null negb when setpar].
  destruct H as (Ha & _). rewrite (st_par_ok _ _ _ _ _ _ _ Ha). reflexivity.
Qed.

Lemma nodes_cnt0 t : nodes t = 0 -> t = Lf.
Proof. destruct t; [reflexivity|]. cbn. lia. Qed.
Lemma depth_nonneg t : (0 <= depth t)%Z.
Proof. induction t; cbn [depth]; lia. Qed.
Lemma depth_nodes t : (depth t <= Z.of_nat (nodes t))%Z.
Proof. induction t; cbn [depth nodes]; lia. Qed.
Lemma depth_pos l a (hh : Z) (x : A) r : (1 <= depth (Br l a hh x r))%Z.
Proof. cbn [depth]. pose proof (depth_nonneg l). lia. Qed.
Lemma length_elems t : length (elems t) = nodes t.
Proof. induction t; cbn; [reflexivity|]. rewrite app_length. cbn. lia. Qed.

(** Addresses as a list, and their number. *)
Fixpoint addrs (t : tree) : list nat := match t with Lf => [] | Br l a _ _ r => addrs l ++ a :: addrs r end.
Lemma addrs_cnt t k : k ∈ addrs t <-> 0 < cnt k t.
Proof.
  induction t as [|l IHl a hh x r IHr]; cbn [addrs cnt].
  - split; [intros H; inversion H|lia].
  - rewrite elem_of_app, elem_of_cons, IHl, IHr. destruct (decide (k = a)) as [->|Hne].
    + rewrite one_eq. split; [lia|auto].
    + rewrite one_ne by congruence. split; [intros [H|[H|H]]; [lia|congruence|lia]|].
      intros H. destruct (decide (0 < cnt k l)); [auto|right; right; lia].
Qed.
Lemma nd_NoDup t : nd t -> NoDup (addrs t).
Proof.
  induction t as [|l IHl a hh x r IHr]; cbn [addrs]; intros H; [constructor|].
  assert (nd l) as Hl by (intros k; specialize (H k); cbn [cnt] in H; lia).
  assert (nd r) as Hr by (intros k; specialize (H k); cbn [cnt] in H; lia).
  apply NoDup_app. split_and!; [auto| |].
  - intros k Hk Hk'. rewrite addrs_cnt in Hk. specialize (H k). cbn [cnt] in H.
    apply elem_of_cons in Hk' as [->|Hk']; [rewrite one_eq in H; lia|]. rewrite addrs_cnt in Hk'. lia.
  - apply NoDup_cons. split; [|auto]. rewrite addrs_cnt. specialize (H a). cbn [cnt] in H. rewrite one_eq in H. lia.
Qed.
Lemma nodes_addrs t : length (addrs t) = nodes t.
Proof. induction t; cbn; [reflexivity|]. rewrite app_length. cbn. lia. Qed.
Lemma nodes_size h par t : nd t -> linked h par t -> nodes t <= size h.
Proof.
  intros Hn H. rewrite <- nodes_addrs, <- (size_list_to_set (C := gset nat)) by (apply nd_NoDup; auto).
  rewrite <- size_dom. apply subseteq_size. intros k Hk. apply elem_of_list_to_set, addrs_cnt in Hk.
  apply elem_of_dom. eapply linked_in; eauto.
Qed.
Lemma nd_l l a (hh : Z) (x : A) r : nd (Br l a hh x r) -> nd l.
Proof. intros H k. specialize (H k). cbn [cnt] in H. lia. Qed.
Lemma nd_r l a (hh : Z) (x : A) r : nd (Br l a hh x r) -> nd r.
Proof. intros H k. specialize (H k). cbn [cnt] in H. lia. Qed.
Lemma rootp_cnt t a : rootp t = Some a -> 0 < cnt a t.
Proof. destruct t; cbn [rootp cnt]; [discriminate|]. intros [= ->]. rewrite one_eq. lia. Qed.
End Access.

(** Running straight-line pointer code: every access looks its node up. *)
Ltac onecase := unfold one in *; repeat (match goal with |- context [Nat.eq_dec ?a ?b] => destruct (Nat.eq_dec a b)
  | H : context [Nat.eq_dec ?a ?b] |- _ => destruct (Nat.eq_dec a b) end; subst; try congruence; try lia).
Ltac hlook := match goal with
  | |- <[?a := _]> _ !! ?a = Some _ => apply lookup_insert
  | |- <[?a := _]> _ !! ?b = Some _ => rewrite lookup_insert_ne by (assumption || (apply not_eq_sym; assumption) || congruence); hlook
  | |- _ !! _ = Some _ => eassumption
  end.
Ltac hacc := first [ eapply ld_par_ok; hlook | eapply ld_left_ok; hlook | eapply ld_right_ok; hlook | eapply ld_h_ok; hlook
  | eapply ld_val_ok; hlook | eapply st_par_ok; hlook | eapply st_left_ok; hlook | eapply st_right_ok; hlook
  | eapply st_h_ok; hlook | eapply st_val_ok; hlook ].
Ltac hstep := cbn [n_par n_left n_right n_h n_val is_null negb when andb ptr_eqb]; first
  [ rewrite bind_ret
  | erewrite bind_ok by hacc ].
Ltac hgo := repeat hstep; cbn [n_par n_left n_right n_h n_val is_null negb when andb].
