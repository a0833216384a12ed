(** Ascending lists as sets. *)
From Coq Require Import Sorted.
From Verif Require Import Base TreeModel TreeSpec.

Section Sets.
Context {A : Type} (cmp : A -> A -> bool) (Hc : swo cmp).
Implicit Types (l : list A) (x y z : A).
Notation asc := (ascending cmp).
Notation "x ≺ y" := (cmp x y = true) (at level 70).

Lemma c_asym x y : x ≺ y -> cmp y x = false.
Proof. apply (proj1 Hc). Qed.
Lemma c_irr x : cmp x x = false.
Proof. destruct (cmp x x) eqn:E; [|reflexivity]. pose proof (c_asym _ _ E). congruence. Qed.
Lemma c_trans x y z : x ≺ y -> y ≺ z -> x ≺ z.
Proof. intros H1 H2. destruct (proj2 Hc _ _ z H1) as [H|H]; [exact H|]. pose proof (c_asym _ _ H2). congruence. Qed.
Lemma c_equiv_l x y z : equiv cmp x y -> x ≺ z -> y ≺ z.
Proof. intros [H1 H2] H. destruct (proj2 Hc _ _ y H) as [H'|H']; congruence. Qed.
Lemma c_equiv_r x y z : equiv cmp x y -> z ≺ x -> z ≺ y.
Proof. intros [H1 H2] H. destruct (proj2 Hc _ _ y H) as [H'|H']; congruence. Qed.
Lemma equiv_sym x y : equiv cmp x y -> equiv cmp y x.
Proof. unfold equiv. tauto. Qed.
Lemma equiv_refl x : equiv cmp x x.
Proof. split; apply c_irr. Qed.
Lemma equiv_trans x y z : equiv cmp x y -> equiv cmp y z -> equiv cmp x z.
Proof.
  intros H1 H2. split.
  - destruct (cmp x z) eqn:E; [|reflexivity]. apply (c_equiv_l _ _ _ H1) in E. destruct H2. congruence.
  - destruct (cmp z x) eqn:E; [|reflexivity]. apply (c_equiv_r _ _ _ H1) in E. destruct H2. congruence.
Qed.
Lemma equivb_true x y : equivb cmp x y = true <-> equiv cmp x y.
Proof. unfold equivb, equiv. destruct (cmp x y), (cmp y x); cbn; intuition congruence. Qed.
Lemma equivb_false x y : equivb cmp x y = false <-> x ≺ y \/ y ≺ x.
Proof. unfold equivb. destruct (cmp x y), (cmp y x); cbn; intuition congruence. Qed.
Lemma c_cases x y : (x ≺ y /\ cmp y x = false) \/ (cmp x y = false /\ y ≺ x) \/ equiv cmp x y.
Proof.
  destruct (cmp x y) eqn:E; [left; split; [reflexivity|apply c_asym, E]|].
  destruct (cmp y x) eqn:E'; [right; left; auto|right; right; split; assumption].
Qed.

Lemma asc_app l1 l2 : asc (l1 ++ l2) <-> asc l1 /\ asc l2 /\ forall x y, In x l1 -> In y l2 -> x ≺ y.
Proof.
  unfold ascending. induction l1 as [|a l1 IH]; cbn [app].
  - split; [intros H; split_and!; [constructor|exact H|intros x y []]|intros (_ & H & _); exact H].
  - split.
    + intros H. inversion H as [|? ? Hs Hf]; subst. apply IH in Hs as (H1 & H2 & H3).
      rewrite Forall_app in Hf. destruct Hf as [Hf1 Hf2]. split_and!; [constructor; assumption|assumption|].
      intros x y [->|Hx] Hy; [|auto]. rewrite List.Forall_forall in Hf2. auto.
    + intros (H1 & H2 & H3). inversion H1 as [|? ? Hs Hf]; subst. constructor.
      * apply IH. split_and!; auto. intros x y Hx Hy. apply H3; [right; exact Hx|exact Hy].
      * rewrite Forall_app. split; [exact Hf|]. apply List.Forall_forall. intros y Hy. apply H3; [left; reflexivity|exact Hy].
Qed.
Lemma asc_cons x l : asc (x :: l) <-> asc l /\ forall y, In y l -> x ≺ y.
Proof.
  unfold ascending. split.
  - intros H. inversion H as [|? ? Hs Hf]; subst. rewrite List.Forall_forall in Hf. auto.
  - intros [H1 H2]. constructor; [exact H1|]. apply List.Forall_forall. exact H2.
Qed.
Lemma asc_mid l1 y l2 : asc (l1 ++ y :: l2) <->
  asc l1 /\ asc l2 /\ (forall x, In x l1 -> x ≺ y) /\ (forall z, In z l2 -> y ≺ z).
Proof.
  rewrite asc_app, asc_cons. split.
  - intros (H1 & (H2 & H3) & H4). split_and!; auto. intros x Hx. apply H4; [exact Hx|left; reflexivity].
  - intros (H1 & H2 & H3 & H4). split_and!; auto. intros x z Hx [<-|Hz]; [auto|]. eapply c_trans; eauto.
Qed.

Lemma lookup_none x l : lookup_set cmp x l = None <-> forall y, In y l -> ~ equiv cmp x y.
Proof.
  unfold lookup_set. split.
  - intros H y Hy He. apply equivb_true in He. pose proof (List.find_none _ _ H y Hy). congruence.
  - intros H. destruct (List.find _ l) as [y|] eqn:E; [|reflexivity].
    apply List.find_some in E as [Hy He]. apply equivb_true in He. exfalso. eapply H; eauto.
Qed.
Lemma lookup_some x y l : lookup_set cmp x l = Some y -> In y l /\ equiv cmp x y.
Proof. unfold lookup_set. intros E. apply List.find_some in E as [Hy He]. apply equivb_true in He. auto. Qed.
Lemma find_app (p : A -> bool) l1 l2 :
  List.find p (l1 ++ l2) = match List.find p l1 with Some y => Some y | None => List.find p l2 end.
Proof. induction l1 as [|a l1 IH]; cbn; [reflexivity|]. destruct (p a); [reflexivity|exact IH]. Qed.
Lemma find_none_all (p : A -> bool) l : (forall y, In y l -> p y = false) -> List.find p l = None.
Proof. induction l as [|a l IH]; cbn; intros H; [reflexivity|]. rewrite (H a) by auto. apply IH. auto. Qed.
Lemma filter_all (p : A -> bool) l : (forall y, In y l -> p y = true) -> List.filter p l = l.
Proof. induction l as [|a l IH]; cbn; intros H; [reflexivity|]. rewrite (H a) by auto. rewrite IH; auto. Qed.

(** In an ascending list around y. *)
Section Mid.
Context (l1 l2 : list A) (y : A) (Ha : asc (l1 ++ y :: l2)).
Lemma mid_lt x : In x l1 -> x ≺ y. Proof. apply asc_mid in Ha as (_ & _ & H & _). apply H. Qed.
Lemma mid_gt x : In x l2 -> y ≺ x. Proof. apply asc_mid in Ha as (_ & _ & _ & H). apply H. Qed.

Lemma lookup_lt x : x ≺ y -> lookup_set cmp x (l1 ++ y :: l2) = lookup_set cmp x l1.
Proof.
  intros Hx. unfold lookup_set. rewrite find_app. cbn [List.find].
  rewrite (proj2 (equivb_false x y)) by auto.
  rewrite (find_none_all _ l2). { destruct (List.find _ l1); reflexivity. }
  intros z Hz. apply equivb_false. left. eapply c_trans; [exact Hx|apply mid_gt, Hz].
Qed.
Lemma lookup_gt x : y ≺ x -> lookup_set cmp x (l1 ++ y :: l2) = lookup_set cmp x l2.
Proof.
  intros Hx. unfold lookup_set. rewrite find_app. cbn [List.find].
  rewrite (proj2 (equivb_false x y)) by auto.
  rewrite (find_none_all _ l1); [reflexivity|].
  intros z Hz. apply equivb_false. right. eapply c_trans; [apply mid_lt, Hz|exact Hx].
Qed.
Lemma lookup_eq x : equiv cmp x y -> lookup_set cmp x (l1 ++ y :: l2) = Some y.
Proof.
  intros Hx. unfold lookup_set. rewrite find_app. cbn [List.find].
  rewrite (proj2 (equivb_true x y)) by auto.
  rewrite (find_none_all _ l1); [reflexivity|].
  intros z Hz. apply equivb_false. right. eapply c_equiv_r; [apply equiv_sym, Hx|apply mid_lt, Hz].
Qed.
Lemma add_lt x : x ≺ y -> add_set cmp x (l1 ++ y :: l2) = add_set cmp x l1 ++ y :: l2.
Proof.
  intros Hx. clear Ha. induction l1 as [|a l IH]; cbn [add_set app].
  - rewrite Hx. reflexivity.
  - destruct (cmp x a); [reflexivity|]. rewrite IH. reflexivity.
Qed.
Lemma add_gt x : y ≺ x -> add_set cmp x (l1 ++ y :: l2) = l1 ++ y :: add_set cmp x l2.
Proof.
  intros Hx. pose proof mid_lt as Hlt. clear Ha. induction l1 as [|a l IH]; cbn [add_set app].
  - rewrite (c_asym _ _ Hx). reflexivity.
  - assert (a ≺ x) as Hax by (eapply c_trans; [apply Hlt; left; reflexivity|exact Hx]).
    rewrite (c_asym _ _ Hax). rewrite IH; [reflexivity|]. intros z Hz. apply Hlt. right. exact Hz.
Qed.
Lemma remove_lt x : x ≺ y -> remove_set cmp x (l1 ++ y :: l2) = remove_set cmp x l1 ++ y :: l2.
Proof.
  intros Hx. unfold remove_set. rewrite List.filter_app. cbn [List.filter].
  rewrite (proj2 (equivb_false x y)) by auto. cbn. rewrite (filter_all _ l2); [reflexivity|].
  intros z Hz. rewrite (proj2 (equivb_false x z)); [reflexivity|]. left. eapply c_trans; [exact Hx|apply mid_gt, Hz].
Qed.
Lemma remove_gt x : y ≺ x -> remove_set cmp x (l1 ++ y :: l2) = l1 ++ y :: remove_set cmp x l2.
Proof.
  intros Hx. unfold remove_set. rewrite List.filter_app. cbn [List.filter].
  rewrite (proj2 (equivb_false x y)) by auto. cbn. rewrite (filter_all _ l1); [reflexivity|].
  intros z Hz. rewrite (proj2 (equivb_false x z)); [reflexivity|]. right. eapply c_trans; [apply mid_lt, Hz|exact Hx].
Qed.
Lemma remove_eq x : equiv cmp x y -> remove_set cmp x (l1 ++ y :: l2) = l1 ++ l2.
Proof.
  intros Hx. unfold remove_set. rewrite List.filter_app. cbn [List.filter].
  rewrite (proj2 (equivb_true x y)) by auto. cbn.
  rewrite (filter_all _ l1), (filter_all _ l2); [reflexivity| |].
  - intros z Hz. rewrite (proj2 (equivb_false x z)); [reflexivity|]. left.
    eapply c_equiv_l; [apply equiv_sym, Hx|apply mid_gt, Hz].
  - intros z Hz. rewrite (proj2 (equivb_false x z)); [reflexivity|]. right.
    eapply c_equiv_r; [apply equiv_sym, Hx|apply mid_lt, Hz].
Qed.
Lemma next_eq x : equiv cmp x y -> next_set cmp x (l1 ++ y :: l2) = head l2.
Proof.
  intros Hx. unfold next_set. rewrite find_app. cbn [List.find].
  rewrite (find_none_all _ l1).
  2:{ intros z Hz. apply c_asym. eapply c_equiv_r; [apply equiv_sym, Hx|apply mid_lt, Hz]. }
  rewrite (proj1 Hx). pose proof mid_gt as Hgt. clear Ha. destruct l2 as [|z l2']; [reflexivity|]. cbn [List.find].
  rewrite (c_equiv_l y x z); [reflexivity|apply equiv_sym, Hx|]. apply Hgt. left. reflexivity.
Qed.
End Mid.

Lemma in_add x l z : In z (add_set cmp x l) <-> z = x \/ In z l.
Proof.
  induction l as [|a l IH]; cbn [add_set In]; [intuition|].
  destruct (cmp x a); cbn [In]; [|rewrite IH]; intuition.
Qed.
Lemma add_asc x l : asc l -> lookup_set cmp x l = None -> asc (add_set cmp x l).
Proof.
  intros H Hn. rewrite lookup_none in Hn. induction l as [|a l IH]; cbn [add_set].
  - constructor; [constructor|constructor].
  - pose proof H as H0. apply asc_cons in H as [H1 H2]. destruct (c_cases x a) as [[E E']|[[E E']|E]].
    + rewrite E. apply asc_cons. split; [exact H0|]. intros y [<-|Hy]; [exact E|]. eapply c_trans; eauto.
    + rewrite E. apply asc_cons. split; [apply IH; auto; intros y Hy; apply Hn; right; exact Hy|].
      intros y Hy. apply in_add in Hy as [->|Hy]; auto.
    + exfalso. eapply (Hn a); [left; reflexivity|exact E].
Qed.
Lemma remove_asc x l : asc l -> asc (remove_set cmp x l).
Proof.
  unfold remove_set. induction l as [|a l IH]; cbn [List.filter]; [auto|]. intros H.
  apply asc_cons in H as [H1 H2]. destruct (negb _); [|auto]. apply asc_cons. split; [auto|].
  intros y Hy. apply filter_In in Hy as [Hy _]. auto.
Qed.
Lemma length_add x l : length (add_set cmp x l) = S (length l).
Proof. induction l as [|a l IH]; cbn; [reflexivity|]. destruct (cmp x a); cbn; [reflexivity|]. rewrite IH. reflexivity. Qed.
Lemma lookup_split x v l : asc l -> lookup_set cmp x l = Some v ->
  exists l1 l2, l = l1 ++ v :: l2 /\ equiv cmp x v.
Proof.
  intros _ H. apply lookup_some in H as [Hi He]. apply in_split in Hi as (l1 & l2 & ->). eauto.
Qed.
Lemma length_remove x v l : asc l -> lookup_set cmp x l = Some v -> S (length (remove_set cmp x l)) = length l.
Proof.
  intros H Hl. destruct (lookup_split _ _ _ H Hl) as (l1 & l2 & -> & He). rewrite remove_eq by assumption.
  rewrite !app_length. cbn. lia.
Qed.
Lemma remove_absent x l : lookup_set cmp x l = None -> remove_set cmp x l = l.
Proof.
  intros H. rewrite lookup_none in H. apply filter_all. intros y Hy. destruct (equivb cmp x y) eqn:E; [|reflexivity].
  apply equivb_true in E. exfalso. eapply H; eauto.
Qed.
End Sets.
