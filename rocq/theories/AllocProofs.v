(** Facts about allocators. *)
From Verif Require Import Base Alloc.

Lemma grants_refuses pol n : grants pol -> ~ refuses pol n.
Proof. intros H (log & Hs & E & _). destruct (H log Hs) as [a Ha]. congruence. Qed.
Lemma refuses_mono pol n m : refuses pol n -> n <= m -> refuses pol m.
Proof. intros (log & Hs & E & H) Hm. exists log. split; [exact Hs|]. split; [exact E|lia]. Qed.

Lemma live_top log : forall a, a ∈ al_live log -> a < al_top log.
Proof.
  induction log as [|[b|b] log IH]; intros a; simpl.
  - intros H. apply elem_of_empty in H. destruct H.
  - rewrite elem_of_union, elem_of_singleton. intros [->|H]; [lia|]. apply IH in H. lia.
  - rewrite elem_of_difference. intros [H _]. apply IH. exact H.
Qed.
Lemma bump_sound : sound bump.
Proof. intros log a _ [= <-] H. apply live_top in H. lia. Qed.
Lemma bump_grants : grants bump.
Proof. intros log _. unfold bump. eauto. Qed.
Lemma first_free_notin f : forall a s, (forall b, b ∈ s -> b < a + f) -> first_free f a s ∉ s.
Proof.
  induction f as [|f IH]; intros a s H; simpl.
  - intros Hi. apply H in Hi. lia.
  - destruct (decide (a ∈ s)) as [Hi|Hi]; [|exact Hi]. apply IH. intros b Hb. apply H in Hb. lia.
Qed.
Lemma lowest_sound : sound lowest.
Proof. intros log a _ [= <-]. apply first_free_notin. intros b Hb. simpl. apply live_top. exact Hb. Qed.
Lemma lowest_grants : grants lowest.
Proof. intros log _. unfold lowest. eauto. Qed.
Lemma last_back_sound : sound last_back.
Proof.
  intros log a _. unfold last_back. destruct log as [|[b|b] log].
  - intros [= <-] H. apply live_top in H. revert H. apply Nat.lt_irrefl.
  - intros [= <-] H. apply live_top in H. revert H. apply Nat.lt_irrefl.
  - intros [= <-]. simpl. rewrite elem_of_difference, elem_of_singleton. tauto.
Qed.
Lemma last_back_grants : grants last_back.
Proof. intros log _. unfold last_back. destruct log as [|[b|b] log]; eauto. Qed.
Lemma limit_some n pol log a : limit n pol log = Some a -> pol log = Some a.
Proof. unfold limit. destruct (_ <? n); [auto|discriminate]. Qed.
Lemma limit_served n pol log : served (limit n pol) log -> served pol log.
Proof.
  induction log as [|[a|a] log IH]; simpl; [auto| |].
  - intros [H Hs]. split; [exact (limit_some _ _ _ _ H)|auto].
  - intros [H Hs]. auto.
Qed.
Lemma limit_sound n pol : sound pol -> sound (limit n pol).
Proof. intros H log a Hs%limit_served E%limit_some. apply H; assumption. Qed.
Lemma limit_room n pol : grants pol -> room (limit n pol) n.
Proof.
  intros H log Hv%limit_served. unfold limit. destruct (Nat.ltb_spec (size (al_live log)) n).
  - split; [auto|]. intros _. exact (H log Hv).
  - split; [intros [a [=]]|lia].
Qed.
Lemma room_refuses n pol : room pol n -> ~ refuses pol n.
Proof. intros H (log & Hv & E & Hs). apply (H log Hv) in Hs as [a Ha]. congruence. Qed.
Lemma room_over n pol m : room pol n -> refuses pol m -> n < m.
Proof.
  intros H (log & Hv & E & Hs). destruct (Nat.le_gt_cases n (size (al_live log))); [lia|]. apply (H log Hv) in H0 as [a Ha]. congruence.
Qed.
Lemma room_live n pol log : room pol n -> served pol log -> size (al_live log) <= n.
Proof.
  intros Hr. induction log as [|[a|a] log IH]; cbn [served al_live]; [intros _; rewrite size_empty; lia| |].
  - intros [H Hs]. pose proof (proj1 (Hr log Hs) (mk_is_Some _ _ H)).
    rewrite size_union_alt, size_singleton. pose proof (subseteq_size (al_live log ∖ {[a]}) (al_live log) ltac:(set_solver)). lia.
  - intros [_ Hs]. specialize (IH Hs). pose proof (subseteq_size (al_live log ∖ {[a]}) (al_live log) ltac:(set_solver)). lia.
Qed.
