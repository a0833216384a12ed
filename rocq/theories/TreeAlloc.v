(** The allocator knows the nodes in memory. *)
From Verif Require Import Base Alloc AllocProofs.

Section Alok.
Context {N : Type}.
Implicit Types (h : gmap nat N) (f : alloc).

Record alok h f : Prop := Alok {
  ak_sound : sound (al_pol f);
  ak_served : served (al_pol f) (al_log f);
  ak_live : forall k, k ∈ al_live (al_log f) <-> is_Some (h !! k) }.

Lemma alok_init pol : sound pol -> alok ∅ (Alloc pol []).
Proof.
  intros H. split; [exact H|exact I|]. intros k. cbn [al_log al_live]. rewrite lookup_empty. split; [intros Hk; apply elem_of_empty in Hk; destruct Hk|intros [? [=]]].
Qed.
Lemma alok_new h f a : alok h f -> al_pick f = Some a -> h !! a = None.
Proof.
  intros [H1 H2 H3] E. destruct (h !! a) as [n|] eqn:En; [|reflexivity]. exfalso.
  apply (H1 _ _ H2 E). apply H3. eauto.
Qed.
Lemma alok_got h f a h' : alok h f -> al_pick f = Some a -> (forall k, is_Some (h' !! k) <-> k = a \/ is_Some (h !! k)) -> alok h' (al_got a f).
Proof.
  intros [H1 H2 H3] E H. split; [exact H1|split; [exact E|exact H2]|]. intros k. cbn [al_got al_log al_live].
  rewrite elem_of_union, elem_of_singleton, H3, H. reflexivity.
Qed.
Lemma alok_gave h f a h' : alok h f -> is_Some (h !! a) -> (forall k, is_Some (h' !! k) <-> k <> a /\ is_Some (h !! k)) -> alok h' (al_gave a f).
Proof.
  intros [H1 H2 H3] E H. split; [exact H1|split; [apply H3, E|exact H2]|]. intros k. cbn [al_gave al_log al_live].
  rewrite elem_of_difference, elem_of_singleton, H3, H. tauto.
Qed.
Lemma alok_same h f h' : alok h f -> (forall k, is_Some (h' !! k) <-> is_Some (h !! k)) -> alok h' f.
Proof. intros [H1 H2 H3] H. split; [exact H1|exact H2|]. intros k. rewrite H3, H. reflexivity. Qed.
Lemma alok_size h f : alok h f -> size (al_live (al_log f)) = size h.
Proof.
  intros [_ _ H3]. rewrite <- (size_dom h). f_equal. apply set_eq. intros k. rewrite H3, elem_of_dom. reflexivity.
Qed.
Lemma alok_refuses h f : alok h f -> al_pick f = None -> refuses (al_pol f) (S (size h)).
Proof. intros H E. exists (al_log f). split; [apply (ak_served _ _ H)|]. split; [exact E|]. rewrite (alok_size _ _ H). lia. Qed.
End Alok.
