(** Histories of stack calls over deques and linked lists are last in, first out. *)
From Verif Require Import Base Alloc AllocProofs VectorModel VectorSpec Adapter Hist ListModel ListSpec ListProofs ListHist ListHist2 ListHist3 DequeModel DequeSpec DequeHist DequeHist2 StackModel StackSpec StackOtherModel StackOtherSpec QueueProofs VecProg StackProofs.

Section S.
Context {A : Type}.
Notation sw := (gmap nat (list A * bool)).
Definition turn (p : list A * bool) : list A * bool := (rev p.1, p.2).
Definition turn_l (p : list A * bool) : list A := rev p.1.

Lemma nonempty_rev (l : list A) : nonempty (rev l) = match l with [] => false | _ => true end.
Proof. destruct l as [|a l]; [reflexivity|]. cbn [rev]. destruct (rev l); reflexivity. Qed.
Lemma match_rev {X} (a : A) l (x y : X) : match rev (a :: l) with [] => x | _ :: _ => y end = y.
Proof. cbn [rev]. destruct (rev l); reflexivity. Qed.
Lemma removelast_rev (a : A) l : removelast (rev (a :: l)) = rev l.
Proof. cbn [rev]. apply removelast_last. Qed.
Lemma last_rev (a : A) l : last (rev (a :: l)) = Some a.
Proof. cbn [rev]. apply last_snoc. Qed.

(** ** Over a deque *)
Definition kdR N (s : sw) (w : dst A) : Prop := winv N (turn <$> s) w.
Ltac look H := rewrite ?lookup_fmap in H.
Lemma ko_deque N (HN : 0 < N) (o : kop A) (s : sw) w : kdR N s w -> magree (kdR N) (ko_step OnDeque o s) (kd_step N o w).
Proof.
  intros Hw. pose proof (fun o' => dq_step_ok N HN o' _ _ Hw) as D. unfold kdR in *.
  destruct o; cbn [ko_step kd_step].
  - destruct (s !! id) as [[l b]|] eqn:E; [exact I|]. specialize (D (DNew id)). cbn [ds_step] in D. unfold no_dq in D. rewrite lookup_fmap, E in D. cbn [fmap option_fmap option_map] in D.
    unfold magree in *. rewrite fmap_insert. exact D.
  - destruct (s !! id) as [[l b]|] eqn:E; [exact I|]. destruct (s !! src) as [[l [|]]|] eqn:E2; [|exact I|exact I].
    specialize (D (DCopyNew id src)). cbn [ds_step] in D. unfold no_dq, with_dq in D. rewrite !lookup_fmap, E, E2 in D. cbn [fmap option_fmap option_map turn fst snd] in D.
    rewrite nonempty_rev in D. unfold magree in *. rewrite fmap_insert. exact D.
  - destruct (s !! id) as [[l b]|] eqn:E; [exact I|]. destruct (s !! src) as [[l b]|] eqn:E2; exact I.
  - destruct (s !! id) as [[l0 b0]|] eqn:E; [|exact I]. destruct (s !! src) as [[l b]|] eqn:E2; [|exact I].
    specialize (D (DAssign id src)). cbn [ds_step] in D. unfold with_dq in D. rewrite !lookup_fmap, E, E2 in D. cbn [fmap option_fmap option_map turn fst snd] in D.
    destruct (id =? src); [exact D|]. destruct b; [|exact I]. rewrite nonempty_rev in D. unfold magree in *. rewrite fmap_insert. exact D.
  - destruct (s !! id) as [[l0 b0]|] eqn:E; [|exact I]. destruct (s !! src) as [[l b]|] eqn:E2; [|exact I].
    specialize (D (DMoveAssign id src)). cbn [ds_step] in D. unfold with_dq in D. rewrite !lookup_fmap, E in D. cbn [fmap option_fmap option_map turn fst snd] in D.
    destruct (id =? src); [exact D|exact I].
  - destruct (s !! id) as [[l b]|] eqn:E; [|exact I]. specialize (D (DDestroy id)). cbn [ds_step] in D. unfold with_dq in D. rewrite lookup_fmap, E in D. cbn [fmap option_fmap option_map turn fst snd] in D.
    unfold magree in *. rewrite fmap_delete. exact D.
  - destruct (s !! id) as [[l b]|] eqn:E; [|exact I]. specialize (D (DPushBack id a)). cbn [ds_step] in D. unfold with_dq in D. rewrite lookup_fmap, E in D. cbn [fmap option_fmap option_map turn fst snd] in D.
    unfold magree in *. rewrite fmap_insert. exact D.
  - destruct (s !! id) as [[[|a l] b]|] eqn:E; [exact I| |exact I].
    specialize (D (DBack id)). cbn [ds_step] in D. unfold with_dq, some_or in D. rewrite lookup_fmap, E in D. cbn [fmap option_fmap option_map turn fst snd] in D.
    rewrite last_rev in D. destruct D as (w1 & R1 & H1). rewrite (bind_ok _ _ _ _ _ R1).
    pose proof (dq_step_ok N HN (DPopBack id) _ _ H1) as D. cbn [ds_step] in D. unfold with_dq in D. rewrite lookup_fmap, E in D. cbn [fmap option_fmap option_map turn fst snd] in D.
    rewrite match_rev, removelast_rev in D. unfold magree in *. rewrite fmap_insert. exact D.
  - destruct (s !! id) as [[[|a l] b]|] eqn:E; [exact I| |exact I]. specialize (D (DBack id)). cbn [ds_step] in D. unfold with_dq, some_or in D. rewrite lookup_fmap, E in D. cbn [fmap option_fmap option_map turn fst snd] in D.
    rewrite last_rev in D. exact D.
  - destruct (s !! id) as [[l b]|] eqn:E; [|exact I]. specialize (D (DSize id)). cbn [ds_step] in D. unfold with_dq in D. rewrite lookup_fmap, E in D. cbn [fmap option_fmap option_map turn fst snd] in D.
    rewrite rev_length in D. exact D.
  - destruct (s !! id) as [[l b]|] eqn:E; [|exact I]. specialize (D (DEmpty id)). cbn [ds_step] in D. unfold with_dq in D. rewrite lookup_fmap, E in D. cbn [fmap option_fmap option_map turn fst snd] in D.
    rewrite nonempty_rev in D. exact D.
  - destruct (s !! id) as [[l b]|] eqn:E; [|exact I]. specialize (D (DClear id)). cbn [ds_step] in D. unfold with_dq in D. rewrite lookup_fmap, E in D. cbn [fmap option_fmap option_map turn fst snd] in D.
    unfold magree in *. rewrite fmap_insert. exact D.
  - destruct (s !! id) as [[l [|]]|] eqn:E; [|exact I|exact I]. specialize (D (DIter id)). cbn [ds_step] in D. unfold with_dq in D. rewrite lookup_fmap, E in D. exact D.
Qed.

Lemma turn_total (s : sw) : DequeSpec.elements_total (turn <$> s) = DequeSpec.elements_total s.
Proof.
  rewrite <- !q_total. unfold ListSpec.elements_total. rewrite <- map_fmap_compose, !map_to_list_fmap. induction (map_to_list s) as [|[i [l b]] m IH]; [reflexivity|].
  cbn [fmap list_fmap mbind list_bind prod_map snd fst turn compose]. rewrite !app_length, rev_length. f_equal. exact IH.
Qed.
Theorem stack_deque_history N (ops : list (kop A)) : 0 < N ->
  match srun (ko_step OnDeque) ops ∅ with
  | SVal (rs, s) => exists w, mrun (kd_step N) ops dst_init = Ok (rs, w) /\ blocks_allocated w * N = capacity_total w /\ elements_live w = DequeSpec.elements_total s
  | SAbort => mrun (kd_step N) ops dst_init = Abort
  | SUnspec => True end.
Proof.
  intros HN. assert (H0 : kdR N ∅ dst_init) by (unfold kdR; rewrite fmap_empty; apply winv_empty).
  pose proof (mrun_agree (kd_step N) (ko_step OnDeque) (kdR N) (ko_deque N HN) ops ∅ dst_init H0) as H.
  unfold magree in H. destruct (srun (ko_step OnDeque) ops ∅) as [[rs s]| |]; [|exact H|exact I]. destruct H as (w & R & Hw). exists w. split; [exact R|].
  split; [eapply storage_exact; eassumption|]. rewrite <- turn_total. eapply elements_exact; eassumption.
Qed.

(** ** Over a linked list *)
Lemma turn_l_total (s : sw) : ListSpec.elements_total (turn_l <$> s) = DequeSpec.elements_total s.
Proof.
  rewrite <- q_total. unfold ListSpec.elements_total. rewrite !map_to_list_fmap. induction (map_to_list s) as [|[i [l b]] m IH]; [reflexivity|].
  cbn [fmap list_fmap mbind list_bind prod_map snd fst]. unfold turn_l at 1. cbn [fst]. rewrite !app_length, rev_length. f_equal. exact IH.
Qed.
Section L.
Context (dbl : bool) (step : lop A -> M (lst A) (out A)) (R : gmap nat (list A) -> lst A -> Prop) (pol : policy).
Context (step_or : forall o s w, R s w -> magree_or R (fun s' => refuses pol (ListSpec.elements_total s')) (ls_step dbl o s) (step o w)).
Context (back_ok : forall id l a s w, R s w -> s !! id = Some (l ++ [a]) -> step (LBack id) w = Ok (RVal a, w)).
Let u := if dbl then OnDList else OnSList.
Definition klR (s : sw) (w : lst A) : Prop := R (turn_l <$> s) w.
Lemma ko_list (o : kop A) (s : sw) w : klR s w -> magree_or klR (fun s' => refuses pol (ListSpec.elements_total (turn_l <$> s'))) (ko_step u o s) (kl_step step o w).
Proof.
  intros Hw. pose proof (fun o' => step_or o' _ _ Hw) as D. unfold klR in *.
  destruct o; cbn [ko_step kl_step].
  - destruct (s !! id) as [[l b]|] eqn:E; [exact I|]. specialize (D (LNew id)). cbn [ls_step] in D. unfold no_list in D. rewrite lookup_fmap, E in D. cbn [fmap option_fmap option_map] in D.
    unfold magree_or in *. rewrite fmap_insert. exact D.
  - destruct (s !! id) as [[l b]|] eqn:E; [exact I|]. destruct (s !! src) as [[l b]|] eqn:E2; [|exact I].
    specialize (D (LCopyNew id src)). cbn [ls_step] in D. unfold no_list, with_list in D. rewrite !lookup_fmap, E, E2 in D. cbn [fmap option_fmap option_map] in D. unfold turn_l at 1 2 3 in D. cbn [fst] in D.
    subst u. destruct dbl; [|destruct l as [|a l]; [|exact I]]; unfold magree_or in *; rewrite fmap_insert; exact D.
  - destruct (s !! id) as [[l b]|] eqn:E; [exact I|]. destruct (s !! src) as [[l b]|] eqn:E2; [|exact I].
    specialize (D (LMoveNew id src)). cbn [ls_step] in D. unfold no_list, with_list in D. rewrite !lookup_fmap, E, E2 in D. cbn [fmap option_fmap option_map] in D. unfold turn_l at 1 2 in D. cbn [fst] in D.
    subst u. destruct l as [|a l]; [destruct dbl; exact I|]. rewrite match_rev in D.
    destruct dbl; unfold magree_or in *; rewrite !fmap_insert; exact D.
  - destruct (s !! id) as [[l0 b0]|] eqn:E; [|exact I]. destruct (s !! src) as [[l b]|] eqn:E2; [|exact I].
    specialize (D (LAssign id src)). cbn [ls_step] in D. unfold with_list in D. rewrite !lookup_fmap, E, E2 in D. cbn [fmap option_fmap option_map] in D. unfold turn_l at 1 2 3 in D. cbn [fst] in D.
    destruct (id =? src); [exact D|]. subst u. destruct dbl; [|destruct l as [|a l]; [|exact I]]; unfold magree_or in *; rewrite fmap_insert; exact D.
  - destruct (s !! id) as [[l0 b0]|] eqn:E; [|exact I]. destruct (s !! src) as [[l b]|] eqn:E2; [|exact I].
    specialize (D (LMoveAssign id src)). cbn [ls_step] in D. unfold with_list in D. rewrite !lookup_fmap, E, E2 in D. cbn [fmap option_fmap option_map] in D. unfold turn_l at 1 2 in D. cbn [fst] in D.
    destruct (id =? src); [exact D|]. subst u. destruct l as [|a l]; [destruct dbl; exact I|]. rewrite match_rev in D.
    destruct dbl; unfold magree_or in *; rewrite !fmap_insert; exact D.
  - destruct (s !! id) as [[l b]|] eqn:E; [|exact I]. specialize (D (LDestroy id)). cbn [ls_step] in D. unfold with_list in D. rewrite lookup_fmap, E in D. cbn [fmap option_fmap option_map] in D.
    unfold magree_or in *. rewrite fmap_delete. exact D.
  - destruct (s !! id) as [[l b]|] eqn:E; [|exact I]. specialize (D (LPushBack id a)). cbn [ls_step] in D. unfold with_list in D. rewrite lookup_fmap, E in D. cbn [fmap option_fmap option_map] in D.
    unfold magree_or in *. rewrite fmap_insert. exact D.
  - destruct (s !! id) as [[[|a l] b]|] eqn:E; [| |exact I].
    + specialize (D (LBack id)). cbn [ls_step] in D. unfold with_list in D. rewrite lookup_fmap, E in D. cbn [fmap option_fmap option_map] in D.
      subst u. destruct dbl; apply bind_abort; exact D.
    + assert (Eb : (turn_l <$> s) !! id = Some (rev l ++ [a])) by (rewrite lookup_fmap, E; reflexivity).
      rewrite (bind_ok _ _ _ _ _ (back_ok _ _ _ _ _ Hw Eb)).
      specialize (D (LPopBack id)). cbn [ls_step] in D. unfold with_list in D. rewrite Eb, removelast_last in D.
      destruct (rev l ++ [a]) eqn:Er; [destruct (rev l); discriminate|]. unfold magree_or in *. rewrite fmap_insert. exact D.
  - destruct (s !! id) as [[[|a l] b]|] eqn:E; [| |exact I]; specialize (D (LBack id)); cbn [ls_step] in D; unfold with_list in D; rewrite lookup_fmap, E in D; cbn [fmap option_fmap option_map] in D.
    + subst u. destruct dbl; exact D.
    + unfold turn_l at 1 in D. cbn [fst] in D. rewrite last_rev in D. exact D.
  - destruct (s !! id) as [[l b]|] eqn:E; [|exact I]. specialize (D (LSize id)). cbn [ls_step] in D. unfold with_list in D. rewrite lookup_fmap, E in D. cbn [fmap option_fmap option_map] in D.
    unfold turn_l at 1 in D. cbn [fst] in D. rewrite rev_length in D. exact D.
  - destruct (s !! id) as [[l b]|] eqn:E; [|exact I]. specialize (D (LEmpty id)). cbn [ls_step] in D. unfold with_list in D. rewrite lookup_fmap, E in D. cbn [fmap option_fmap option_map] in D.
    unfold turn_l at 1 in D. cbn [fst] in D. destruct l as [|a l]; [exact D|]. rewrite match_rev in D. exact D.
  - destruct (s !! id) as [[l b]|] eqn:E; [|exact I]. specialize (D (LClear id)). cbn [ls_step] in D. unfold with_list in D. rewrite lookup_fmap, E in D. cbn [fmap option_fmap option_map] in D.
    unfold magree_or in *. rewrite fmap_insert. exact D.
  - destruct (s !! id) as [[l b]|] eqn:E; [|exact I]. specialize (D (LIter id)). cbn [ls_step] in D. unfold with_list in D. rewrite lookup_fmap, E in D. cbn [fmap option_fmap option_map] in D.
    subst u. destruct dbl; exact D.
Qed.
Lemma stack_list_run (ops : list (kop A)) w0 : R ∅ w0 ->
  match srun (ko_step u) ops ∅ with
  | SVal (rs, s) => (exists w, mrun (kl_step step) ops w0 = Ok (rs, w) /\ klR s w) \/
      (mrun (kl_step step) ops w0 = Abort /\
       exists ops1 ops2 rs1 s1, ops = ops1 ++ ops2 /\ srun (ko_step u) ops1 ∅ = SVal (rs1, s1) /\ refuses pol (DequeSpec.elements_total s1))
  | SAbort => mrun (kl_step step) ops w0 = Abort
  | SUnspec => True end.
Proof.
  intros H0. assert (H1 : klR ∅ w0) by (unfold klR; rewrite fmap_empty; exact H0).
  pose proof (mrun_agree_or (kl_step step) (ko_step u) klR (fun s => refuses pol (ListSpec.elements_total (turn_l <$> s))) ko_list ops ∅ w0 H1) as H.
  destruct (srun (ko_step u) ops ∅) as [[rs s]| |]; [|exact H|exact I]. destruct H as [H|(E & ops1 & ops2 & rs1 & s1 & E1 & E2 & Hr)]; [left; exact H|right].
  split; [exact E|]. exists ops1, ops2, rs1, s1. split; [exact E1|]. split; [exact E2|]. rewrite <- turn_l_total. exact Hr.
Qed.
End L.

Lemma dl_back_R (junk : A) pol id l a s w : dlR pol s w -> s !! id = Some (l ++ [a]) -> dl_step junk (LBack id) w = Ok (RVal a, w).
Proof.
  intros (lay & Hs & H & _) E. destruct (dlR_look _ _ _ _ Hs E) as (xs & E' & Ex).
  destruct xs as [|[b x] us _] using rev_ind; [destruct l; discriminate|]. rewrite fmap_app in Ex. apply app_inj_tail in Ex as [_ Ex]. cbn in Ex. subst x.
  cbn [dl_step]. erewrite bind_ok by (eapply dl_back_ok; eassumption). reflexivity.
Qed.
Lemma sl_back_R (junk : A) pol id l a s w : slR pol s w -> s !! id = Some (l ++ [a]) -> sl_step junk (LBack id) w = Ok (RVal a, w).
Proof.
  intros (lay & Hs & H & Ht & _) E. destruct (dlR_look _ _ _ _ Hs E) as (xs & E' & Ex).
  destruct xs as [|[b x] us _] using rev_ind; [destruct l; discriminate|]. rewrite fmap_app in Ex. apply app_inj_tail in Ex as [_ Ex]. cbn in Ex. subst x.
  cbn [sl_step]. erewrite bind_ok by (eapply sl_back_ok; eassumption). reflexivity.
Qed.

Theorem stack_dlist_history (junk : A) pol (ops : list (kop A)) : sound pol ->
  match srun (ko_step OnDList) ops ∅ with
  | SVal (rs, s) => (exists w, mrun (kl_step (dl_step junk)) ops (lst_init pol) = Ok (rs, w) /\ nodes_allocated w = DequeSpec.elements_total s) \/
      (mrun (kl_step (dl_step junk)) ops (lst_init pol) = Abort /\
       exists ops1 ops2 rs1 s1, ops = ops1 ++ ops2 /\ srun (ko_step OnDList) ops1 ∅ = SVal (rs1, s1) /\ refuses pol (DequeSpec.elements_total s1))
  | SAbort => mrun (kl_step (dl_step junk)) ops (lst_init pol) = Abort
  | SUnspec => True end.
Proof.
  intros Hs. pose proof (stack_list_run true (dl_step junk) (dlR pol) pol (dl_step_or junk pol) (fun id l a s w => dl_back_R junk pol id l a s w) ops (lst_init pol) (dlR_init pol Hs)) as H.
  cbn match in H. destruct (srun (ko_step OnDList) ops ∅) as [[rs s]| |]; [|exact H|exact I].
  destruct H as [(w & E & lay & El & Hi & _)|H]; [left; exists w|right; exact H]. split; [exact E|]. rewrite <- turn_l_total, El. eapply nodes_exact. exact Hi.
Qed.
Theorem stack_slist_history (junk : A) pol (ops : list (kop A)) : sound pol ->
  match srun (ko_step OnSList) ops ∅ with
  | SVal (rs, s) => (exists w, mrun (kl_step (sl_step junk)) ops (lst_init pol) = Ok (rs, w) /\ nodes_allocated w = DequeSpec.elements_total s) \/
      (mrun (kl_step (sl_step junk)) ops (lst_init pol) = Abort /\
       exists ops1 ops2 rs1 s1, ops = ops1 ++ ops2 /\ srun (ko_step OnSList) ops1 ∅ = SVal (rs1, s1) /\ refuses pol (DequeSpec.elements_total s1))
  | SAbort => mrun (kl_step (sl_step junk)) ops (lst_init pol) = Abort
  | SUnspec => True end.
Proof.
  intros Hs. pose proof (stack_list_run false (sl_step junk) (slR pol) pol (sl_step_or junk pol) (fun id l a s w => sl_back_R junk pol id l a s w) ops (lst_init pol) (slR_init pol Hs)) as H.
  cbn match in H. destruct (srun (ko_step OnSList) ops ∅) as [[rs s]| |]; [|exact H|exact I].
  destruct H as [(w & E & lay & El & Hi & _)|H]; [left; exists w|right; exact H]. split; [exact E|]. rewrite <- turn_l_total, El. eapply nodes_exact. exact Hi.
Qed.

(** ** Every container answers like Stack over Vector *)
Lemma ko_vector u (o : kop A) (s s' : sw) r : ko_step u o s = SVal (r, s') -> k_step true o (fst <$> s) = SVal (r, fst <$> s').
Proof.
  destruct o; cbn [ko_step k_step orb]; rewrite ?lookup_fmap.
  - destruct (s !! id) as [[l b]|]; [discriminate|]. intros [= <- <-]. rewrite fmap_insert. reflexivity.
  - destruct (s !! id) as [[l b]|]; [discriminate|]. destruct (s !! src) as [[l b]|]; [|discriminate]. cbn [fmap option_fmap option_map fst].
    destruct u; [destruct b; [|discriminate]| |destruct l; [|discriminate]]; intros [= <- <-]; rewrite fmap_insert; reflexivity.
  - destruct (s !! id) as [[l b]|]; [discriminate|]. destruct (s !! src) as [[l b]|]; [|discriminate]. cbn [fmap option_fmap option_map fst].
    destruct u; [discriminate| |]; (destruct l; [discriminate|]); intros [= <- <-]; rewrite !fmap_insert; reflexivity.
  - destruct (s !! id) as [[l0 b0]|]; [|discriminate]. destruct (s !! src) as [[l b]|]; [|discriminate]. cbn [fmap option_fmap option_map fst].
    destruct (id =? src); [intros [= <- <-]; reflexivity|].
    destruct u; [destruct b; [|discriminate]| |destruct l; [|discriminate]]; intros [= <- <-]; rewrite fmap_insert; reflexivity.
  - destruct (s !! id) as [[l0 b0]|]; [|discriminate]. destruct (s !! src) as [[l b]|]; [|discriminate]. cbn [fmap option_fmap option_map fst].
    destruct (id =? src); [intros [= <- <-]; reflexivity|].
    destruct u; [discriminate| |]; (destruct l; [discriminate|]); intros [= <- <-]; rewrite !fmap_insert; reflexivity.
  - destruct (s !! id) as [[l b]|]; [|discriminate]. intros [= <- <-]. rewrite fmap_delete. reflexivity.
  - destruct (s !! id) as [[l b]|]; [|discriminate]. intros [= <- <-]. rewrite fmap_insert. reflexivity.
  - destruct (s !! id) as [[[|a l] b]|]; [destruct u; discriminate| |discriminate]. intros [= <- <-]. rewrite fmap_insert. reflexivity.
  - destruct (s !! id) as [[[|a l] b]|]; [destruct u; discriminate| |discriminate]. intros [= <- <-]. reflexivity.
  - destruct (s !! id) as [[l b]|]; [|discriminate]. intros [= <- <-]. reflexivity.
  - destruct (s !! id) as [[[|a l] b]|]; [| |discriminate]; intros [= <- <-]; reflexivity.
  - destruct (s !! id) as [[l b]|]; [|discriminate]. intros [= <- <-]. rewrite fmap_insert. reflexivity.
  - destruct (s !! id) as [[l b]|]; [|discriminate]. destruct u; [destruct b; [|discriminate]| |]; intros [= <- <-]; reflexivity.
Qed.
Lemma ko_vector_run u (ops : list (kop A)) : forall (s s' : sw) rs, srun (ko_step u) ops s = SVal (rs, s') -> srun (k_step true) ops (fst <$> s) = SVal (rs, fst <$> s').
Proof.
  induction ops as [|o ops IH]; intros s s' rs; cbn [srun]; [intros [= <- <-]; reflexivity|].
  destruct (ko_step u o s) as [[r s1]| |] eqn:E; [|discriminate|discriminate]. rewrite (ko_vector _ _ _ _ _ E).
  destruct (srun (ko_step u) ops s1) as [[rs1 s2]| |] eqn:E1; [|discriminate|discriminate]. rewrite (IH _ _ _ E1). intros [= <- <-]. reflexivity.
Qed.
End S.
Theorem stack_same {A} u (ops : list (kop A)) rs s : srun (ko_step u) ops ∅ = SVal (rs, s) ->
  exists w : world A, wrun true (arun st_step ops) world_init = Ok (rs, w) /\ forall id, contents w id = (fun p => rev (fst p)) <$> s !! id.
Proof.
  intros H. apply ko_vector_run in H. rewrite fmap_empty in H. pose proof (stack_history true ops) as V. rewrite H in V.
  destruct V as (w & R & C & _). exists w. split; [exact R|]. intros id. rewrite C, lookup_fmap. destruct (s !! id); reflexivity.
Qed.
Theorem stack_lists_granted {A} (junk : A) pol (ops : list (kop A)) : sound pol -> grants pol ->
  (forall rs s, srun (ko_step OnDList) ops ∅ = SVal (rs, s) -> exists w, mrun (kl_step (dl_step junk)) ops (lst_init pol) = Ok (rs, w) /\ nodes_allocated w = DequeSpec.elements_total s) /\
  (forall rs s, srun (ko_step OnSList) ops ∅ = SVal (rs, s) -> exists w, mrun (kl_step (sl_step junk)) ops (lst_init pol) = Ok (rs, w) /\ nodes_allocated w = DequeSpec.elements_total s).
Proof.
  intros Hs Hg. split; intros rs s E.
  - pose proof (stack_dlist_history junk pol ops Hs) as H. rewrite E in H. destruct H as [H|(_ & ops1 & ops2 & rs1 & s1 & _ & _ & Hr)]; [exact H|destruct (grants_refuses _ _ Hg Hr)].
  - pose proof (stack_slist_history junk pol ops Hs) as H. rewrite E in H. destruct H as [H|(_ & ops1 & ops2 & rs1 & s1 & _ & _ & Hr)]; [exact H|destruct (grants_refuses _ _ Hg Hr)].
Qed.
