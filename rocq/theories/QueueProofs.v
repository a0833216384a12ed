(** Histories of queue calls are first in, first out. *)
From Verif Require Import Base Alloc AllocProofs VectorModel VectorSpec Adapter Hist ListModel ListSpec ListProofs ListHist ListHist2 DequeModel DequeSpec QueueModel QueueSpec DequeHist DequeHist2.

Section Q.
Context {A : Type}.
Notation sw := (gmap nat (list A * bool)).

Lemma qs_deque (o : qop A) (s : sw) : match qs_step true o s with SUnspec => True | r => ds_step (q_to_deque o) s = r end.
Proof.
  destruct o; cbn [q_to_deque ds_step qs_step]; unfold with_dq, no_dq, some_or, undefined_or_assert; cbn [andb].
  - destruct (s !! id) as [[l b]|]; exact I || reflexivity || (destruct (last l); exact I || reflexivity) || (destruct (_ <? 0)%Z; [|destruct (l !! _)]; exact I || reflexivity) || (destruct l; exact I || reflexivity).
  - destruct (s !! id); [exact I|]. destruct (s !! src) as [[l [|]]|]; exact I || reflexivity.
  - destruct (s !! id); [exact I|]. destruct (s !! src) as [[l b]|]; exact I.
  - destruct (s !! id) as [[l0 b0]|]; [|exact I]. destruct (s !! src) as [[l [|]]|]; [| |exact I]; destruct (id =? src); exact I || reflexivity.
  - destruct (s !! id) as [[l0 b0]|]; [|exact I]. destruct (s !! src) as [[l b]|]; [|exact I]. destruct (id =? src); exact I || reflexivity.
  - destruct (s !! id) as [[l b]|]; exact I || reflexivity || (destruct (last l); exact I || reflexivity) || (destruct (_ <? 0)%Z; [|destruct (l !! _)]; exact I || reflexivity) || (destruct l; exact I || reflexivity).
  - destruct (s !! id) as [[l b]|]; exact I || reflexivity || (destruct (last l); exact I || reflexivity) || (destruct (_ <? 0)%Z; [|destruct (l !! _)]; exact I || reflexivity) || (destruct l; exact I || reflexivity).
  - destruct (s !! id) as [[l b]|]; exact I || reflexivity || (destruct (last l); exact I || reflexivity) || (destruct (_ <? 0)%Z; [|destruct (l !! _)]; exact I || reflexivity) || (destruct l; exact I || reflexivity).
  - destruct (s !! id) as [[[|a l] b]|]; exact I || reflexivity.
  - destruct (s !! id) as [[l b]|]; exact I || reflexivity || (destruct (last l); exact I || reflexivity) || (destruct (_ <? 0)%Z; [|destruct (l !! _)]; exact I || reflexivity) || (destruct l; exact I || reflexivity).
  - destruct (s !! id) as [[l b]|]; exact I || reflexivity || (destruct (last l); exact I || reflexivity) || (destruct (_ <? 0)%Z; [|destruct (l !! _)]; exact I || reflexivity) || (destruct l; exact I || reflexivity).
  - destruct (s !! id) as [[l b]|]; exact I || reflexivity || (destruct (last l); exact I || reflexivity) || (destruct (_ <? 0)%Z; [|destruct (l !! _)]; exact I || reflexivity) || (destruct l; exact I || reflexivity).
  - destruct (s !! id) as [[[|a l] b]|]; exact I || reflexivity.
  - destruct (s !! id) as [[l [|]]|]; exact I || reflexivity.
Qed.

Theorem queue_deque_history N (ops : list (qop A)) : 0 < N ->
  match srun (qs_step true) ops ∅ with
  | SVal (rs, s) => exists w, mrun (qd_step N) ops dst_init = Ok (rs, w) /\ blocks_allocated w * N = capacity_total w /\ elements_live w = elements_total s
  | SAbort => mrun (qd_step N) ops dst_init = Abort
  | SUnspec => True end.
Proof.
  intros HN. assert (Hstep : forall (o : qop A) (s : sw) w, winv N s w -> magree (winv N) (qs_step true o s) (qd_step N o w)).
  { intros o s w Hw. pose proof (dq_step_ok N HN (q_to_deque o) s w Hw) as H. pose proof (qs_deque o s) as E.
    destruct (qs_step true o s); [rewrite E in H; exact H|rewrite E in H; exact H|exact I]. }
  pose proof (mrun_agree (qd_step N) (qs_step true) (winv N) Hstep ops ∅ dst_init (winv_empty N)) as H.
  unfold magree in H. destruct (srun (qs_step true) ops ∅) as [[rs s]| |]; [|exact H|exact I]. destruct H as (w & R & Hw). exists w. split; [exact R|]. split; [eapply storage_exact; eassumption|eapply elements_exact; eassumption].
Qed.

Lemma q_total (s : sw) : ListSpec.elements_total (fst <$> s) = elements_total s.
Proof.
  unfold ListSpec.elements_total, elements_total. rewrite map_to_list_fmap. induction (map_to_list s) as [|[i [l b]] m IH]; [reflexivity|].
  cbn [fmap list_fmap mbind list_bind sum_list_with prod_map snd fst]. rewrite app_length, IH. reflexivity.
Qed.
Notation qF pol := (fun s : sw => refuses pol (ListSpec.elements_total (fst <$> s))).
Lemma qs_list (junk : A) pol (o : qop A) (s : sw) w : dlR pol (fst <$> s) w ->
  magree_or (fun s w => dlR pol (fst <$> s) w) (qF pol) (qs_step false o s) (ql_step junk o w).
Proof.
  intros Hw. destruct o; cbn [ql_step];
    try match goal with |- magree_or _ _ _ (dl_step _ ?o' _) => pose proof (dl_step_or junk pol o' _ _ Hw) as H; cbn [ls_step] in H end;
    cbn [qs_step]; unfold with_list, no_list, undefined_or_assert in *; cbn [andb negb].
  all: try rewrite !lookup_fmap in H.
  - destruct (s !! id) as [[l b]|]; [exact I|]. cbn [fmap option_fmap option_map] in H. unfold magree_or in *. rewrite fmap_insert. exact H.
  - destruct (s !! id) as [[l b]|]; [exact I|]. destruct (s !! src) as [[l b]|]; [|exact I]. cbn [fmap option_fmap option_map fst] in H. unfold magree_or in *. rewrite fmap_insert. exact H.
  - destruct (s !! id) as [[l b]|]; [exact I|]. destruct (s !! src) as [[[|x l] b]|]; [exact I| |exact I]. cbn [fmap option_fmap option_map fst] in H. unfold magree_or in *. rewrite !fmap_insert. exact H.
  - destruct (s !! id) as [[l0 b0]|]; [|exact I]. destruct (s !! src) as [[l b]|]; [|exact I]. cbn [fmap option_fmap option_map fst] in H. unfold magree_or in *. destruct (id =? src); rewrite ?fmap_insert; exact H.
  - destruct (s !! id) as [[l0 b0]|]; [|exact I]. destruct (s !! src) as [[l b]|]; [|exact I]. cbn [fmap option_fmap option_map fst] in H. unfold magree_or in *.
    destruct (id =? src); [exact H|]. destruct l; [exact I|]. rewrite !fmap_insert. exact H.
  - destruct (s !! id) as [[l b]|]; [|exact I]. cbn [fmap option_fmap option_map fst] in H. unfold magree_or in *. rewrite fmap_delete. exact H.
  - destruct (s !! id) as [[l b]|]; [|exact I]. cbn [fmap option_fmap option_map fst] in H. unfold magree_or in *. rewrite fmap_insert. exact H.
  - destruct (s !! id) as [[[|x l] b]|]; [| |exact I]; cbn [fmap option_fmap option_map fst] in H; unfold magree_or in *; rewrite ?fmap_insert; exact H.
  - destruct (s !! id) as [[[|x l] b]|]; [exact I| |exact I]; cbn [fmap option_fmap option_map fst] in H; exact H.
  - destruct (s !! id) as [[l b]|]; [|exact I]; cbn [fmap option_fmap option_map fst] in H. destruct (last l); exact H.
  - destruct (s !! id) as [[l b]|]; exact I.
  - destruct (s !! id) as [[l b]|]; [|exact I]; exact H.
  - destruct (s !! id) as [[l b]|]; [|exact I]; exact H.
  - destruct (s !! id) as [[l b]|]; [|exact I]; exact H.
Qed.

Theorem queue_list_history_or (junk : A) pol (ops : list (qop A)) : sound pol ->
  match srun (qs_step false) ops ∅ with
  | SVal (rs, s) => (exists w, mrun (ql_step junk) ops (lst_init pol) = Ok (rs, w) /\ nodes_allocated w = elements_total s) \/
      (mrun (ql_step junk) ops (lst_init pol) = Abort /\
       exists ops1 ops2 rs1 s1, ops = ops1 ++ ops2 /\ srun (qs_step false) ops1 ∅ = SVal (rs1, s1) /\ refuses pol (elements_total s1))
  | SAbort => mrun (ql_step junk) ops (lst_init pol) = Abort
  | SUnspec => True end.
Proof.
  intros Hs.
  pose proof (mrun_agree_or (ql_step junk) (qs_step false) (fun s w => dlR pol (fst <$> s) w) (qF pol) (fun o s w => qs_list junk pol o s w) ops ∅ (lst_init pol)) as H.
  assert (H0 : dlR pol (fst <$> (∅ : sw)) (@lst_init A pol)) by (rewrite fmap_empty; apply dlR_init; exact Hs). specialize (H H0).
  destruct (srun (qs_step false) ops ∅) as [[rs s]| |]; [|exact H|exact I].
  destruct H as [(w & R & lay & El & Hi & _)|H]; [left; exists w|right; setoid_rewrite q_total in H; exact H]. split; [exact R|].
  rewrite <- q_total, El. eapply nodes_exact. exact Hi.
Qed.
Theorem queue_list_history (junk : A) pol (ops : list (qop A)) : sound pol -> grants pol ->
  match srun (qs_step false) ops ∅ with
  | SVal (rs, s) => exists w, mrun (ql_step junk) ops (lst_init pol) = Ok (rs, w) /\ nodes_allocated w = elements_total s
  | SAbort => mrun (ql_step junk) ops (lst_init pol) = Abort
  | SUnspec => True end.
Proof.
  intros Hs Hg. pose proof (queue_list_history_or junk pol ops Hs) as H.
  destruct (srun (qs_step false) ops ∅) as [[rs s]| |]; [|exact H|exact I].
  destruct H as [H|(_ & ops1 & ops2 & rs1 & s1 & _ & _ & Hr)]; [exact H|]. destruct (grants_refuses _ _ Hg Hr).
Qed.
End Q.
