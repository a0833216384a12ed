(** Calls with a reference to an element follow their specification. *)
From Coq Require Import Sorted.
From Verif Require Import Base Alloc AllocProofs VectorModel VectorSpec Adapter Hist.
From Verif Require Import TreeModel TreeSpec TreeBase TreeSets TreeIns TreeZip TreeDel TreeTag TreeObj TreeAlloc TreeWorld TreeWSpec TreeHist.
From Verif Require Import ListIterSpec ListIterProofs TreeIterModel TreeIterSpec TreeIterProofs TreeRefModel TreeRefSpec.
Open Scope Z_scope.

Section Ref.
Context {A : Type} (cmp : A -> A -> bool).
Implicit Types (s : tst A) (x : A) (p q : option nat).
Notation T := (M (tst A)).

(** Node [a] has value [x]. *)
Definition has (a : nat) x s : Prop := exists n, t_heap s !! a = Some n /\ n_val n = x.
Lemma has_ld a x s : has a x s -> ld_val (Some a) s = Ok (x, s).
Proof. intros (n & Hn & <-). destruct s. apply ld_val_ok. exact Hn. Qed.

(** Computations after which it still has. *)
Definition keeps {X} (m : T X) : Prop := forall a x s y s', has a x s -> m s = Ok (y, s') -> has a x s'.
Lemma keeps_bind {X Y} (m : T X) (k : X -> T Y) : keeps m -> (forall y, keeps (k y)) -> keeps (bind m k).
Proof.
  intros Hm Hk a x s y s' H E. unfold bind in E. destruct (m s) as [[z s1]| | |] eqn:E1; try discriminate. eapply Hk; [|exact E]. eapply Hm; eassumption.
Qed.
Lemma keeps_same {X} (m : T X) : (forall s y s', m s = Ok (y, s') -> s' = s) -> keeps m.
Proof. intros Hm a x s y s' H E. apply Hm in E as ->. exact H. Qed.
Lemma keeps_heap {X} (m : T X) : (forall s y s', m s = Ok (y, s') -> t_heap s' = t_heap s) -> keeps m.
Proof. intros Hm a x s y s' H E. unfold has. rewrite (Hm _ _ _ E). exact H. Qed.
Lemma keeps_ret {X} (y : X) : keeps (ret y).
Proof. apply keeps_same. intros s z s' [= _ <-]. reflexivity. Qed.
Lemma keeps_when b (m : T unit) : keeps m -> keeps (when b m).
Proof. intros Hm. destruct b; [exact Hm|apply keeps_ret]. Qed.
Lemma keeps_if {X} (b : bool) (m m' : T X) : keeps m -> keeps m' -> keeps (if b then m else m').
Proof. destruct b; auto. Qed.
Lemma ldn_same p s (n : node A) s' : ldn p s = Ok (n, s') -> s' = s.
Proof. unfold ldn. destruct p as [a|]; [|discriminate]. destruct (t_heap s !! a); [|discriminate]. intros [= _ <-]. reflexivity. Qed.
Lemma keeps_ldn p : keeps (ldn p : T (node A)).
Proof. apply keeps_same. intros s y s'. apply ldn_same. Qed.
Lemma keeps_ld {X} p (g : node A -> X) : keeps (n <- ldn p ;; ret (g n)).
Proof. apply keeps_bind; [apply keeps_ldn|intros; apply keeps_ret]. Qed.
Lemma keeps_st p (g : node A -> node A) : (forall n, n_val (g n) = n_val n) -> keeps (n <- ldn p ;; stn p (g n)).
Proof.
  intros Hg a x s y s' (n & Hn & Hx) E. unfold bind, ldn, stn in E. destruct p as [b|]; [|discriminate]. destruct (t_heap s !! b) as [m|] eqn:Em; [|discriminate]. rewrite Em in E.
  injection E as _ <-. unfold has. cbn [t_heap]. destruct (decide (b = a)) as [->|Hne].
  - rewrite lookup_insert. rewrite Em in Hn. injection Hn as ->. exists (g n). split; [reflexivity|]. rewrite Hg. exact Hx.
  - rewrite lookup_insert_ne by exact Hne. eauto.
Qed.
Lemma keeps_stpar p q : keeps (st_par p q : T unit). Proof. apply (keeps_st p (fun n => Nd q (n_left n) (n_right n) (n_h n) (n_val n))). reflexivity. Qed.
Lemma keeps_stleft p q : keeps (st_left p q : T unit). Proof. apply (keeps_st p (fun n => Nd (n_par n) q (n_right n) (n_h n) (n_val n))). reflexivity. Qed.
Lemma keeps_stright p q : keeps (st_right p q : T unit). Proof. apply (keeps_st p (fun n => Nd (n_par n) (n_left n) q (n_h n) (n_val n))). reflexivity. Qed.
Lemma keeps_sth p h : keeps (st_h p h : T unit). Proof. apply (keeps_st p (fun n => Nd (n_par n) (n_left n) (n_right n) h (n_val n))). reflexivity. Qed.
Lemma keeps_root p : keeps (update_root p : T unit).
Proof. apply keeps_bind; [apply keeps_heap; intros s y s' [= _ <-]; reflexivity|]. intros []. apply keeps_when, keeps_stpar. Qed.

Ltac keeps := repeat (first
  [ apply keeps_stpar | apply keeps_stleft | apply keeps_stright | apply keeps_sth | apply keeps_root | apply keeps_ret
  | apply keeps_ld | apply keeps_when | apply keeps_if | apply keeps_bind; [|intro] ]).
Lemma keeps_avlh p : keeps (avl_h p : T Z). Proof. unfold avl_h. keeps. Qed.
Lemma keeps_update p : keeps (avl_update_height p : T unit).
Proof. unfold avl_update_height. keeps; apply keeps_avlh. Qed.
Lemma keeps_left p : keeps (avl_left_rotate p : T _).
Proof. unfold avl_left_rotate, left_rotate. keeps; apply keeps_avlh. Qed.
Lemma keeps_right p : keeps (avl_right_rotate p : T _).
Proof. unfold avl_right_rotate, right_rotate. keeps; apply keeps_avlh. Qed.
Lemma keeps_swap p q : keeps (avl_swap_node p q : T _).
Proof. unfold avl_swap_node. keeps. Qed.
Lemma down_same f : forall p s q s', down_left f p s = Ok (q, s') -> s' = s.
Proof.
  induction f as [|f IH]; intros p s q s' E; [discriminate|]. cbn [down_left] in E. unfold bind, ld_left, bind in E. destruct (ldn p s) as [[n s1]| | |] eqn:E1; try discriminate.
  apply ldn_same in E1 as ->. cbn [ret] in E. destruct (is_null _); [injection E as _ <-; reflexivity|]. eapply IH. exact E.
Qed.
Lemma keeps_first p : keeps (first_node p InOrder : T _).
Proof.
  cbn [first_node]. apply keeps_bind; [apply keeps_same; intros s y s' [= _ <-]; reflexivity|]. intros f. apply keeps_same. intros s y s'. apply down_same.
Qed.

Lemma bcong {X Y} (m : T X) (k k' : X -> T Y) s : (forall y s', m s = Ok (y, s') -> k y s' = k' y s') -> bind m k s = bind m k' s.
Proof. intros H. unfold bind. destruct (m s) as [[y s']| | |]; auto. Qed.
Lemma ld_same {X} p (g : node A -> X) s y s' : (n <- ldn p ;; ret (g n)) s = Ok (y, s') -> s' = s.
Proof. unfold bind. destruct (ldn p s) as [[n s1]| | |] eqn:E; try discriminate. intros [= _ <-]. apply ldn_same in E. exact E. Qed.
(** Loads come first. *)
Ltac ldstep := apply bcong; let y := fresh "y" in let s' := fresh "s'" in let E := fresh "E" in intros y s' E; pose proof (ld_same _ _ _ _ _ E); subst s'.

(** _delete with the value and with the reference. *)
Lemma delete_at_eq a x f : forall root s, has a x s -> avl_delete_at cmp f root (Some a) s = avl_delete cmp f root x s.
Proof.
  induction f as [|f IH]; intros root s H; [reflexivity|]. cbn [avl_delete_at avl_delete].
  rewrite (bind_ok _ _ _ _ _ (has_ld _ _ _ H)). apply bcong. intros v s' Ev. pose proof (ld_same _ _ _ _ _ Ev). subst s'.
  destruct (cmp x v).
  - ldstep. unfold bind. rewrite IH by exact H. reflexivity.
  - rewrite (bind_ok _ _ _ _ _ Ev), (bind_ok _ _ _ _ _ (has_ld _ _ _ H)). destruct (cmp v x).
    + ldstep. unfold bind. rewrite IH by exact H. reflexivity.
    + ldstep. ldstep. destruct (_ && _); [|reflexivity]. apply bcong. intros t s1 E1. pose proof (keeps_first _ _ _ _ _ _ H E1) as H1.
      apply bcong. intros ab s2 E2. pose proof (keeps_swap _ _ _ _ _ _ _ H1 E2) as H2. cbv zeta. apply bcong. intros r s3 E3. pose proof (ld_same _ _ _ _ _ E3). subst s3.
      unfold bind. rewrite IH by exact H2. reflexivity.
Qed.
Lemma pop_at_eq a x s : has a x s -> avl_pop_at cmp (Some a) s = avl_pop cmp x s.
Proof.
  intros H. unfold avl_pop_at, avl_pop. apply bcong. intros n s' [= _ <-]. destruct (n =? 0); [reflexivity|]. apply bcong. intros r s' [= _ <-]. apply bcong. intros f s' [= _ <-].
  unfold bind. rewrite (delete_at_eq _ _ _ _ _ H). reflexivity.
Qed.

(** _insert. *)
Definition fresh s : Prop := forall b, al_pick (t_al s) = Some b -> t_heap s !! b = None.
Lemma insert_keeps a x y f : forall root parent s q s', fresh s -> has a x s -> avl_insert cmp f root y parent s = Ok (q, s') -> has a x s'.
Proof.
  induction f as [|f IH]; intros root parent s q s' Hf H E; [discriminate|]. cbn [avl_insert] in E. unfold bind at 1 in E.
  match type of E with match ?m with _ => _ end = _ => destruct m as [[r s1]| | |] eqn:E1; try discriminate end.
  assert (has a x s1) as H1; [clear E|eapply keeps_bind; [apply keeps_update|intros; apply keeps_ret|exact H1|exact E]].
  destruct (is_null root).
  - unfold bind at 1 in E1. unfold new_node in E1. destruct (al_pick (t_al s)) as [b|] eqn:Eb; [|discriminate]. eapply keeps_bind; [apply keeps_stpar|intros; apply keeps_ret| |exact E1].
    destruct H as (n & Hn & Hx). exists n. cbn [t_heap]. rewrite lookup_insert_ne; [auto|]. intros ->. rewrite (Hf _ Eb) in Hn. discriminate.
  - unfold bind at 1 in E1. destruct (ld_val root s) as [[v s2]| | |] eqn:Ev; try discriminate. pose proof (ld_same _ _ _ _ _ Ev). subst s2.
    assert (Hrec : forall (m : T (option nat)) (k : option nat -> T (option nat)) g, (forall q, keeps (k q)) -> m = (l <- (n <- ldn root ;; ret (g n)) ;; l' <- avl_insert cmp f l y root ;; k l') -> m s = Ok (r, s1) -> has a x s1).
    { intros m k g Hk -> Em. unfold bind at 1 in Em. destruct ((n <- ldn root ;; ret (g n)) s) as [[l s2]| | |] eqn:El; try discriminate. pose proof (ld_same _ _ _ _ _ El). subst s2.
      unfold bind at 1 in Em. destruct (avl_insert cmp f l y root s) as [[l' s2]| | |] eqn:El'; try discriminate. eapply Hk; [|exact Em]. eapply IH; eassumption. }
    destruct (cmp y v); [eapply Hrec; [|reflexivity|exact E1]|destruct (cmp v y); [eapply Hrec; [|reflexivity|exact E1]|discriminate]];
      intros q'; cbv beta; keeps; first [apply keeps_avlh|apply keeps_left|apply keeps_right].
Qed.
Lemma insert_at_eq a x f : forall root parent s, fresh s -> has a x s -> avl_insert_at cmp f root (Some a) parent s = avl_insert cmp f root x parent s.
Proof.
  induction f as [|f IH]; intros root parent s Hf H; [reflexivity|]. cbn [avl_insert_at avl_insert].
  match goal with |- bind ?m _ _ = bind ?m' _ _ => assert (m s = m' s) as Em; [|unfold bind at 1; rewrite Em; reflexivity] end.
  destruct (is_null root); [rewrite (bind_ok _ _ _ _ _ (has_ld _ _ _ H)); reflexivity|].
  rewrite (bind_ok _ _ _ _ _ (has_ld _ _ _ H)). apply bcong. intros v s' Ev. pose proof (ld_same _ _ _ _ _ Ev). subst s'. destruct (cmp x v).
  - ldstep. unfold bind at 1. rewrite IH by assumption. apply bcong. intros l' s1 El'. pose proof (insert_keeps _ _ _ _ _ _ _ _ _ Hf H El') as H1.
    apply bcong. intros [] s2 E2. pose proof (keeps_stleft _ _ _ _ _ _ _ H1 E2) as H2. ldstep. apply bcong. intros hl s3 E3. pose proof (keeps_avlh _ _ _ _ _ _ H2 E3) as H3.
    ldstep. apply bcong. intros hr s4 E4. pose proof (keeps_avlh _ _ _ _ _ _ H3 E4) as H4. destruct (hl - hr =? 2); [|reflexivity]. ldstep. ldstep.
    rewrite (bind_ok _ _ _ _ _ (has_ld _ _ _ H4)). reflexivity.
  - rewrite (bind_ok _ _ _ _ _ Ev), (bind_ok _ _ _ _ _ (has_ld _ _ _ H)). destruct (cmp v x); [|reflexivity].
    ldstep. unfold bind at 1. rewrite IH by assumption. apply bcong. intros l' s1 El'. pose proof (insert_keeps _ _ _ _ _ _ _ _ _ Hf H El') as H1.
    apply bcong. intros [] s2 E2. pose proof (keeps_stright _ _ _ _ _ _ _ H1 E2) as H2. ldstep. apply bcong. intros hl s3 E3. pose proof (keeps_avlh _ _ _ _ _ _ H2 E3) as H3.
    ldstep. apply bcong. intros hr s4 E4. pose proof (keeps_avlh _ _ _ _ _ _ H3 E4) as H4. destruct (hl - hr =? 2); [|reflexivity].
    rewrite (bind_ok _ _ _ _ _ (has_ld _ _ _ H4)). reflexivity.
Qed.
Lemma push_at_eq a x s : fresh s -> has a x s -> avl_push_at cmp (Some a) s = avl_push cmp x s.
Proof.
  intros Hf H. unfold avl_push_at, avl_push. apply bcong. intros r s' [= _ <-]. apply bcong. intros f s' [= _ <-]. unfold bind at 1. rewrite (insert_at_eq _ _ _ _ _ _ Hf H). reflexivity.
Qed.
End Ref.

Section Hist.
Context {A : Type} (cmp : A -> A -> bool) (Hc : swo cmp) (pol : policy).
Implicit Types (w : kworld A) (x : A).
Notation kR := (kR cmp pol).
Notation F := (fun s : kspec (A := A) => refuses pol (total (strip (k_sets s)))).

Lemma on_at_eq {X} (m m' : M (tst A) X) id w : (forall r n, m (TSt (tw_heap (fst w)) (tw_al (fst w)) r n) = m' (TSt (tw_heap (fst w)) (tw_al (fst w)) r n)) ->
  on_trees (on id m) w = on_trees (on id m') w.
Proof. intros H. unfold on_trees, on. destruct (tw_objs (fst w) !! id) as [[r n]|]; [|reflexivity]. rewrite H. reflexivity. Qed.
Lemma value_node (s : kspec (A := A)) w k x : kR s w -> value_at s k = Some x -> exists a, get_kt k w = Ok (Some a, w) /\ on_trees (on_nodes (ldn (Some a))) w = Ok (default (Nd None None None 0 x) (tw_heap (fst w) !! a), w) /\
  (forall r n, has a x (TSt (tw_heap (fst w)) (tw_al (fst w)) r n)) /\ forall r n, fresh (TSt (tw_heap (fst w)) (tw_al (fst w)) r n).
Proof.
  intros (f & H) E. unfold value_at in E. destruct (k_its s !! k) as [[m|]|] eqn:Ek; try discriminate. destruct (where_is m (k_sets s)) as [[id [[us y] vs]]|] eqn:Ew; [|discriminate]. injection E as ->.
  destruct (kR_at cmp pol _ _ _ _ _ _ _ _ H Ew) as (T & t & C & l & hh & r & H1 & _ & Ht & W & Et & _). pose proof (wf_linked _ _ _ _ W) as Hl. rewrite Et in Hl.
  destruct (linked_lookup _ _ _ _ _ _ _ _ Hl) as (nn & Hn & Hv & _). exists (f m). split; [exact (get_kt_ok cmp pol _ _ _ _ _ H Ek)|]. split.
  - rewrite Hn. cbn [default]. apply on_nodes_same. cbn zeta. unfold ldn. cbn [t_heap]. rewrite Hn. reflexivity.
  - split; intros r0 n0; [exists nn; auto|]. intros b Hb. exact (alok_new _ _ _ (rt_al _ _ _ _ H1) Hb).
Qed.
Lemma push_by_copy s w id k x : kR s w -> value_at s k = Some x -> x_step cmp (XPushAt id k) w = kt_step cmp (KTree (TPush id x)) w.
Proof.
  intros H E. destruct (value_node _ _ _ _ H E) as (a & R1 & R2 & Hh & Hf). cbn [x_step]. rewrite (bind_ok _ _ _ _ _ R1), (bind_ok _ _ _ _ _ R2).
  unfold bind at 1. rewrite (on_at_eq _ (avl_push cmp x)) by (intros r n; apply push_at_eq; auto).
  cbn [kt_step t_step]. unfold on_trees, bind. destruct (on id (avl_push cmp x) (fst w)) as [[[] w']| | |]; reflexivity.
Qed.
Lemma pop_by_copy s w id k x : kR s w -> value_at s k = Some x -> x_step cmp (XPopAt id k) w = kt_step cmp (KTree (TPop id x)) w.
Proof.
  intros H E. destruct (value_node _ _ _ _ H E) as (a & R1 & R2 & Hh & Hf). cbn [x_step]. rewrite (bind_ok _ _ _ _ _ R1), (bind_ok _ _ _ _ _ R2).
  unfold bind at 1. rewrite (on_at_eq _ (avl_pop cmp x)) by (intros r n; apply pop_at_eq; auto).
  cbn [kt_step t_step]. unfold on_trees, bind. destruct (on id (avl_pop cmp x) (fst w)) as [[[] w']| | |]; reflexivity.
Qed.
Lemma copy_step o s w o' : kR s w -> by_copy o s = Some o' -> x_step cmp o w = kt_step cmp o' w.
Proof.
  intros H E. destruct o as [o|id k|id k]; cbn [by_copy] in E; [injection E as <-; reflexivity|..]; destruct (value_at s k) as [x|] eqn:Ev; try discriminate; injection E as <-.
  - eapply push_by_copy; eassumption.
  - eapply pop_by_copy; eassumption.
Qed.
Lemma x_step_or o s w : kR s w -> magree_or kR F (xs_step cmp o s) (x_step cmp o w).
Proof.
  intros H. unfold xs_step. destruct (by_copy o s) as [o'|] eqn:E; [|exact I]. rewrite (copy_step _ _ _ _ H E). apply kt_step_or; assumption.
Qed.
Lemma x_run ops : sound pol ->
  match srun (xs_step cmp) ops kspec0 with
  | SVal (rs, s) => (exists w, mrun (x_step cmp) ops (tw_init pol, ∅) = Ok (rs, w) /\ kR s w) \/
      (mrun (x_step cmp) ops (tw_init pol, ∅) = Abort /\
       exists ops1 ops2 rs1 s1, ops = ops1 ++ ops2 /\ srun (xs_step cmp) ops1 kspec0 = SVal (rs1, s1) /\ F s1)
  | SAbort => mrun (x_step cmp) ops (tw_init pol, ∅) = Abort
  | SUnspec => True
  end.
Proof. intros Hs. exact (mrun_agree_or (x_step cmp) (xs_step cmp) kR F x_step_or ops kspec0 (tw_init pol, ∅) (kR_init cmp pol Hs)). Qed.

(** The elements around the one an iterator is at. *)
Lemma asc_ren f (ps : list (nat * A)) : ascending (by_val cmp) (renl f ps) -> ascending (by_val cmp) ps.
Proof.
  unfold ascending. induction ps as [|[n x] ps IH]; intros H; [constructor|]. rewrite renl_cons in H. apply StronglySorted_inv in H as [H1 H2]. constructor; [auto|].
  unfold renl in H2. rewrite List.Forall_map in H2. exact H2.
Qed.
Lemma own_asc s w n id us x vs : kR s w -> where_is n (k_sets s) = Some (id, (us, x, vs)) -> forall m,
  lookup_set (by_val cmp) (m, x) (us ++ (n, x) :: vs) = Some (n, x) /\ remove_set (by_val cmp) (m, x) (us ++ (n, x) :: vs) = us ++ vs.
Proof.
  intros (f & H) Ew m. destruct (kR_at cmp pol _ _ _ _ _ _ _ _ H Ew) as (T & t & C & l & hh & r & _ & _ & _ & W & _ & _ & Ep).
  pose proof (pairs_asc cmp _ (wf_asc _ _ _ _ W)) as Hpa. rewrite Ep in Hpa. rewrite <- renl_cons, <- renl_app in Hpa. apply (asc_ren f) in Hpa. pose proof (tcmp_swo cmp Hc) as Hct.
  assert (He : equiv (by_val cmp) (m, x) (n, x)) by (apply (equiv_refl cmp Hc)).
  split; [apply (lookup_eq _ Hct _ _ _ Hpa); exact He|apply (remove_eq _ Hct _ _ _ Hpa); exact He].
Qed.
End Hist.

Theorem x_history_or : forall (A : Type) (cmp : A -> A -> bool), swo cmp -> forall pol, sound pol -> forall ops : list (xop A),
  match srun (xs_step cmp) ops kspec0 with
  | SVal (rs, _) => (exists w, mrun (x_step cmp) ops (tw_init pol, ∅) = Ok (rs, w)) \/
      (mrun (x_step cmp) ops (tw_init pol, ∅) = Abort /\
       exists ops1 ops2 rs1 s1, ops = ops1 ++ ops2 /\ srun (xs_step cmp) ops1 kspec0 = SVal (rs1, s1) /\ refuses pol (total (strip (k_sets s1))))
  | SAbort => mrun (x_step cmp) ops (tw_init pol, ∅) = Abort
  | SUnspec => True
  end.
Proof.
  intros A cmp Hc pol Hs ops. pose proof (x_run cmp Hc pol ops Hs) as H. destruct (srun _ ops kspec0) as [[rs s]| |]; [|exact H|exact I].
  destruct H as [(w & R & _)|H]; eauto.
Qed.
Theorem x_history : forall (A : Type) (cmp : A -> A -> bool), swo cmp -> forall pol, sound pol -> grants pol -> forall ops : list (xop A),
  match srun (xs_step cmp) ops kspec0 with
  | SVal (rs, _) => exists w, mrun (x_step cmp) ops (tw_init pol, ∅) = Ok (rs, w)
  | SAbort => mrun (x_step cmp) ops (tw_init pol, ∅) = Abort
  | SUnspec => True
  end.
Proof.
  intros A cmp Hc pol Hs Hg ops. pose proof (x_history_or A cmp Hc pol Hs ops) as H. destruct (srun _ ops kspec0) as [[rs s]| |]; [|exact H|exact I].
  destruct H as [H|(_ & ops1 & ops2 & rs1 & s1 & _ & _ & Hr)]; [exact H|]. destruct (grants_refuses _ _ Hg Hr).
Qed.
(** The call with the reference and the call with a copy, from the same state. *)
Theorem x_copy : forall (A : Type) (cmp : A -> A -> bool), swo cmp -> forall pol, sound pol -> forall (ops : list (xop A)) rs s w k x id,
  srun (xs_step cmp) ops kspec0 = SVal (rs, s) -> mrun (x_step cmp) ops (tw_init pol, ∅) = Ok (rs, w) -> value_at s k = Some x ->
  x_step cmp (XPushAt id k) w = x_step cmp (XK (KTree (TPush id x))) w /\ x_step cmp (XPopAt id k) w = x_step cmp (XK (KTree (TPop id x))) w.
Proof.
  intros A cmp Hc pol Hs ops rs s w k x id E R Hv. pose proof (x_run cmp Hc pol ops Hs) as H. rewrite E in H. destruct H as [(w' & R' & HR)|(R' & _)]; [|congruence].
  rewrite R in R'. injection R' as <-. split; [eapply push_by_copy; eassumption|eapply pop_by_copy; eassumption].
Qed.
(** Into and from the tree that holds the element. *)
Theorem x_own : forall (A : Type) (cmp : A -> A -> bool), swo cmp -> forall (ops : list (xop A)) rs s k n id us x vs,
  srun (xs_step cmp) ops kspec0 = SVal (rs, s) -> k_its s !! k = Some (Some n) -> where_is n (k_sets s) = Some (id, (us, x, vs)) ->
  xs_step cmp (XPushAt id k) s = SAbort /\
  xs_step cmp (XPopAt id k) s = SVal (OUnit, KSpec (<[id := us ++ vs]> (k_sets s)) (k_next s) (k_its s)).
Proof.
  intros A cmp Hc ops rs s k n id us x vs E Hk Hw. pose proof (x_run cmp Hc bump ops bump_sound) as H. rewrite E in H.
  destruct H as [(w & _ & HR)|(_ & ops1 & ops2 & rs1 & s1 & _ & _ & Hr)]; [|destruct (grants_refuses _ _ bump_grants Hr)].
  destruct (own_asc cmp Hc bump _ _ _ _ _ _ _ HR Hw (k_next s)) as [Hl Hrm]. pose proof (where_is_some _ _ _ _ _ _ Hw) as Hs.
  assert (Hv : value_at s k = Some x) by (unfold value_at; rewrite Hk, Hw; reflexivity).
  unfold xs_step, by_copy. rewrite Hv. cbn [fmap option_fmap option_map ks_step]. unfold trees_step. cbn [top_map ts_step]. unfold with_set. rewrite Hs, Hl. split; [reflexivity|].
  destruct us as [|p us]; cbn [app] in *; rewrite ?Hl, Hrm; reflexivity.
Qed.
