(** Deques over an allocator that may refuse: they crash at the first refused
    request and otherwise do what DequeModel.v does. *)
From Verif Require Import Base VectorModel VectorSpec VecProg Adapter Hist DequeModel DequeSpec DequeProofs DequeHist DequeHist2
  QueueModel QueueSpec QueueProofs StackModel StackOtherModel StackOtherSpec StackOther VecFailModel DequeFailModel.
Local Open Scope nat_scope.

Section Fail.
Context {A : Type} (N : nat).
Notation D := (M (dst A)).
Notation F := (M (dst A * nat)).

(** [mf] makes the requests [c, c') if nothing is refused, and then does as [m];
    if one of them is refused, it crashes. *)
Definition frel {X} (mf : (nat -> bool) -> F X) (m : D X) : Prop := forall st c,
  match m st with
  | Ok (x, st') => exists c', c <= c' /\ forall fail,
      ((forall k, c <= k < c' -> fail k = false) -> mf fail (st, c) = Ok (x, (st', c'))) /\
      (forall k, c <= k < c' -> fail k = true -> mf fail (st, c) = Abort)
  | Abort => forall fail, mf fail (st, c) = Abort
  | UB => forall fail, mf fail (st, c) = UB \/ mf fail (st, c) = Abort
  | Diverge => forall fail, mf fail (st, c) = Diverge \/ mf fail (st, c) = Abort
  end.

Lemma first_refused (fail : nat -> bool) c c' : (forall k, c <= k < c' -> fail k = false) \/ exists k, c <= k < c' /\ fail k = true.
Proof.
  destruct (le_lt_dec c' c) as [H|H]; [left; intros; lia|].
  replace c' with (c + (c' - c)) by lia. generalize (c' - c) as d. clear.
  induction d as [|d [IH|(k & Hk & E)]].
  - left; intros; lia.
  - destruct (fail (c + d)) eqn:E; [right; exists (c + d); split; [lia|exact E]|left].
    intros k Hk. destruct (Nat.eq_dec k (c + d)) as [->|]; [exact E|apply IH; lia].
  - right. exists k. split; [lia|exact E].
Qed.

Lemma frel_lift {X} (m : D X) : frel (fun _ => fd_lift m) m.
Proof.
  intros st c. unfold fd_lift; cbn [fst snd]. destruct (m st) as [[x st']| | |]; [|intros; auto..].
  exists c. split; [lia|]. intros fail. split; [reflexivity|intros; lia].
Qed.
Lemma frel_ret {X} (x : X) : frel (fun _ => ret x) (ret x).
Proof. intros st c. exists c. split; [lia|]. intros fail. split; [reflexivity|intros; lia]. Qed.
Lemma frel_abort {X} : frel (fun _ => @abort _ X) abort. Proof. intros st c fail. reflexivity. Qed.
Lemma frel_diverge {X} : frel (fun _ => @diverge _ X) diverge. Proof. intros st c fail. left. reflexivity. Qed.
Lemma frel_assert b : frel (fun _ => dassert b) (dassert b).
Proof. destruct b; [apply frel_ret|apply frel_abort]. Qed.
Lemma frel_bind {X Y} (mf : (nat -> bool) -> F X) m (kf : (nat -> bool) -> X -> F Y) k :
  frel mf m -> (forall x, frel (fun fail => kf fail x) (k x)) -> frel (fun fail => bind (mf fail) (kf fail)) (bind m k).
Proof.
  intros Hm Hk st c. specialize (Hm st c). unfold bind. destruct (m st) as [[x st1]| | |].
  2: { intros fail. rewrite Hm. reflexivity. }
  2, 3: intros fail; destruct (Hm fail) as [->| ->]; auto.
  destruct Hm as (c1 & Hc1 & Hm). specialize (Hk x st1 c1). destruct (k x st1) as [[y st2]| | |].
  - destruct Hk as (c2 & Hc2 & Hk). exists c2. split; [lia|]. intros fail. destruct (Hm fail) as [M1 M2]. destruct (Hk fail) as [K1 K2]. split.
    + intros G. rewrite M1 by (intros; apply G; lia). apply K1. intros; apply G; lia.
    + intros n Hn E. destruct (first_refused fail c c1) as [G|(j & Hj & Ej)]; [|rewrite (M2 j Hj Ej); reflexivity].
      rewrite (M1 G). destruct (le_lt_dec c1 n); [apply (K2 n); [lia|exact E]|]. rewrite G in E by lia. discriminate.
  - intros fail. destruct (Hm fail) as [M1 M2].
    destruct (first_refused fail c c1) as [G|(j & Hj & Ej)]; [rewrite (M1 G); apply Hk|rewrite (M2 j Hj Ej); reflexivity].
  - intros fail. destruct (Hm fail) as [M1 M2].
    destruct (first_refused fail c c1) as [G|(j & Hj & Ej)]; [rewrite (M1 G); apply Hk|rewrite (M2 j Hj Ej); auto].
  - intros fail. destruct (Hm fail) as [M1 M2].
    destruct (first_refused fail c c1) as [G|(j & Hj & Ej)]; [rewrite (M1 G); apply Hk|rewrite (M2 j Hj Ej); auto].
Qed.
Lemma frel_for (bf : (nat -> bool) -> nat -> F unit) (b : nat -> D unit) n : (forall i, frel (fun fail => bf fail i) (b i)) ->
  forall s, frel (fun fail => for_range s n (bf fail)) (for_range s n b).
Proof.
  intros H. induction n as [|n IH]; intros s; cbn [for_range]; [apply frel_ret|].
  apply (frel_bind (fun fail => bf fail s) _ (fun fail _ => for_range (S s) n (bf fail))); [apply H|intros; apply IH].
Qed.

Lemma frel_new_arr : frel (fun fail => fd_new_arr N fail) (new_arr N).
Proof.
  intros st c. unfold new_arr. exists (S c). split; [lia|]. intros fail. unfold fd_new_arr, fd_request, bind. cbn [fst snd]. split.
  - intros G. rewrite (G c) by lia. reflexivity.
  - intros k Hk E. replace k with c in E by lia. rewrite E. reflexivity.
Qed.
Lemma frel_table n : frel (fun fail => @fd_table A fail n) (ret tt).
Proof.
  unfold fd_table. destruct (n =? 0); [apply frel_ret|]. intros st c. exists (S c). split; [lia|].
  intros fail. unfold fd_request, bind. cbn [fst snd]. split.
  - intros G. rewrite (G c) by lia. reflexivity.
  - intros k Hk E. replace k with c in E by lia. rewrite E. reflexivity.
Qed.

Ltac fb := first
  [ apply frel_lift | apply frel_ret | apply frel_abort | apply frel_diverge | apply frel_assert | apply frel_new_arr | apply frel_table
  | match goal with
    | |- frel (fun fail => bind (@?mf fail) (@?kf fail)) (bind ?m ?k) => apply (frel_bind mf m kf k); [|intros ?]
    | |- frel (fun fail => if ?b then _ else _) _ => destruct b
    end ].
Lemma frel_init id : frel (fun fail => fd_init N fail id) (dq_init N id).
Proof.
  unfold fd_init, dq_init. fb; [fb|]. fb; [fb|].
  change (frel (fun fail => fd_table fail 2 ;;; a0 <- fd_new_arr N fail ;; a1 <- fd_new_arr N fail ;; let it := It 1 (PAt a1 0) (Some id) in fd_lift (q_put id (DQ 0 (2 * N) [Some a0; Some a1] it it)))
    (ret tt ;;; a0 <- new_arr N ;; a1 <- new_arr N ;; let it := It 1 (PAt a1 0) (Some id) in q_put id (DQ 0 (2 * N) [Some a0; Some a1] it it))).
  repeat fb.
Qed.
Lemma frel_build id ns ne os old i : frel (fun fail => fd_resize_build N fail id ns ne os old i) (resize_build N id ns ne os old i).
Proof. unfold fd_resize_build, resize_build. repeat fb. Qed.
Lemma frel_resize id n : frel (fun fail => fd_resize N fail id n) (dq_resize N id n).
Proof.
  unfold fd_resize, dq_resize. fb; [fb|]. cbv zeta. destruct (_ && _); [fb|].
  match goal with |- frel (fun fail => fd_table fail ?a ;;; fd_table fail ?b ;;; @?r fail) ?m =>
    apply (frel_bind (fun fail => fd_table fail a) (ret tt) (fun fail _ => fd_table fail b ;;; r fail) (fun _ => m)); [fb|intros ?];
    apply (frel_bind (fun fail => fd_table fail b) (ret tt) (fun fail _ => r fail) (fun _ => m)); [fb|intros ?] end.
  fb; [fb|]. fb; [|fb]. apply (frel_for (fun fail => fd_resize_build N fail id _ _ _ _)). intros i. apply frel_build.
Qed.
Lemma frel_room_back id : frel (fun fail => fd_room_back N fail id) (room_back N id).
Proof. unfold fd_room_back, room_back. fb; [fb|]. destruct (_ =? 0); [fb; [fb|apply frel_init]|]. destruct (last _); [|fb]. repeat fb. apply frel_resize. Qed.
Lemma frel_room_front id : frel (fun fail => fd_room_front N fail id) (room_front N id).
Proof. unfold fd_room_front, room_front. fb; [fb|]. destruct (_ =? 0); [fb; [fb|apply frel_init]|]. repeat fb. apply frel_resize. Qed.
Lemma frel_push_back id a : frel (fun fail => fd_push_back N fail id a) (dq_push_back N id a).
Proof. unfold fd_push_back, dq_push_back. fb; [apply frel_room_back|]. repeat fb. Qed.
Lemma frel_push_front id a : frel (fun fail => fd_push_front N fail id a) (dq_push_front N id a).
Proof. unfold fd_push_front, dq_push_front. fb; [apply frel_room_front|]. repeat fb. Qed.
Lemma frel_shrink id : frel (fun fail => fd_shrink N fail id) (shrink N id).
Proof. unfold fd_shrink, shrink. fb; [fb|]. destruct (_ && _); [apply frel_resize|fb]. Qed.
Lemma frel_pop_back id : frel (fun fail => fd_pop_back N fail id) (dq_pop_back N id).
Proof. unfold fd_pop_back, dq_pop_back. repeat (fb || apply frel_shrink). Qed.
Lemma frel_pop_front id : frel (fun fail => fd_pop_front N fail id) (dq_pop_front N id).
Proof. unfold fd_pop_front, dq_pop_front. repeat (fb || apply frel_shrink). Qed.
Lemma frel_copy_loop id : forall fuel it e, frel (fun fail => fd_copy_loop N fail fuel id it e) (it_loop N fuel (fun _ a => dq_push_back N id a) it e tt).
Proof.
  induction fuel as [|f IH]; intros it e; cbn [fd_copy_loop it_loop]; destruct (eqp _ _); [fb|fb|fb|].
  fb; [fb|]. fb; [apply frel_push_back|]. destruct x0. fb; [fb|]. apply IH.
Qed.
Lemma frel_assign id src : frel (fun fail => fd_assign N fail id src) (dq_assign N id src).
Proof. unfold fd_assign, dq_assign, range_for. destruct (id =? src); [fb|]. repeat fb. apply frel_copy_loop. Qed.
Lemma frel_step o : frel (fun fail => fd_step N fail o) (dq_step N o).
Proof.
  destruct o; cbn [fd_step dq_step]; try apply frel_lift; unfold fd_unit, dq_unit.
  all: fb; [|fb].
  1: fb; [fb|].
  all: first [apply frel_assign|apply frel_push_back|apply frel_push_front|apply frel_pop_back|apply frel_pop_front].
Qed.
Lemma frel_run {O} (sf : (nat -> bool) -> O -> F (out A)) (s : O -> D (out A)) : (forall o, frel (fun fail => sf fail o) (s o)) ->
  forall ops, frel (fun fail => mrun (sf fail) ops) (mrun s ops).
Proof.
  intros H ops. induction ops as [|o ops IH]; cbn [mrun]; [fb|].
  apply (frel_bind (fun fail => sf fail o) (s o) (fun fail r => rs <- mrun (sf fail) ops ;; ret (r :: rs))); [apply H|intros r].
  fb; [exact IH|fb].
Qed.
Lemma frel_kstep o : frel (fun fail => fk_step N fail o) (kd_step N o).
Proof. destruct o; cbn [fk_step kd_step]; try apply frel_step. fb; apply frel_step. Qed.

(** ** Calls that make no request *)
Lemma q_put_inv id q (st : dst A) x st' : q_put id q st = Ok (x, st') -> d_obj st' !! id = Some q.
Proof. unfold q_put. destruct (d_obj st !! id); [|discriminate]. intros H. injection H as _ <-. cbn [d_obj]. apply lookup_insert. Qed.
Lemma resize_inv id n (st : dst A) q x st' : d_obj st !! id = Some q -> dq_resize N id n st = Ok (x, st') ->
  negb (q_cap q <? n) && (i_map (q_end q) - i_map (q_beg q) <=? n / N) = true \/ exists q', d_obj st' !! id = Some q' /\ q_cap q' = n.
Proof.
  intros Hq. unfold dq_resize. rewrite (bind_ok _ _ _ _ _ (q_get_ok _ _ _ Hq)). cbv zeta.
  destruct (negb (q_cap q <? n) && _) eqn:E; [left; reflexivity|]. intros H. right.
  apply bind_inv in H as (? & ? & _ & H). apply bind_inv in H as (? & ? & _ & H). apply bind_inv in H as (? & ? & _ & H).
  apply bind_inv in H as (? & ? & _ & H). apply bind_inv in H as (? & ? & _ & H). apply bind_inv in H as (? & ? & _ & H).
  apply bind_inv in H as (? & ? & _ & H). destruct (eqp _ _); [|eexists; split; [eapply q_put_inv; exact H|reflexivity]].
  apply bind_inv in H as (? & ? & _ & H). apply bind_inv in H as (? & ? & _ & H). apply bind_inv in H as (? & ? & _ & H).
  eexists; split; [eapply q_put_inv; exact H|reflexivity].
Qed.
Lemma lift_ok {X} (m : D X) st x st' c : m st = Ok (x, st') -> fd_lift m (st, c) = Ok (x, (st', c)).
Proof. intros H. unfold fd_lift. cbn [fst snd]. rewrite H. reflexivity. Qed.
Lemma resize_quiet fail id n (st : dst A) q x st' q' c : d_obj st !! id = Some q -> dq_resize N id n st = Ok (x, st') -> d_obj st' !! id = Some q' -> q_cap q' <> n ->
  fd_resize N fail id n (st, c) = Ok (x, (st', c)).
Proof.
  intros Hq R Hq' Hn. destruct (resize_inv _ _ _ _ _ _ Hq R) as [E|(q2 & H2 & E)]; [|rewrite H2 in Hq'; injection Hq' as <-; contradiction].
  unfold dq_resize in R. rewrite (bind_ok _ _ _ _ _ (q_get_ok _ _ _ Hq)) in R. cbv zeta in R. rewrite E in R. injection R as <- <-.
  unfold fd_resize. rewrite (bind_ok _ _ _ _ _ (lift_ok _ _ _ _ c (q_get_ok _ _ _ Hq))). cbv zeta. rewrite E. reflexivity.
Qed.
Lemma shrink_quiet fail id (st : dst A) q x st' q' c : d_obj st !! id = Some q -> shrink N id st = Ok (x, st') -> d_obj st' !! id = Some q' -> q_cap q' = q_cap q -> 0 < q_cap q ->
  fd_shrink N fail id (st, c) = Ok (x, (st', c)).
Proof.
  intros Hq R Hq' Hc H0. unfold shrink in R. rewrite (bind_ok _ _ _ _ _ (q_get_ok _ _ _ Hq)) in R.
  unfold fd_shrink. rewrite (bind_ok _ _ _ _ _ (lift_ok _ _ _ _ c (q_get_ok _ _ _ Hq))).
  destruct (_ && _).
  - eapply resize_quiet; [exact Hq|exact R|exact Hq'|]. rewrite Hc. pose proof (Nat.div_lt (q_cap q) 2). lia.
  - injection R as <- <-. reflexivity.
Qed.
(** Code that leaves all deque objects alone. *)
Definition objfix {X} (m : D X) : Prop := forall st x st', m st = Ok (x, st') -> d_obj st' = d_obj st.
Lemma objfix_bind {X Y} (m : D X) (k : X -> D Y) : objfix m -> (forall x, objfix (k x)) -> objfix (bind m k).
Proof. intros Hm Hk st y st' H. apply bind_inv in H as (x & st1 & H1 & H2). rewrite (Hk _ _ _ _ H2). exact (Hm _ _ _ H1). Qed.
Lemma objfix_ret {X} (x : X) : objfix (ret x). Proof. intros st y st' H. injection H as _ <-. reflexivity. Qed.
Lemma objfix_stop {X} (m : D X) : (forall st, match m st with Ok _ => False | _ => True end) -> objfix m.
Proof. intros H st y st' E. specialize (H st). rewrite E in H. destruct H. Qed.
Lemma objfix_get id : objfix (@q_get A id). Proof. intros st y st' H. unfold q_get in H. destruct (d_obj st !! id); [injection H as _ <-; reflexivity|discriminate]. Qed.
Lemma objfix_tab t i : objfix (@tab_at A t i). Proof. intros st y st' H. unfold tab_at in H. destruct (t !! i); [injection H as _ <-; reflexivity|discriminate]. Qed.
Lemma objfix_ld p : objfix (@cell_ld A p).
Proof. intros st y st' H. unfold cell_ld in H. destruct p; try discriminate. destruct (d_blk st !! b); [|discriminate]. destruct (l !! off) as [[]|]; [injection H as _ <-; reflexivity|discriminate..]. Qed.
Lemma objfix_st f p v : objfix (@cell_st A f p v).
Proof. intros st y st' H. unfold cell_st in H. destruct p; try discriminate. destruct (d_blk st !! b); [|discriminate]. destruct (_ <? _); [injection H as _ <-; reflexivity|discriminate]. Qed.
Lemma objfix_construct p (a : A) : objfix (cell_construct p a).
Proof.
  intros st y st' H. unfold cell_construct in H. destruct p; try discriminate. destruct (d_blk st !! b); [|discriminate].
  destruct (l !! off) as [[]|]; try discriminate. exact (objfix_st _ _ _ _ _ _ H).
Qed.
Ltac of := repeat first
  [ apply objfix_ret | apply objfix_get | apply objfix_tab | apply objfix_ld | apply objfix_st | apply objfix_construct
  | apply objfix_bind; [|intros ?] | apply objfix_stop; intros ?; exact I
  | match goal with |- objfix (if ?b then _ else _) => destruct b | |- objfix (match ?b with _ => _ end) => destruct b end ].
Lemma objfix_use {X} (m : D X) st x st' : objfix m -> m st = Ok (x, st') -> d_obj st' = d_obj st.
Proof. intros H. apply H. Qed.
Lemma objfix_destroy p : objfix (@cell_destroy A p). Proof. unfold cell_destroy. of. Qed.
Lemma objfix_next i : objfix (@it_next A N i). Proof. unfold it_next, cur_next, it_tab, arr_end, arr_begin. of. Qed.
Lemma objfix_prev i : objfix (@it_prev A N i). Proof. unfold it_prev, cur_prev, it_tab, arr_end, arr_begin, rd. of. Qed.

Lemma pop_back_quiet fail id (st : dst A) q x st' q' c : d_obj st !! id = Some q -> dq_pop_back N id st = Ok (x, st') -> d_obj st' !! id = Some q' -> q_cap q' = q_cap q -> 0 < q_cap q ->
  fd_pop_back N fail id (st, c) = Ok (x, (st', c)).
Proof.
  intros Hq R Hq' Hc H0. unfold dq_pop_back in R. rewrite (bind_ok _ _ _ _ _ (q_get_ok _ _ _ Hq)) in R.
  unfold fd_pop_back. rewrite (bind_ok _ _ _ _ _ (lift_ok _ _ _ _ c (q_get_ok _ _ _ Hq))).
  apply bind_inv in R as (e & st1 & R1 & R). rewrite (bind_ok _ _ _ _ _ (lift_ok _ _ _ _ c R1)).
  apply bind_inv in R as (? & st2 & R2 & R). rewrite (bind_ok _ _ _ _ _ (lift_ok _ _ _ _ c R2)).
  apply bind_inv in R as (? & st3 & R3 & R). rewrite (bind_ok _ _ _ _ _ (lift_ok _ _ _ _ c R3)).
  assert (Hq2 := q_put_inv _ _ _ _ _ R2). assert (E := objfix_destroy _ _ _ _ R3).
  eapply shrink_quiet; [rewrite E; exact Hq2|exact R|exact Hq'|exact Hc|exact H0].
Qed.
Lemma pop_front_quiet fail id (st : dst A) q x st' q' c : d_obj st !! id = Some q -> dq_pop_front N id st = Ok (x, st') -> d_obj st' !! id = Some q' -> q_cap q' = q_cap q -> 0 < q_cap q ->
  fd_pop_front N fail id (st, c) = Ok (x, (st', c)).
Proof.
  intros Hq R Hq' Hc H0. unfold dq_pop_front in R. rewrite (bind_ok _ _ _ _ _ (q_get_ok _ _ _ Hq)) in R.
  unfold fd_pop_front. rewrite (bind_ok _ _ _ _ _ (lift_ok _ _ _ _ c (q_get_ok _ _ _ Hq))).
  apply bind_inv in R as (? & st1 & R1 & R). rewrite (bind_ok _ _ _ _ _ (lift_ok _ _ _ _ c R1)).
  apply bind_inv in R as (b & st2 & R2 & R). rewrite (bind_ok _ _ _ _ _ (lift_ok _ _ _ _ c R2)).
  apply bind_inv in R as (? & st3 & R3 & R). rewrite (bind_ok _ _ _ _ _ (lift_ok _ _ _ _ c R3)).
  eapply shrink_quiet; [exact (q_put_inv _ _ _ _ _ R3)|exact R|exact Hq'|exact Hc|exact H0].
Qed.
(** A push that leaves the capacity as it is. *)
Lemma room_back_quiet fail id (st : dst A) q x st' q' c : 0 < N -> d_obj st !! id = Some q -> room_back N id st = Ok (x, st') -> d_obj st' !! id = Some q' -> q_cap q' = q_cap q ->
  fd_room_back N fail id (st, c) = Ok (x, (st', c)).
Proof.
  intros HN Hq R Hq' Hc. unfold room_back in R. rewrite (bind_ok _ _ _ _ _ (q_get_ok _ _ _ Hq)) in R.
  unfold fd_room_back. rewrite (bind_ok _ _ _ _ _ (lift_ok _ _ _ _ c (q_get_ok _ _ _ Hq))).
  destruct (Nat.eqb_spec (q_cap q) 0) as [H0|H0].
  - exfalso. apply bind_inv in R as (? & st1 & _ & R). unfold dq_init in R. do 4 (apply bind_inv in R as (? & ? & _ & R)).
    cbv zeta in R. apply q_put_inv in R. rewrite R in Hq'. injection Hq' as <-. cbn [q_cap] in Hc. lia.
  - destruct (last (q_tab q)); [|discriminate].
    apply bind_inv in R as (ae & st1 & R1 & R). rewrite (bind_ok _ _ _ _ _ (lift_ok _ _ _ _ c R1)).
    apply bind_inv in R as (ec & st2 & R2 & R). rewrite (bind_ok _ _ _ _ _ (lift_ok _ _ _ _ c R2)).
    assert (E1 : d_obj st1 = d_obj st) by (apply (objfix_use (arr_end N o) _ _ _ ltac:(unfold arr_end; of) R1)).
    assert (E2 : d_obj st2 = d_obj st1) by (apply (objfix_use (rd (i_cur (q_end q))) _ _ _ ltac:(unfold rd; of) R2)).
    destruct (eqp ec ae); [|injection R as <- <-; reflexivity].
    eapply resize_quiet; [rewrite E2, E1; exact Hq|exact R|exact Hq'|lia].
Qed.
Lemma room_front_quiet fail id (st : dst A) q x st' q' c : 0 < N -> d_obj st !! id = Some q -> room_front N id st = Ok (x, st') -> d_obj st' !! id = Some q' -> q_cap q' = q_cap q ->
  fd_room_front N fail id (st, c) = Ok (x, (st', c)).
Proof.
  intros HN Hq R Hq' Hc. unfold room_front in R. rewrite (bind_ok _ _ _ _ _ (q_get_ok _ _ _ Hq)) in R.
  unfold fd_room_front. rewrite (bind_ok _ _ _ _ _ (lift_ok _ _ _ _ c (q_get_ok _ _ _ Hq))).
  destruct (Nat.eqb_spec (q_cap q) 0) as [H0|H0].
  - exfalso. apply bind_inv in R as (? & st1 & _ & R). unfold dq_init in R. do 4 (apply bind_inv in R as (? & ? & _ & R)).
    cbv zeta in R. apply q_put_inv in R. rewrite R in Hq'. injection Hq' as <-. cbn [q_cap] in Hc. lia.
  - apply bind_inv in R as (p & st0 & R0 & R). rewrite (bind_ok _ _ _ _ _ (lift_ok _ _ _ _ c R0)).
    apply bind_inv in R as (ae & st1 & R1 & R). rewrite (bind_ok _ _ _ _ _ (lift_ok _ _ _ _ c R1)).
    apply bind_inv in R as (ec & st2 & R2 & R). rewrite (bind_ok _ _ _ _ _ (lift_ok _ _ _ _ c R2)).
    assert (E0 := objfix_tab _ _ _ _ _ R0).
    assert (E1 : d_obj st1 = d_obj st0) by (apply (objfix_use (arr_begin p) _ _ _ ltac:(unfold arr_begin; of) R1)).
    assert (E2 : d_obj st2 = d_obj st1) by (apply (objfix_use (rd (i_cur (q_beg q))) _ _ _ ltac:(unfold rd; of) R2)).
    destruct (eqp ec ae); [|injection R as <- <-; reflexivity].
    eapply resize_quiet; [rewrite E2, E1, E0; exact Hq|exact R|exact Hq'|lia].
Qed.
Lemma q_get_inv id (st : dst A) q st' : q_get id st = Ok (q, st') -> d_obj st !! id = Some q /\ st' = st.
Proof. unfold q_get. destruct (d_obj st !! id); [|discriminate]. intros H. injection H as -> ->. auto. Qed.
Lemma push_back_quiet fail id a (st : dst A) q x st' q' c : 0 < N -> d_obj st !! id = Some q -> dq_push_back N id a st = Ok (x, st') -> d_obj st' !! id = Some q' -> q_cap q' = q_cap q ->
  fd_push_back N fail id a (st, c) = Ok (x, (st', c)).
Proof.
  intros HN Hq R Hq' Hc. unfold dq_push_back in R. apply bind_inv in R as (? & st1 & R1 & R). apply bind_inv in R as (q1 & st2 & R2 & R). destruct (q_get_inv _ _ _ _ R2) as [Hq1 ->].
  apply bind_inv in R as (? & st3 & R3 & R). apply bind_inv in R as (e & st4 & R4 & R).
  assert (E := q_put_inv _ _ _ _ _ R). rewrite Hq' in E. injection E as ->. cbn [q_cap] in Hc.
  unfold fd_push_back. rewrite (bind_ok _ _ _ _ _ (room_back_quiet fail _ _ _ _ _ _ c HN Hq R1 Hq1 Hc)).
  rewrite (bind_ok _ _ _ _ _ (lift_ok _ _ _ _ c R2)), (bind_ok _ _ _ _ _ (lift_ok _ _ _ _ c R3)), (bind_ok _ _ _ _ _ (lift_ok _ _ _ _ c R4)).
  apply lift_ok. exact R.
Qed.
Lemma push_front_quiet fail id a (st : dst A) q x st' q' c : 0 < N -> d_obj st !! id = Some q -> dq_push_front N id a st = Ok (x, st') -> d_obj st' !! id = Some q' -> q_cap q' = q_cap q ->
  fd_push_front N fail id a (st, c) = Ok (x, (st', c)).
Proof.
  intros HN Hq R Hq' Hc. unfold dq_push_front in R. apply bind_inv in R as (? & st1 & R1 & R). apply bind_inv in R as (q1 & st2 & R2 & R). destruct (q_get_inv _ _ _ _ R2) as [Hq1 ->].
  apply bind_inv in R as (? & st3 & R3 & R). apply bind_inv in R as (e & st4 & R4 & R).
  assert (E := q_put_inv _ _ _ _ _ R). rewrite Hq' in E. injection E as ->. cbn [q_cap] in Hc.
  unfold fd_push_front. rewrite (bind_ok _ _ _ _ _ (room_front_quiet fail _ _ _ _ _ _ c HN Hq R1 Hq1 Hc)).
  rewrite (bind_ok _ _ _ _ _ (lift_ok _ _ _ _ c R2)), (bind_ok _ _ _ _ _ (lift_ok _ _ _ _ c R3)), (bind_ok _ _ _ _ _ (lift_ok _ _ _ _ c R4)).
  apply lift_ok. exact R.
Qed.
Lemma unit_quiet (mf : F unit) (m : D unit) st st' r c : (forall x, m st = Ok (x, st') -> mf (st, c) = Ok (x, (st', c))) ->
  dq_unit m st = Ok (r, st') -> fd_unit mf (st, c) = Ok (r, (st', c)).
Proof. intros H R. unfold dq_unit in R. apply bind_inv in R as (x & st1 & R1 & R). injection R as <- ->. unfold fd_unit. rewrite (bind_ok _ _ _ _ _ (H _ R1)). reflexivity. Qed.

(** Calls other than pushing and copying. *)
Definition calm (o : dop A) : Prop :=
  match o with DPushBack _ _ | DPushFront _ _ | DPush _ _ | DCopyNew _ _ | DAssign _ _ => False | _ => True end.
Context (HN : 0 < N).
Lemma calm_step fail (o : dop A) s st r s' st' c : winv N s st -> ds_step o s = SVal (r, s') -> dq_step N o st = Ok (r, st') -> calm o ->
  fd_step N fail o (st, c) = Ok (r, (st', c)).
Proof.
  intros Hw Hs R Ho. pose proof (winv_keys _ _ _ Hw) as Hk.
  assert (Hpf : forall id, with_dq s id (fun l b => match l with [] => SUnspec | _ :: t => SVal (RUnit, <[id := (t, b)]> s) end) = SVal (r, s') ->
    dq_unit (dq_pop_front N id) st = Ok (r, st') -> fd_unit (fd_pop_front N fail id) (st, c) = Ok (r, (st', c))).
  { intros id Hw1 R1. unfold with_dq in Hw1. destruct (s !! id) as [[[|y l] b]|] eqn:E; try discriminate.
    destruct (winv_get _ _ _ _ _ _ Hw E) as (q & t & Hq & Hd).
    destruct (pop_front_ok N HN st id y l b q t Hq Hd Hk) as (st1 & q1 & P & O1 & -> & D1 & _).
    eapply unit_quiet; [|exact R1]. intros x P1. rewrite P in P1. injection P1 as <- <-.
    eapply (pop_front_quiet fail id st q tt st1 q1); [exact Hq|exact P|rewrite O1; apply lookup_insert| |].
    - rewrite (dqok_cap _ _ _ _ _ _ _ D1), (dqok_cap _ _ _ _ _ _ _ Hd). reflexivity.
    - rewrite (dqok_cap _ _ _ _ _ _ _ Hd). destruct Hd as (p & _ & _ & _ & _ & HB & _). nia. }
  destruct o; try destruct Ho; try (apply lift_ok; exact R); cbn [dq_step fd_step ds_step] in *.
  - unfold with_dq in Hs. destruct (s !! id) as [[l b]|] eqn:E; try discriminate.
    destruct l as [|y l _] using rev_ind; [discriminate|].
    destruct (winv_get _ _ _ _ _ _ Hw E) as (q & t & Hq & Hd).
    destruct (pop_back_ok N HN st id y l b q t Hq Hd Hk) as (st1 & q1 & P & O1 & -> & D1 & _).
    eapply unit_quiet; [|exact R]. intros x P1. rewrite P in P1. injection P1 as <- <-.
    eapply (pop_back_quiet fail id st q tt st1 q1); [exact Hq|exact P|rewrite O1; apply lookup_insert| |].
    + rewrite (dqok_cap _ _ _ _ _ _ _ D1), (dqok_cap _ _ _ _ _ _ _ Hd). reflexivity.
    + rewrite (dqok_cap _ _ _ _ _ _ _ Hd). destruct Hd as (p & _ & _ & _ & _ & HB & _). nia.
  - apply Hpf; assumption.
  - apply Hpf; assumption.
Qed.
Lemma push_step fail (o : dop A) id x st r st' q q' c : o = DPushBack id x \/ o = DPushFront id x \/ o = DPush id x ->
  dq_step N o st = Ok (r, st') -> d_obj st !! id = Some q -> d_obj st' !! id = Some q' -> q_cap q' = q_cap q -> fd_step N fail o (st, c) = Ok (r, (st', c)).
Proof.
  intros Ho R Hq Hq' Hc. destruct Ho as [->|[->| ->]]; cbn [dq_step fd_step] in *; (eapply unit_quiet; [|exact R]); intros y P.
  - eapply push_back_quiet; eassumption.
  - eapply push_front_quiet; eassumption.
  - eapply push_back_quiet; eassumption.
Qed.

(** ** Histories *)
Lemma frel_first {X} (mf : (nat -> bool) -> F X) m x st : frel mf m -> m dst_init = Ok (x, st) -> exists n, forall fail,
  ((forall k, k < n -> fail k = false) -> mf fail fd_start = Ok (x, (st, n))) /\
  (forall k, k < n -> fail k = true -> mf fail fd_start = Abort).
Proof.
  intros H E. specialize (H dst_init 0). rewrite E in H. destruct H as (n & _ & H). exists n. intros fail. destruct (H fail) as [H1 H2]. split.
  - intros G. apply H1. intros k Hk. apply G. lia.
  - intros k Hk G. apply (H2 k); [lia|exact G].
Qed.
Theorem deque_fail (ops : list (dop A)) : match srun ds_step ops ∅ with
  | SVal (rs, s) => exists w n, blocks_allocated w * N = capacity_total w /\ elements_live w = elements_total s /\ forall fail,
      ((forall k, k < n -> fail k = false) -> mrun (fd_step N fail) ops fd_start = Ok (rs, (w, n))) /\
      (forall k, k < n -> fail k = true -> mrun (fd_step N fail) ops fd_start = Abort)
  | SAbort => forall fail, mrun (fd_step N fail) ops fd_start = Abort
  | SUnspec => True end.
Proof.
  pose proof (deque_history N HN ops) as H. pose proof (frel_run (fd_step N) (dq_step N) frel_step ops) as Hf.
  destruct (srun ds_step ops ∅) as [[rs s]| |]; [|intros fail; specialize (Hf dst_init 0); rewrite H in Hf; apply Hf|exact I].
  destruct H as (w & R & S1 & S2). destruct (frel_first _ _ _ _ Hf R) as (n & Hn). exists w, n. auto.
Qed.
Theorem queue_fail (ops : list (qop A)) : match srun (qs_step true) ops ∅ with
  | SVal (rs, s) => exists w n, blocks_allocated w * N = capacity_total w /\ elements_live w = elements_total s /\ forall fail,
      ((forall k, k < n -> fail k = false) -> mrun (fq_step N fail) ops fd_start = Ok (rs, (w, n))) /\
      (forall k, k < n -> fail k = true -> mrun (fq_step N fail) ops fd_start = Abort)
  | SAbort => forall fail, mrun (fq_step N fail) ops fd_start = Abort
  | SUnspec => True end.
Proof.
  pose proof (queue_deque_history N ops HN) as H. pose proof (frel_run (fq_step N) (qd_step N) (fun o => frel_step (q_to_deque o)) ops) as Hf.
  destruct (srun (qs_step true) ops ∅) as [[rs s]| |]; [|intros fail; specialize (Hf dst_init 0); rewrite H in Hf; apply Hf|exact I].
  destruct H as (w & R & S1 & S2). destruct (frel_first _ _ _ _ Hf R) as (n & Hn). exists w, n. auto.
Qed.
Theorem stack_fail (ops : list (kop A)) : match srun (ko_step OnDeque) ops ∅ with
  | SVal (rs, s) => exists w n, blocks_allocated w * N = capacity_total w /\ elements_live w = elements_total s /\ forall fail,
      ((forall k, k < n -> fail k = false) -> mrun (fk_step N fail) ops fd_start = Ok (rs, (w, n))) /\
      (forall k, k < n -> fail k = true -> mrun (fk_step N fail) ops fd_start = Abort)
  | SAbort => forall fail, mrun (fk_step N fail) ops fd_start = Abort
  | SUnspec => True end.
Proof.
  pose proof (stack_deque_history N ops HN) as H. pose proof (frel_run (fk_step N) (kd_step N) frel_kstep ops) as Hf.
  destruct (srun (ko_step OnDeque) ops ∅) as [[rs s]| |]; [|intros fail; specialize (Hf dst_init 0); rewrite H in Hf; apply Hf|exact I].
  destruct H as (w & R & S1 & S2). destruct (frel_first _ _ _ _ Hf R) as (n & Hn). exists w, n. auto.
Qed.

(** Outside the specification too, a refusal is a crash and nothing else changes. *)
Theorem deque_fail_any fail (ops : list (dop A)) :
  mrun (fd_step N fail) ops fd_start = Abort \/
  match mrun (dq_step N) ops dst_init with
  | Ok (rs, w) => exists n, mrun (fd_step N fail) ops fd_start = Ok (rs, (w, n))
  | Abort => False
  | UB => mrun (fd_step N fail) ops fd_start = UB
  | Diverge => mrun (fd_step N fail) ops fd_start = Diverge
  end.
Proof.
  pose proof (frel_run (fd_step N) (dq_step N) frel_step ops dst_init 0) as Hf. change (dst_init, 0) with (@fd_start A) in Hf.
  destruct (mrun (dq_step N) ops dst_init) as [[rs w]| | |].
  - destruct Hf as (n & _ & Hf). destruct (Hf fail) as [H1 H2]. destruct (first_refused fail 0 n) as [G|(k & Hk & G)]; [right; exists n; auto|left; eauto].
  - left. apply Hf.
  - destruct (Hf fail); auto.
  - destruct (Hf fail); auto.
Qed.

Lemma fail_reached fail (ops : list (dop A)) rs s w n : srun ds_step ops ∅ = SVal (rs, s) ->
  mrun (fd_step N fail) ops fd_start = Ok (rs, (w, n)) -> winv N s w /\ mrun (dq_step N) ops dst_init = Ok (rs, w).
Proof.
  intros Hs R. pose proof (mrun_agree (dq_step N) ds_step (winv N) (dq_step_ok N HN) ops ∅ dst_init (winv_empty N)) as H. rewrite Hs in H. destruct H as (w1 & R1 & Hw).
  assert (w1 = w) as ->; [|auto]. pose proof (frel_run (fd_step N) (dq_step N) frel_step ops) as Hf. destruct (frel_first _ _ _ _ Hf R1) as (n1 & Hn).
  destruct (Hn fail) as [H1 H2]. destruct (first_refused fail 0 n1) as [G|(k & Hk & G)].
  - rewrite H1 in R; [injection R as -> _; reflexivity|intros; apply G; lia].
  - rewrite (H2 k) in R; [discriminate|lia|exact G].
Qed.
Theorem calm_history fail (ops : list (dop A)) o rs r s s' w n : srun ds_step ops ∅ = SVal (rs, s) -> ds_step o s = SVal (r, s') -> calm o ->
  mrun (fd_step N fail) ops fd_start = Ok (rs, (w, n)) ->
  exists w', fd_step N fail o (w, n) = Ok (r, (w', n)).
Proof.
  intros Hs Ho Hc R. destruct (fail_reached _ _ _ _ _ _ Hs R) as [Hw _]. pose proof (dq_step_ok N HN o s w Hw) as H. rewrite Ho in H. destruct H as (w' & R1 & _).
  exists w'. eapply calm_step; eassumption.
Qed.
Theorem push_history fail (ops : list (dop A)) id x o rs s l b w n c w2 : srun ds_step ops ∅ = SVal (rs, s) -> s !! id = Some (l, b) ->
  o = DPushBack id x \/ o = DPushFront id x \/ o = DPush id x ->
  mrun (dq_step N) (ops ++ [DCapacity id; o; DCapacity id]) dst_init = Ok (rs ++ [RNat c; RUnit; RNat c], w2) ->
  mrun (fd_step N fail) ops fd_start = Ok (rs, (w, n)) ->
  exists w', fd_step N fail o (w, n) = Ok (RUnit, (w', n)).
Proof.
  intros Hs E Ho Rc R. destruct (fail_reached _ _ _ _ _ _ Hs R) as [Hw R0]. destruct (winv_get _ _ _ _ _ _ Hw E) as (q & t & Hq & Hd).
  rewrite (mrun_app _ _ _ _ _ _ R0) in Rc. rewrite (mrun_cons _ _ _ _ _ _ (cap_step N _ _ _ Hq)) in Rc.
  pose proof (dq_step_ok N HN o s w Hw) as H. assert (Es : exists l', ds_step o s = SVal (RUnit, <[id := (l', true)]> s)).
  { destruct Ho as [->|[->| ->]]; cbn [ds_step]; unfold with_dq; rewrite E; eauto. }
  destruct Es as (l' & Es). rewrite Es in H. destruct H as (w' & R1 & Hw'). rewrite (mrun_cons _ _ _ _ _ _ R1) in Rc.
  destruct (winv_get _ _ _ _ _ _ Hw' (lookup_insert _ _ _)) as (q' & t' & Hq' & _). rewrite (mrun_cons _ _ _ _ _ _ (cap_step N _ _ _ Hq')) in Rc. cbn [mrun ret] in Rc.
  injection Rc as Rc _. apply app_inv_head in Rc. injection Rc as E1 E2.
  exists w'. eapply (push_step fail o id x w RUnit w' q q'); [exact Ho|exact R1|exact Hq|exact Hq'|congruence].
Qed.
End Fail.

(** ** The map table's vector when its request is refused *)
Section Table.
Context {A : Type} (triv : bool) (fail : nat -> bool).
Lemma table_fill n (a : A) v m : 0 < n -> fail (m_next m) = true ->
  (v = v_empty \/ 0 < v_size v /\ v_size v <= n /\ exists p, load (v_ptr v) 0 m = Ok (p, m)) -> f_resize_fill triv fail n (AVal a) v m = Abort.
Proof.
  intros Hn Hf Hv. unfold f_resize_fill. destruct (Nat.eqb_spec n 0); [lia|]. unfold f_alloc at 1, bind at 1. rewrite Hf.
  destruct Hv as [->|(H0 & Hle & p & Hp)].
  - cbn [v_ptr v_size v_empty]. rewrite Nat.sub_0_r. destruct n as [|n]; [lia|]. reflexivity.
  - destruct (v_ptr v) as [b|] eqn:Eb; [|discriminate]. destruct (v_size v) as [|k]; [lia|]. cbn [for_range].
    destruct (Nat.ltb_spec 0 n); [|lia]. unfold load in Hp |- *. unfold bind; cbn [m_blocks].
    destruct (m_blocks m !! b) as [cs|]; [|discriminate]. destruct (cs !! 0) as [[]|]; try discriminate. reflexivity.
Qed.
Lemma table_copy v (m : mem A) : 0 < v_size v -> 0 < v_cap v -> fail (m_next m) = true -> f_copy_assign triv fail v_empty v m = Abort.
Proof.
  intros H0 Hc Hf. unfold f_copy_assign, v_clear, f_resize. cbn [v_ptr v_empty]. destruct (Nat.eqb_spec (v_cap v) 0); [lia|].
  unfold f_alloc, bind. cbn [ret v_ptr v_size v_cap]. rewrite Hf. cbn. destruct (v_size v); [lia|]. reflexivity.
Qed.
End Table.
