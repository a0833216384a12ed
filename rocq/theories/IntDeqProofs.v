(** Random access into deques with machine integers. *)
From Verif Require Import Base VectorModel VectorSpec Adapter Hist ListModel DequeModel DequeSpec DequeIterModel DequeIterSpec DequeIterProofs ArithModel IntDeqModel IntDeqSpec.
Local Open Scope nat_scope.

Section Ints.
Context {A : Type} (N : nat) (eqb : A -> A -> bool).
Notation D := (M (dst A)).

Lemma bind_same {S X Y} (m m' : M S X) (k k' : X -> M S Y) s :
  m s = m' s -> (forall x t, k x t = k' x t) -> bind m k s = bind m' k' s.
Proof. intros Hm Hk. unfold bind. rewrite Hm. destruct (m' s) as [[x t]| | |]; auto. Qed.

Lemma steps_fwd n : forall (i : diter) (st : dst A), int_steps (S n) (it_next N) (Z.of_nat n) i st = it_add N n i st.
Proof.
  induction n as [|n IH]; intros i st; [reflexivity|].
  change (int_steps (S (S n)) (it_next N) (Z.of_nat (S n)) i) with
    (if (Z.of_nat (S n) =? 0)%Z then ret i else bind (it_next (A := A) N i) (fun i => int_steps (S n) (it_next N) (Z.of_nat (S n) - 1) i)).
  destruct (Z.eqb_spec (Z.of_nat (S n)) 0) as [E|_]; [lia|]. cbn [it_add].
  apply bind_same; [reflexivity|]. intros x t. replace (Z.of_nat (S n) - 1)%Z with (Z.of_nat n) by lia. apply IH.
Qed.
Lemma steps_bwd n : forall (i : diter) (st : dst A), int_steps (S n) (it_prev N) (Z.of_nat n) i st = it_sub N n i st.
Proof.
  induction n as [|n IH]; intros i st; [reflexivity|].
  change (int_steps (S (S n)) (it_prev N) (Z.of_nat (S n)) i) with
    (if (Z.of_nat (S n) =? 0)%Z then ret i else bind (it_prev (A := A) N i) (fun i => int_steps (S n) (it_prev N) (Z.of_nat (S n) - 1) i)).
  destruct (Z.eqb_spec (Z.of_nat (S n)) 0) as [E|_]; [lia|]. cbn [it_sub].
  apply bind_same; [reflexivity|]. intros x t. replace (Z.of_nat (S n) - 1)%Z with (Z.of_nat n) by lia. apply IH.
Qed.
Lemma fwd_ok (i : diter) z (st : dst A) : (0 <= z)%Z -> int_fwd N i z st = it_add N (Z.to_nat z) i st.
Proof. intros H. unfold int_fwd. rewrite <- steps_fwd, Z2Nat.id by exact H. reflexivity. Qed.
Lemma bwd_ok (i : diter) z (st : dst A) : (0 <= z)%Z -> int_bwd N i z st = it_sub N (Z.to_nat z) i st.
Proof. intros H. unfold int_bwd. rewrite <- steps_bwd, Z2Nat.id by exact H. reflexivity. Qed.
Lemma plus_ok (i : diter) z (st : dst A) : (INT_MIN < z <= INT_MAX)%Z -> int_plus N i z st = it_plus N i z st.
Proof.
  intros H. unfold int_plus, it_plus. destruct (Z.ltb_spec z 0); [|apply fwd_ok; lia].
  unfold int_neg. destruct (Z.eqb_spec z INT_MIN); [lia|]. rewrite bind_ret. apply bwd_ok. lia.
Qed.
Lemma minus_ok (i : diter) z (st : dst A) : (INT_MIN < z <= INT_MAX)%Z -> int_minus N i z st = it_minus N i z st.
Proof.
  intros H. unfold int_minus, it_minus. destruct (Z.ltb_spec z 0); [|apply bwd_ok; lia].
  unfold int_neg. destruct (Z.eqb_spec z INT_MIN); [lia|]. rewrite bind_ret. apply fwd_ok. lia.
Qed.
Lemma ref_ok id z (st : dst A) : (INT_MIN < z <= INT_MAX)%Z -> int_ref N id z st = dq_ref N id z st.
Proof.
  intros H. unfold int_ref, int_elem, dq_ref. rewrite bind_assoc. apply bind_same; [reflexivity|]. intros q t.
  apply bind_same; [|reflexivity]. destruct (z <? 0)%Z; apply plus_ok, H.
Qed.
Lemma at_ok id z (st : dst A) : (INT_MIN < z <= INT_MAX)%Z -> int_at N id z st = dq_at N id z st.
Proof.
  intros H. unfold int_at, int_elem, dq_at. rewrite bind_assoc. apply bind_same; [reflexivity|]. intros q t.
  destruct (z <? 0)%Z eqn:E; (apply bind_same; [|reflexivity]); rewrite plus_ok by exact H; unfold it_plus; rewrite E; reflexivity.
Qed.

Lemma on_deqs_same {X} (m m' : D X) w : m (fst w) = m' (fst w) -> on_deqs m w = on_deqs m' w.
Proof. intros H. unfold on_deqs. rewrite H. reflexivity. Qed.
Lemma on_deqs_bind {X Y} (m : D X) (k : X -> D Y) w : on_deqs (bind m k) w = bind (on_deqs m) (fun x => on_deqs (k x)) w.
Proof. unfold on_deqs, bind. destruct (m (fst w)) as [[x t]| | |]; reflexivity. Qed.

Lemma step_proper (o : jop A) w : proper o -> int_step N eqb o w = j_step N eqb o w.
Proof.
  intros H. destruct o as [o|k id|k id|k id z|k j|k|k|k j|k j|k j z|k j z|k|k j|k j|k b e a|b e]; try reflexivity.
  - destruct o as [| | | | | | | | | | | | | | |id z| | | |]; try reflexivity.
    cbn [int_step j_step dq_step]. rewrite on_deqs_bind. apply bind_same; [|intros x [t v]; reflexivity].
    apply on_deqs_same, at_ok, H. reflexivity.
  - cbn [int_step j_step]. apply bind_same; [|reflexivity]. apply on_deqs_same, ref_ok, H. reflexivity.
  - cbn [int_step j_step]. apply bind_same; [reflexivity|]. intros i t. apply bind_same; [|reflexivity].
    apply on_deqs_same, plus_ok, H. reflexivity.
  - cbn [int_step j_step]. apply bind_same; [reflexivity|]. intros i t. apply bind_same; [|reflexivity].
    apply on_deqs_same, minus_ok, H. reflexivity.
Qed.
Lemma run_proper (ops : list (jop A)) : Forall proper ops -> forall w, mrun (int_step N eqb) ops w = mrun (j_step N eqb) ops w.
Proof.
  induction 1 as [|o ops Ho _ IH]; intros w; [reflexivity|]. cbn [mrun].
  apply bind_same; [apply step_proper, Ho|]. intros r t. apply bind_same; [apply IH|reflexivity].
Qed.

Lemma min_ub (o : jop A) w : int_of o = Some INT_MIN -> int_step N eqb o w = UB.
Proof.
  assert (Hp : forall i (st : dst A), int_plus N i INT_MIN st = UB) by reflexivity.
  assert (Hm : forall i (st : dst A), int_minus N i INT_MIN st = UB) by reflexivity.
  assert (He : forall id (st : dst A), int_elem N id INT_MIN st = UB).
  { intros id st. unfold int_elem, bind, q_get. destruct (d_obj st !! id) as [q|]; reflexivity. }
  destruct o as [o|k id|k id|k id z|k j|k|k|k j|k j|k j z|k j z|k|k j|k j|k b e a|b e]; try discriminate.
  - destruct o as [| | | | | | | | | | | | | | |id z| | | |]; try discriminate. intros [= ->].
    cbn [int_step]. unfold int_at, on_deqs, bind. rewrite He. reflexivity.
  - intros [= ->]. cbn [int_step]. unfold int_ref, on_deqs, bind. rewrite He. reflexivity.
  - intros [= ->]. cbn [int_step]. unfold get_var, on_deqs, bind. destruct (snd w !! j) as [i|]; [|reflexivity]. rewrite Hp. reflexivity.
  - intros [= ->]. cbn [int_step]. unfold get_var, on_deqs, bind. destruct (snd w !! j) as [i|]; [|reflexivity]. rewrite Hm. reflexivity.
Qed.

Lemma int_history : 0 < N -> forall ops : list (jop A), Forall proper ops ->
  match srun (js_step eqb) ops jspec0 with
  | SVal (rs, s) => exists w, mrun (int_step N eqb) ops jworld0 = Ok (rs, w)
  | SAbort => mrun (int_step N eqb) ops jworld0 = Abort
  | SUnspec => True
  end.
Proof. intros HN ops H. rewrite (run_proper ops H). apply j_history, HN. Qed.

Lemma min_history : 0 < N -> forall (ops : list (jop A)) rs s o, Forall proper ops ->
  srun (js_step eqb) ops jspec0 = SVal (rs, s) -> int_of o = Some INT_MIN ->
  mrun (int_step N eqb) (ops ++ [o]) jworld0 = UB.
Proof.
  intros HN ops rs s o H E Ho. pose proof (int_history HN ops H) as Hh. rewrite E in Hh. destruct Hh as (w & Hw).
  rewrite (mrun_app _ _ _ _ _ _ Hw). cbn [mrun]. unfold bind. rewrite (min_ub o w Ho). reflexivity.
Qed.

(** What INT_MIN would mean in a deque with enough elements. *)
Lemma srun_app (ops : list (jop A)) o : forall s rs s1, srun (js_step eqb) ops s = SVal (rs, s1) ->
  srun (js_step eqb) (ops ++ [o]) s = match js_step eqb o s1 with SVal (r, s2) => SVal (rs ++ [r], s2) | SAbort => SAbort | SUnspec => SUnspec end.
Proof.
  induction ops as [|p ops IH]; intros s rs s1; cbn [srun app].
  - intros [= <- <-]. destruct (js_step eqb o s) as [[r s2]| |]; reflexivity.
  - destruct (js_step eqb p s) as [[r s2]| |]; try discriminate.
    destruct (srun (js_step eqb) ops s2) as [[rs2 s3]| |] eqn:E; try discriminate. intros [= <- <-].
    rewrite (IH _ _ _ E). destruct (js_step eqb o s3) as [[r' s4]| |]; reflexivity.
Qed.
Lemma min_meant (ops : list (jop A)) rs s id l r : srun (js_step eqb) ops jspec0 = SVal (rs, s) ->
  j_dqs s !! id = Some (l, r) -> (2 ^ 31 <= Z.of_nat (length l))%Z ->
  exists x s', l !! Z.to_nat (Z.of_nat (length l) - 2 ^ 31) = Some x /\
    srun (js_step eqb) (ops ++ [JDeq (DAt id INT_MIN)]) jspec0 = SVal (rs ++ [RVal x], s').
Proof.
  intros E El Hl.
  assert (Hi : is_Some (l !! Z.to_nat (Z.of_nat (length l) - 2 ^ 31))) by (apply lookup_lt_is_Some_2; lia).
  destruct Hi as (x & Hx). exists x. eexists. split; [exact Hx|]. rewrite (srun_app _ _ _ _ _ E).
  cbn [js_step ds_step]. unfold with_dq. rewrite El. cbv zeta.
  replace (INT_MIN <? 0)%Z with true by reflexivity. unfold INT_MIN.
  replace (Z.of_nat (length l) + - 2 ^ 31)%Z with (Z.of_nat (length l) - 2 ^ 31)%Z by lia.
  destruct (Z.ltb_spec (Z.of_nat (length l) - 2 ^ 31) 0) as [H|_]; [lia|]. rewrite Hx. cbn [some_or]. reflexivity.
Qed.
Lemma min_refuted : 0 < N -> forall (ops : list (jop A)) rs s id l r, Forall proper ops ->
  srun (js_step eqb) ops jspec0 = SVal (rs, s) -> j_dqs s !! id = Some (l, r) -> (2 ^ 31 <= Z.of_nat (length l))%Z ->
  (exists x s', l !! Z.to_nat (Z.of_nat (length l) - 2 ^ 31) = Some x /\
    srun (js_step eqb) (ops ++ [JDeq (DAt id INT_MIN)]) jspec0 = SVal (rs ++ [RVal x], s')) /\
  mrun (int_step N eqb) (ops ++ [JDeq (DAt id INT_MIN)]) jworld0 = UB.
Proof.
  intros HN ops rs s id l r H E El Hl. split; [eapply min_meant; eauto|eapply min_history; eauto].
Qed.

(** Such deques exist. *)
Lemma pushes_spec (l : list A) : forall c b, exists rs r, srun (js_step eqb) ((fun x => JDeq (DPushBack 0 x)) <$> l) (JSpec {[0 := (c, b)]} ∅) = SVal (rs, JSpec {[0 := (c ++ l, r)]} ∅).
Proof.
  induction l as [|x l IH]; intros c b; [rewrite app_nil_r; do 2 eexists; reflexivity|].
  cbn [fmap list_fmap srun js_step ds_step j_dqs j_its]. unfold with_dq. rewrite lookup_singleton, omap_empty.
  rewrite insert_singleton. destruct (IH (c ++ [x]) true) as (rs & r & ->).
  rewrite <- app_assoc. do 2 eexists. reflexivity.
Qed.
Lemma long_deque (l : list A) : exists rs s r, let ops := JDeq (DNew 0) :: ((fun x => JDeq (DPushBack 0 x)) <$> l) in
  Forall proper ops /\ srun (js_step eqb) ops jspec0 = SVal (rs, s) /\ j_dqs s !! 0 = Some (l, r).
Proof.
  destruct (pushes_spec l [] false) as (rs & r & E). exists (RUnit :: rs). exists (JSpec {[0 := (l, r)]} ∅). exists r.
  split; [constructor; [intros n; discriminate|]; apply Forall_fmap, Forall_true; intros x n; discriminate|].
  split; [|apply lookup_singleton]. cbn [srun js_step ds_step jspec0 j_dqs j_its]. unfold no_dq. rewrite lookup_empty, omap_empty.
  change (<[0 := ([], false)]> (∅ : gmap nat (list A * bool))) with ({[0 := ([], false)]} : gmap nat (list A * bool)). rewrite E. reflexivity.
Qed.
End Ints.
