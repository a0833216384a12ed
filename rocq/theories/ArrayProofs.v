(** Proofs about Array. *)
From Verif Require Import Base VectorModel VectorSpec VectorWorld Adapter LRun ArrayModel ArraySpec.

Section Proofs.
Context {A : Type} (N : nat) (junk : A) (mvd : A -> A).

(** The storage holds the sequence, plus the unused cell when N = 0. *)
Definition stores (m l : list A) : Prop := length l = N /\ exists x, m = l ++ x.

Lemma ar_load_nat (m : list A) i a : m !! i = Some a -> ar_load m (Z.of_nat i) = Ok a.
Proof. intros H. unfold ar_load. destruct (Z.ltb_spec (Z.of_nat i) 0); [lia|]. rewrite Nat2Z.id, H. reflexivity. Qed.
Lemma ar_store_nat (m : list A) i a : i < length m -> ar_store m (Z.of_nat i) a = Ok (<[i := a]> m).
Proof.
  intros H. unfold ar_store. destruct (Z.ltb_spec (Z.of_nat i) 0); [lia|]. rewrite Nat2Z.id.
  destruct (Nat.ltb_spec i (length m)); [reflexivity|lia].
Qed.

Lemma fill_loop_ok a : forall k (p l x : list A), length l = k ->
  ar_fill_loop k (Z.of_nat (length p)) a (p ++ l ++ x) = Ok (p ++ repeat a k ++ x).
Proof.
  induction k as [|k IH]; intros p l x Hl; [destruct l; [reflexivity|discriminate]|].
  destruct l as [|b l]; [discriminate|]. cbn [ar_fill_loop].
  rewrite ar_store_nat by (rewrite !app_length; simpl; lia).
  rewrite insert_app_r_alt, Nat.sub_diag by lia. cbn [app insert list_insert].
  replace (p ++ a :: l ++ x) with ((p ++ [a]) ++ l ++ x) by (rewrite <- app_assoc; reflexivity).
  replace (Z.of_nat (length p) + 1)%Z with (Z.of_nat (length (p ++ [a]))) by (rewrite app_length; simpl; lia).
  rewrite IH by (simpl in Hl; lia). rewrite <- app_assoc. reflexivity.
Qed.

Lemma copy_loop_ok : forall k (p l x q u : list A), length l = k -> length q = k ->
  ar_copy_loop k (Z.of_nat (length p)) false (p ++ l ++ x) (p ++ q ++ u) = Ok (p ++ q ++ x).
Proof.
  induction k as [|k IH]; intros p l x q u Hl Hq; [destruct l, q; try discriminate; reflexivity|].
  destruct l as [|b l]; [discriminate|]. destruct q as [|c q]; [discriminate|]. cbn [ar_copy_loop].
  rewrite (ar_load_nat _ _ c) by (rewrite lookup_app_r, Nat.sub_diag by lia; reflexivity).
  rewrite ar_store_nat by (rewrite !app_length; simpl; lia).
  rewrite insert_app_r_alt, Nat.sub_diag by lia. cbn [app insert list_insert].
  replace (p ++ c :: l ++ x) with ((p ++ [c]) ++ l ++ x) by (rewrite <- app_assoc; reflexivity).
  replace (p ++ c :: q ++ u) with ((p ++ [c]) ++ q ++ u) by (rewrite <- app_assoc; reflexivity).
  replace (Z.of_nat (length p) + 1)%Z with (Z.of_nat (length (p ++ [c]))) by (rewrite app_length; simpl; lia).
  rewrite IH by (simpl in *; lia). rewrite <- app_assoc. reflexivity.
Qed.
Lemma copy_self_ok : forall k i m (src : list A), i + k <= length m ->
  ar_copy_loop k (Z.of_nat i) true m src = Ok m.
Proof.
  induction k as [|k IH]; intros i m src Hi; [reflexivity|]. cbn [ar_copy_loop].
  destruct (lookup_lt_is_Some_2 m i) as [a Ha]; [lia|]. rewrite (ar_load_nat _ _ _ Ha), ar_store_nat by lia.
  rewrite list_insert_id by assumption. replace (Z.of_nat i + 1)%Z with (Z.of_nat (S i)) by lia. apply IH. lia.
Qed.
Lemma move_loop_ok : forall k (p l x p' q u : list A), length l = k -> length q = k -> length p = length p' ->
  ar_move_loop mvd k (Z.of_nat (length p)) (p ++ l ++ x) (p' ++ q ++ u) = Ok (p ++ q ++ x, p' ++ map mvd q ++ u).
Proof.
  induction k as [|k IH]; intros p l x p' q u Hl Hq Hp; [destruct l, q; try discriminate; reflexivity|].
  destruct l as [|b l]; [discriminate|]. destruct q as [|c q]; [discriminate|]. cbn [ar_move_loop].
  rewrite (ar_load_nat _ _ c) by (rewrite lookup_app_r, Hp, Nat.sub_diag by lia; reflexivity).
  rewrite !ar_store_nat by (rewrite !app_length; simpl; lia).
  rewrite (insert_app_r_alt p'), Hp, Nat.sub_diag by lia. rewrite (insert_app_r_alt p), Hp, Nat.sub_diag by lia.
  cbn [app insert list_insert].
  replace (p ++ c :: l ++ x) with ((p ++ [c]) ++ l ++ x) by (rewrite <- app_assoc; reflexivity).
  replace (p' ++ mvd c :: q ++ u) with ((p' ++ [mvd c]) ++ q ++ u) by (rewrite <- app_assoc; reflexivity).
  replace (Z.of_nat (length p') + 1)%Z with (Z.of_nat (length (p ++ [c]))) by (rewrite app_length; simpl; lia).
  rewrite IH by (rewrite ?app_length; simpl in *; lia). rewrite <- !app_assoc. reflexivity.
Qed.
Lemma iter_loop_ok : forall (l p x : list A), ar_iter_loop (length l) (Z.of_nat (length p)) (p ++ l ++ x) = Ok l.
Proof.
  induction l as [|a l IH]; intros p x; [reflexivity|]. cbn [length ar_iter_loop].
  rewrite (ar_load_nat _ _ a) by (rewrite lookup_app_r, Nat.sub_diag by lia; reflexivity).
  replace (p ++ (a :: l) ++ x) with ((p ++ [a]) ++ l ++ x) by (rewrite <- app_assoc; reflexivity).
  replace (Z.of_nat (length p) + 1)%Z with (Z.of_nat (length (p ++ [a]))) by (rewrite app_length; simpl; lia).
  rewrite IH. reflexivity.
Qed.
Lemma fill0 (a : A) l x : length l = N -> ar_fill_loop N 0 a (l ++ x) = Ok (repeat a N ++ x).
Proof. exact (fill_loop_ok a N [] l x). Qed.
Lemma copy0 (l x q u : list A) : length l = N -> length q = N -> ar_copy_loop N 0 false (l ++ x) (q ++ u) = Ok (q ++ x).
Proof. exact (copy_loop_ok N [] l x q u). Qed.
Lemma move0 (l x q u : list A) : length l = N -> length q = N ->
  ar_move_loop mvd N 0 (l ++ x) (q ++ u) = Ok (q ++ x, map mvd q ++ u).
Proof. intros H H'. exact (move_loop_ok N [] l x [] q u H H' eq_refl). Qed.
Lemma iter0 (l x : list A) : length l = N -> ar_iter_loop N 0 (l ++ x) = Ok l.
Proof. intros <-. exact (iter_loop_ok l [] x). Qed.
Lemma ar_index_ok i k : py_index N i = Some k -> ar_index N i = Z.of_nat k /\ k < N.
Proof.
  unfold py_index, ar_index. destruct (Z.leb_spec 0 i).
  - destruct (Z.ltb_spec i (Z.of_nat N)); [|discriminate]. intros [= <-]. destruct (Z.ltb_spec i 0); [lia|]. split; lia.
  - destruct (Z.leb_spec (- Z.of_nat N) i); [|discriminate]. intros [= <-]. destruct (Z.ltb_spec i 0); [|lia]. split; lia.
Qed.

Lemma stores_new : exists x, ar_new N junk = repeat junk N ++ x.
Proof. unfold ar_new, arr_len. destruct N; [exists [junk]; reflexivity|]. exists []. rewrite app_nil_r. reflexivity. Qed.

Definition arel (s w : gmap nat (list A)) : Prop :=
  forall id, match s !! id, w !! id with Some l, Some m => stores m l | None, None => True | _, _ => False end.
Lemma arel_some s w id l : arel s w -> s !! id = Some l -> length l = N /\ exists x, w !! id = Some (l ++ x).
Proof.
  intros H E. specialize (H id). rewrite E in H. destruct (w !! id); [|contradiction].
  destruct H as [Hl [x ->]]. eauto.
Qed.
Lemma arel_none s w id : arel s w -> s !! id = None -> w !! id = None.
Proof. intros H E. specialize (H id). rewrite E in H. destruct (w !! id); [contradiction|reflexivity]. Qed.
Lemma arel_insert s w id l x : arel s w -> length l = N -> arel (<[id := l]> s) (<[id := l ++ x]> w).
Proof.
  intros H Hl j. destruct (decide (id = j)) as [<-|Hne].
  - rewrite !lookup_insert. split; eauto.
  - rewrite !lookup_insert_ne by assumption. apply H.
Qed.

Definition ares {X} (r : sres (X * gmap nat (list A))) (c : res (X * gmap nat (list A))) : Prop :=
  match r with
  | SVal (x, s) => exists w, c = Ok (x, w) /\ arel s w
  | SAbort => c = Abort
  | SUnspec => True
  end.

Ltac adest :=
  repeat match goal with
  | |- ares (no_arr ?s ?id _) _ => unfold no_arr at 1; destruct (s !! id) eqn:?; [exact I|]
  | |- ares (with_arr ?s ?id _) _ => unfold with_arr at 1; destruct (s !! id) as [?l|] eqn:?; [|exact I]
  | H : arel ?s ?ls, E : ?s !! ?id = None |- _ => lazymatch goal with _ : ls !! id = None |- _ => fail | _ => pose proof (arel_none _ _ _ H E) end
  | H : arel ?s ?ls, E : ?s !! ?id = Some ?l |- _ => lazymatch goal with _ : ls !! id = Some _ |- _ => fail | _ => destruct (arel_some _ _ _ _ H E) as (? & ? & ?) end
  end; unfold fresh, obj;
  repeat match goal with E : ?w !! ?i = _ |- context [?w !! ?i] => rewrite E end.

Lemma ar_step_agree o s w : arel s w -> ares (a_step N junk mvd o s) (ar_step N junk mvd o w).
Proof.
  intros H. destruct o; cbn [a_step ar_step]; adest.
  - destruct stores_new as [x ->]. eexists. split; [reflexivity|]. apply arel_insert; [assumption|apply repeat_length].
  - unfold ar_fill. destruct stores_new as [x ->]. rewrite fill0 by apply repeat_length.
    eexists. split; [reflexivity|]. apply arel_insert; [assumption|apply repeat_length].
  - unfold ar_assign. destruct stores_new as [y ->]. rewrite copy0 by (assumption || apply repeat_length).
    eexists. split; [reflexivity|]. apply arel_insert; assumption.
  - destruct stores_new as [y ->]. rewrite move0 by (assumption || apply repeat_length).
    eexists. split; [reflexivity|]. do 2 (try apply arel_insert); rewrite ?map_length; assumption.
  - unfold ar_assign. destruct (Nat.eqb_spec id src) as [<-|Hne].
    + assert (l = l0) as <- by congruence. rewrite (copy_self_ok N 0 : forall m src, _ -> ar_copy_loop N 0 true m src = _) by (rewrite app_length; lia).
      eexists. split; [reflexivity|]. apply arel_insert; assumption.
    + rewrite copy0 by assumption. eexists. split; [reflexivity|]. apply arel_insert; assumption.
  - destruct (Nat.eqb_spec id src) as [<-|Hne]; [exact I|].
    rewrite move0 by (assumption).
    eexists. split; [reflexivity|]. do 2 (try apply arel_insert); rewrite ?map_length; assumption.
  - destruct (py_index N i) as [k|] eqn:E; [|exact I]. destruct (ar_index_ok _ _ E) as [Hi Hk].
    unfold ar_set. rewrite Hi, ar_store_nat by (rewrite app_length; lia).
    rewrite insert_app_l by lia. eexists. split; [reflexivity|]. apply arel_insert; [assumption|]. rewrite insert_length. assumption.
  - destruct (py_index N i) as [k|] eqn:E; [|exact I]. destruct (ar_index_ok _ _ E) as [Hi Hk].
    unfold ar_get. rewrite Hi, nth_error_lookup. destruct (l !! k) eqn:El; [|exact I].
    erewrite ar_load_nat by (apply lookup_app_l_Some; eassumption). eexists. split; [reflexivity|assumption].
  - rewrite last_lookup. destruct (l !! pred (length l)) eqn:El; [|exact I].
    assert (pred (length l) < length l) by (eapply lookup_lt_Some; eassumption).
    replace (ar_back N (l ++ x)) with (ar_load (l ++ x) (Z.of_nat (pred (length l))))
      by (unfold ar_back; rewrite H0; destruct N; [lia|reflexivity]).
    erewrite ar_load_nat by (apply lookup_app_l_Some; eassumption). eexists. split; [reflexivity|assumption].
  - destruct l as [|a l]; [exact I|]. eexists. split; [reflexivity|assumption].
  - unfold ar_iter. rewrite iter0 by assumption. eexists. split; [reflexivity|assumption].
  - rewrite H0. eexists. split; [reflexivity|assumption].
  - eexists. split; [|eassumption]. rewrite <- H0. destruct l; reflexivity.
Qed.

Theorem array_history : forall ops,
  match srun (a_step N junk mvd) ops ∅ with
  | SVal (rs, s) => exists w, ar_run N junk mvd ops ∅ = Ok (rs, w)
  | SAbort => ar_run N junk mvd ops ∅ = Abort
  | SUnspec => True
  end.
Proof.
  intros ops. assert (forall s w, arel s w -> ares (srun (a_step N junk mvd) ops s) (ar_run N junk mvd ops w)) as Hall.
  { induction ops as [|o ops IH]; intros s w H; cbn [srun ar_run].
    - eexists. split; [reflexivity|exact H].
    - pose proof (ar_step_agree o s w H) as Hs. destruct (a_step N junk mvd o s) as [[r s1]| |]; simpl in Hs; [|rewrite Hs; reflexivity|exact I].
      destruct Hs as (w1 & -> & H1). specialize (IH s1 w1 H1).
      destruct (srun (a_step N junk mvd) ops s1) as [[rs s2]| |]; simpl in IH; [|rewrite IH; reflexivity|exact I].
      destruct IH as (w2 & -> & H2). eexists. split; [reflexivity|exact H2]. }
  specialize (Hall ∅ ∅). destruct (srun (a_step N junk mvd) ops ∅) as [[rs s]| |]; [|apply Hall|exact I].
  - destruct Hall as (w & Hw & _); eauto. intros id. rewrite !lookup_empty. exact I.
  - intros id. rewrite !lookup_empty. exact I.
Qed.
End Proofs.
