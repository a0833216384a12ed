(** Variables holding vector iterators and references refine positions. *)
From Verif Require Import Base VectorModel VectorSpec VectorProofs VecProg VectorWorld VecIterModel VecIterSpec Hist.

Section Proofs.
Context {A : Type} (triv : bool) (eqb : A -> A -> bool).
Notation mem := (mem A).
Notation world := (world A).
Notation lworld := (lworld A).

(** ** Released storage is not used again *)
Definition ages {X} (f : M mem X) : Prop := forall m x m', f m = Ok (x, m') ->
  m_next m <= m_next m' /\
  forall b, b < m_next m -> m_blocks m !! b = None -> m_blocks m' !! b = None.

Lemma ages_ret {X} (x : X) : ages (ret x).
Proof. intros m y m' H. injection H as _ <-. auto. Qed.
Lemma ages_bind {X Y} (f : M mem X) (g : X -> M mem Y) : ages f -> (forall x, ages (g x)) -> ages (bind f g).
Proof.
  intros Hf Hg m y m' H. apply bind_inv in H as (x & m1 & H1 & H2).
  destruct (Hf _ _ _ H1) as [L1 B1]. destruct (Hg _ _ _ _ H2) as [L2 B2]. split; [lia|].
  intros b Hb Hn. apply B2; [lia|auto].
Qed.
Lemma ages_for c : forall st (f : nat -> M mem unit), (forall i, ages (f i)) -> ages (for_range st c f).
Proof. induction c as [|c IH]; intros st f Hf; simpl; [apply ages_ret|apply ages_bind; auto]. Qed.
Lemma ages_assert b : ages (dassert b).
Proof. intros m x m' H. destruct b; [|discriminate]. injection H as _ <-. auto. Qed.
Lemma ages_alloc n : ages (alloc n).
Proof.
  intros m x m' H. injection H as _ <-. simpl. split; [lia|]. intros b Hb Hn.
  rewrite lookup_insert_ne by lia. exact Hn.
Qed.
Lemma ages_dealloc b n : ages (dealloc b n).
Proof.
  intros m x m' H. unfold dealloc in H. destruct (m_blocks m !! b) as [cs|]; [|discriminate].
  destruct (Nat.eqb _ _); [|discriminate]. injection H as _ <-. simpl. split; [lia|].
  intros b' _ Hn. rewrite lookup_delete_None. auto.
Qed.
Lemma ages_load b i : ages (load (A:=A) b i).
Proof.
  intros m x m' H. unfold load in H. destruct b as [b|]; [|discriminate].
  destruct (m_blocks m !! b) as [cs|]; [|discriminate]. destruct (cs !! i) as [[a|]|]; try discriminate.
  injection H as _ <-. auto.
Qed.
Lemma ages_store b i a : ages (store (A:=A) b i a).
Proof.
  intros m x m' H. unfold store in H. destruct b as [b|]; [|discriminate].
  destruct (m_blocks m !! b) as [cs|] eqn:E; [|discriminate]. destruct (cs !! i) as [[a'|]|]; try discriminate.
  injection H as _ <-. simpl. split; [lia|]. intros b' _ Hn. rewrite lookup_insert_ne; congruence.
Qed.
Lemma ages_construct b i a : ages (construct (A:=A) b i a).
Proof.
  intros m x m' H. unfold construct in H. destruct b as [b|]; [|destruct (Nat.eqb i 0); discriminate].
  destruct (m_blocks m !! b) as [cs|] eqn:E; [|discriminate]. destruct (cs !! i) as [c|]; try discriminate.
  injection H as _ <-. simpl. split; [lia|]. intros b' _ Hn. rewrite lookup_insert_ne; congruence.
Qed.
Lemma ages_destroy b i : ages (destroy (A:=A) triv b i).
Proof.
  intros m x m' H. unfold destroy in H. destruct b as [b|]; [|destruct (Nat.eqb i 0); discriminate].
  destruct (m_blocks m !! b) as [cs|] eqn:E; [|discriminate]. destruct (cs !! i) as [[a'|]|]; try discriminate.
  - injection H as _ <-. simpl. split; [lia|]. intros b' _ Hn. rewrite lookup_insert_ne; congruence.
  - destruct triv; [|discriminate]. injection H as _ <-. auto.
Qed.
Lemma ages_arg x : ages (read_arg (A:=A) x).
Proof. destruct x; [apply ages_ret|apply ages_load]. Qed.

Hint Resolve ages_ret ages_bind ages_for ages_assert ages_alloc ages_dealloc ages_load ages_store
  ages_construct ages_destroy ages_arg : ages.
Local Ltac ages := repeat first
  [ progress intros | apply ages_bind | apply ages_for | apply ages_ret | apply ages_assert | apply ages_alloc
  | apply ages_dealloc | apply ages_load | apply ages_store | apply ages_construct | apply ages_destroy
  | apply ages_arg | match goal with |- ages (match ?x with _ => _ end) => destruct x end ].

Lemma ages_resize n v : ages (v_resize (A:=A) triv n v).
Proof. unfold v_resize. ages. Qed.
Lemma ages_resize_fill n x v : ages (v_resize_fill (A:=A) triv n x v).
Proof. unfold v_resize_fill. destruct (Nat.eqb n 0); [apply ages_resize|]. ages. Qed.
Lemma ages_clear v : ages (v_clear (A:=A) triv v).
Proof. unfold v_clear. ages. Qed.
Lemma ages_fill n x : ages (v_fill (A:=A) triv n x).
Proof. unfold v_fill. apply ages_bind; [ages|intros _]. apply ages_bind; [apply ages_resize|]. ages. Qed.
Lemma ages_copy v u : ages (v_copy_assign (A:=A) triv v u).
Proof.
  unfold v_copy_assign. apply ages_bind; [apply ages_clear|intros v0]. apply ages_bind; [apply ages_resize|]. ages.
Qed.
Lemma ages_move v u : ages (v_move_assign (A:=A) triv v u).
Proof. unfold v_move_assign. apply ages_bind; [apply ages_clear|]. ages. Qed.
Lemma ages_push x v : ages (v_push_back (A:=A) triv x v).
Proof.
  unfold v_push_back. apply ages_bind; [|ages].
  destruct (Nat.ltb _ _); [|apply ages_ret]. destruct (negb _); apply ages_resize.
Qed.
Lemma ages_pop v : ages (v_pop_back (A:=A) triv v).
Proof.
  unfold v_pop_back. apply ages_bind; [ages|intros _]. apply ages_bind; [ages|intros _].
  destruct (Nat.ltb _ _); [apply ages_resize|apply ages_ret].
Qed.
Lemma ages_set v z a : ages (v_set (A:=A) v z a).
Proof.
  unfold v_set, v_index, store_z. apply ages_bind; [ages|].
  intros j. destruct (Z.ltb _ _); [intros ? ? ? [=]|apply ages_store].
Qed.
Lemma ages_get v z : ages (v_get (A:=A) v z).
Proof.
  unfold v_get, v_index, load_z. apply ages_bind; [ages|].
  intros j. destruct (Z.ltb _ _); [intros ? ? ? [=]|apply ages_load].
Qed.
Lemma ages_back v : ages (v_back (A:=A) v).
Proof. unfold v_back. ages. Qed.
Lemma ages_iter v : ages (v_iter (A:=A) v).
Proof.
  unfold v_iter. generalize (S (v_size v)) 0. intros f. induction f as [|f IH]; intros c; simpl; [intros ? ? ? [=]|].
  destruct (Nat.eqb _ _); [apply ages_ret|]. apply ages_bind; [apply ages_load|intros a].
  apply ages_bind; [apply IH|intros; apply ages_ret].
Qed.

(** ** Which calls replace the storage *)
Definition fresh (m : mem) (p : option nat) : Prop := match p with Some b => m_next m <= b | None => True end.

Lemma resize_fresh n v (m : mem) v' m' : v_resize triv n v m = Ok (v', m') -> fresh m (v_ptr v').
Proof.
  intros H. destruct (Nat.eqb_spec n 0) as [->|Hn].
  - unfold v_resize in H. cbn [Nat.eqb] in H. rewrite bind_ret in H.
    apply bind_inv in H as ([] & m1 & _ & H). injection H as <- _. exact I.
  - rewrite (v_resize_ptr triv n v m v' m' Hn H). simpl. lia.
Qed.
Lemma resize_fill_fresh n x v (m : mem) v' m' : v_resize_fill triv n x v m = Ok (v', m') -> fresh m (v_ptr v').
Proof.
  unfold v_resize_fill. destruct (Nat.eqb_spec n 0) as [->|Hn]; [apply resize_fresh|]. intros H.
  apply bind_inv in H as (b & m1 & H1 & H). injection H1 as <- _.
  apply bind_inv in H as ([] & m2 & _ & H). apply bind_inv in H as ([] & m3 & _ & H).
  injection H as <- _. simpl. lia.
Qed.
Lemma clear_result v (m : mem) v' m' : v_clear triv v m = Ok (v', m') -> v' = v_empty.
Proof. intros H. unfold v_clear in H. apply bind_inv in H as ([] & m1 & _ & H). injection H as <- _. reflexivity. Qed.
Lemma copy_fresh v u (m : mem) v' m' : v_copy_assign triv v u m = Ok (v', m') -> fresh m (v_ptr v').
Proof.
  intros H. unfold v_copy_assign in H. apply bind_inv in H as (v0 & m0 & H0 & H).
  apply bind_inv in H as (v1 & m1 & H1 & H). apply bind_inv in H as ([] & m2 & _ & H). injection H as <- _.
  apply resize_fresh in H1. apply ages_clear in H0 as [H0 _]. simpl.
  destruct (v_ptr v1); simpl in *; [lia|exact I].
Qed.
Lemma push_storage x v (m : mem) v' m' : v_push_back triv x v m = Ok (v', m') ->
  if Nat.ltb (v_cap v) (v_size v + 1) then fresh m (v_ptr v')
  else v_ptr v' = v_ptr v /\ v_cap v' = v_cap v.
Proof.
  intros H. unfold v_push_back in H. apply bind_inv in H as (v1 & m1 & H1 & H).
  apply bind_inv in H as (a & m2 & _ & H). apply bind_inv in H as ([] & m3 & _ & H). injection H as <- _.
  destruct (Nat.ltb _ _).
  - destruct (negb _); apply resize_fresh in H1; exact H1.
  - injection H1 as <- _. auto.
Qed.
Lemma pop_storage v (m : mem) v' m' : v_pop_back triv v m = Ok (v', m') ->
  if Nat.ltb (v_size v - 1) (v_cap v / 3) then fresh m (v_ptr v')
  else v_ptr v' = v_ptr v /\ v_cap v' = v_cap v.
Proof.
  intros H. unfold v_pop_back in H. apply bind_inv in H as ([] & m1 & H1 & H).
  apply bind_inv in H as ([] & m2 & H2 & H).
  assert (Hn : m_next m <= m_next m2).
  { apply ages_assert in H1 as [H1 _]. apply ages_destroy in H2 as [H2 _]. lia. }
  destruct (Nat.ltb (v_size v - 1) _).
  - apply resize_fresh in H. destruct (v_ptr v'); simpl in *; [lia|exact I].
  - injection H as <- _. auto.
Qed.

(** ** What variables hold *)
Definition rvar (w : world) (p : ptr) (q : pos) : Prop :=
  match q with
  | PAt id i => exists v b, w_objs w !! id = Some v /\ v_ptr v = Some b /\ p = (Some b, i) /\ i <= v_cap v
  | PNull => p = (None, 0)
  | PGone => exists b, fst p = Some b /\ b < m_next (w_mem w) /\ m_blocks (w_mem w) !! b = None
  end.

Definition elder (w w' : world) : Prop :=
  m_next (w_mem w) <= m_next (w_mem w') /\
  forall b, b < m_next (w_mem w) -> m_blocks (w_mem w) !! b = None -> m_blocks (w_mem w') !! b = None.

Lemma rvar_gone (w w' : world) p : elder w w' -> rvar w p PGone -> rvar w' p PGone.
Proof.
  intros [Hn Hb] (b & Hp & Hlt & Hx). exists b. split; [exact Hp|]. split; [lia|auto].
Qed.
(** The vector still has its storage. *)
Lemma rvar_keep (w w' : world) p id i v v' : 
  w_objs w !! id = Some v -> w_objs w' !! id = Some v' -> v_ptr v' = v_ptr v -> v_cap v' = v_cap v ->
  rvar w p (PAt id i) -> rvar w' p (PAt id i).
Proof.
  intros Hv Hv' Hp Hc (u & b & Hu & Hb & Hpp & Hi). rewrite Hv in Hu. injection Hu as <-.
  exists v', b. split_and!; auto; congruence.
Qed.
(** No vector has it any more. *)
Lemma rvar_lost (w w' : world) s s' p id i v :
  winv w s -> winv w' s' -> elder w w' -> w_objs w !! id = Some v ->
  (forall j u b, w_objs w' !! j = Some u -> v_ptr u = Some b ->
     m_next (w_mem w) <= b \/ exists j' u', j' <> id /\ w_objs w !! j' = Some u' /\ v_ptr u' = Some b) ->
  rvar w p (PAt id i) -> rvar w' p PGone.
Proof.
  intros H H' [Hn Hold] Hv Hown (u & b & Hu & Hb & -> & Hi). rewrite Hv in Hu. injection Hu as <-.
  pose proof (wi_rep _ _ H id) as Hr. rewrite Hv in Hr. destruct (s !! id) as [l|]; [|contradiction].
  destruct Hr as [(_ & _ & Hr) _]. rewrite Hb in Hr. destruct Hr as [_ Hr].
  assert (Hlt : b < m_next (w_mem w)) by (apply (wi_ok _ _ H); rewrite Hr; eauto).
  exists b. split; [reflexivity|]. split; [lia|].
  destruct (m_blocks (w_mem w') !! b) as [cs|] eqn:E; [|reflexivity]. exfalso.
  destruct (wi_cover _ _ H' b ltac:(eauto)) as (j & u & Hj & Hub).
  destruct (Hown _ _ _ Hj Hub) as [Hge|(j' & u' & Hne & Hj' & Hub')]; [lia|].
  apply Hne. eapply (wi_sep _ _ H); eassumption.
Qed.
(** Inversion of the pieces of [v_step]. *)
Lemma lift_inv {X} (f : M mem X) (w : world) x w' : lift f w = Ok (x, w') ->
  exists m', f (w_mem w) = Ok (x, m') /\ w' = World m' (w_objs w).
Proof.
  unfold lift. destruct (f (w_mem w)) as [[y m']| | |]; try discriminate. intros H. injection H as <- <-. eauto.
Qed.
Lemma obj_inv id (w : world) v w' : obj id w = Ok (v, w') -> w_objs w !! id = Some v /\ w' = w.
Proof. unfold obj. destruct (w_objs w !! id); [|discriminate]. intros H. injection H as <- <-. auto. Qed.
Lemma absent_inv id (w : world) x w' : absent id w = Ok (x, w') -> w_objs w !! id = None /\ w' = w.
Proof. unfold absent. destruct (w_objs w !! id); [discriminate|]. intros H. injection H as _ <-. auto. Qed.

(** One object is given a new value. *)
Lemma upd_other (w : world) m' x v' p id i :
  id <> x -> rvar w p (PAt id i) -> rvar (World m' (<[x := v']> (w_objs w))) p (PAt id i).
Proof.
  intros Hne H. pose proof H as (v & b & Hv & _). apply (rvar_keep w _ p id i v v Hv); auto.
  simpl. rewrite lookup_insert_ne by auto. exact Hv.
Qed.
Lemma upd_keep (w : world) m' x v v' p id i :
  w_objs w !! x = Some v -> v_ptr v' = v_ptr v -> v_cap v' = v_cap v ->
  rvar w p (PAt id i) -> rvar (World m' (<[x := v']> (w_objs w))) p (PAt id i).
Proof.
  intros Hv Hp Hc H. destruct (Nat.eq_dec id x) as [->|Hne]; [|apply upd_other; assumption].
  apply (rvar_keep w _ p x i v v' Hv); auto. simpl. apply lookup_insert.
Qed.
Lemma upd_lost (w : world) s s' m' x v v' p i :
  winv w s -> winv (World m' (<[x := v']> (w_objs w))) s' ->
  elder w (World m' (<[x := v']> (w_objs w))) -> w_objs w !! x = Some v -> fresh (w_mem w) (v_ptr v') ->
  rvar w p (PAt x i) -> rvar (World m' (<[x := v']> (w_objs w))) p PGone.
Proof.
  intros H H' He Hv Hf. apply (rvar_lost w _ s s' p x i v H H' He Hv). intros j u b Hj Hb. simpl in Hj.
  destruct (Nat.eq_dec x j) as [<-|Hne].
  - rewrite lookup_insert in Hj. injection Hj as <-. rewrite Hb in Hf. left. exact Hf.
  - rewrite lookup_insert_ne in Hj by assumption. right. exists j, u. auto.
Qed.

Lemma set_elder (w : world) (m' : mem) os :
  (m_next (w_mem w) <= m_next m' /\
   forall b, b < m_next (w_mem w) -> m_blocks (w_mem w) !! b = None -> m_blocks m' !! b = None) ->
  elder w (World m' os).
Proof. exact (fun H => H). Qed.

Local Ltac binv H :=
  match type of H with
  | bind (obj _) _ _ = _ =>
      let v := fresh "v" in let w1 := fresh "w1" in let E := fresh "Ev" in
      apply bind_inv in H as (v & w1 & E & H); apply obj_inv in E as [E ->]; binv H
  | bind (absent _) _ _ = _ =>
      let w1 := fresh "w1" in let E := fresh "Ea" in
      apply bind_inv in H as ([] & w1 & E & H); apply absent_inv in E as [E ->]; binv H
  | bind (lift _) _ _ = _ =>
      let v := fresh "x" in let w1 := fresh "w1" in let m1 := fresh "m1" in let E := fresh "El" in
      apply bind_inv in H as (v & w1 & E & H); apply lift_inv in E as (m1 & E & ->); binv H
  | _ => idtac
  end.

Lemma v_step_follow o (w : world) s r w' s' :
  winv w s -> winv w' s' -> v_step triv o w = Ok (r, w') ->
  elder w w' /\ forall p id i, rvar w p (PAt id i) -> rvar w' p (follow o s id i).
Proof.
  intros H H' Hs.
  assert (Hrefl : elder w w) by (split; auto).
  destruct o as [x|x n a|x y|x y|x y|x y|x a|x|x z a|x n|x n a|x|x|x z|x|x|x|x|x]; cbn [v_step follow] in *; binv Hs.
  - (* ONew *) injection Hs as _ <-. split; [exact Hrefl|]. intros p id i Hr. apply upd_other; [|exact Hr].
    destruct Hr as (v & b & Hv & _). congruence.
  - (* OFill *) injection Hs as _ <-. split; [apply set_elder; eapply ages_fill; eassumption|].
    intros p id i Hr. apply upd_other; [|exact Hr]. destruct Hr as (v & b & Hv & _). congruence.
  - (* OCopyNew *) injection Hs as _ <-. split; [apply set_elder; eapply ages_copy; eassumption|].
    intros p id i Hr. apply upd_other; [|exact Hr]. destruct Hr as (u & b & Hv & _). congruence.
  - (* OMoveNew *) unfold v_move_assign in El. apply bind_inv in El as (v0 & m2 & E0 & El). injection El as <- <-.
    injection Hs as _ <-. simpl in *. split; [apply set_elder; eapply ages_clear; eassumption|].
    intros p id i (u & b & Hu & Hb & -> & Hi). simpl.
    destruct (Nat.eqb_spec y id) as [->|Hne].
    + rewrite Ev in Hu. injection Hu as <-. exists (Vec (v_size v) (v_cap v) (v_ptr v)), b. simpl.
      rewrite lookup_insert_ne, lookup_insert by congruence. auto.
    + exists u, b. simpl. rewrite !lookup_insert_ne by congruence. auto.
  - (* OAssign *) destruct (Nat.eqb_spec x y) as [->|Hne]; simpl.
    + injection Hs as _ <-. split; [exact Hrefl|]. intros p id i. rewrite andb_false_r. auto.
    + binv Hs. injection Hs as _ <-. pose proof (copy_fresh _ _ _ _ _ El) as Hf.
      assert (He : elder w (World m1 (<[x := x0]> (w_objs w)))) by (apply set_elder; eapply ages_copy; eassumption).
      split; [exact He|]. intros p id i. rewrite andb_true_r.
      destruct (Nat.eqb_spec x id) as [->|Hne']; [eapply upd_lost; eauto|apply upd_other; auto].
  - (* OMoveAssign *) destruct (Nat.eqb_spec x y) as [->|Hne]; simpl.
    + injection Hs as _ <-. split; [exact Hrefl|]. auto.
    + binv Hs. unfold v_move_assign in El. apply bind_inv in El as (v2 & m2 & E0 & El). injection El as <- <-.
      injection Hs as _ <-. simpl in *.
      match goal with |- elder w ?W /\ _ => assert (He : elder w W) by (apply set_elder; eapply ages_clear; eassumption) end.
      split; [exact He|]. intros p id i Hr.
      destruct (Nat.eqb_spec y id) as [->|Hne1].
      * destruct Hr as (u & b & Hu & Hb & -> & Hi). rewrite Ev0 in Hu. injection Hu as <-.
        exists (Vec (v_size v0) (v_cap v0) (v_ptr v0)), b. simpl. rewrite lookup_insert_ne, lookup_insert by congruence. auto.
      * destruct (Nat.eqb_spec x id) as [->|Hne2].
        -- apply (rvar_lost w _ s s' p id i v H H' He Ev); [|exact Hr]. intros j u b Hj Hb. simpl in Hj. right.
           destruct (Nat.eq_dec y j) as [<-|Hyj].
           { rewrite lookup_insert in Hj. injection Hj as <-. discriminate. }
           rewrite lookup_insert_ne in Hj by assumption. destruct (Nat.eq_dec id j) as [<-|Hij].
           { rewrite lookup_insert in Hj. injection Hj as <-. exists y, v0. auto. }
           rewrite lookup_insert_ne in Hj by assumption. exists j, u. auto.
        -- destruct Hr as (u & b & Hu & Hb & -> & Hi). exists u, b. simpl. rewrite !lookup_insert_ne by congruence. auto.
  - (* OPush *) injection Hs as _ <-. pose proof (push_storage _ _ _ _ _ El) as Hf.
    assert (He : elder w (World m1 (<[x := x0]> (w_objs w)))) by (apply set_elder; eapply ages_push; eassumption).
    split; [exact He|]. intros p id i Hr. unfold of_vec, push_replaces.
    pose proof (wi_rep _ _ H x) as Hrep. rewrite Ev in Hrep. destruct (s !! x) as [l|]; [|contradiction].
    destruct Hrep as [Hvr Hc]. pose proof (vrep_size _ _ _ Hvr) as Hsz. pose proof (vrep_cap _ _ _ Hvr) as Hcp.
    rewrite <- Hc, <- Hsz. destruct (Nat.eqb_spec x id) as [->|Hne]; cbn [andb]; [|apply upd_other; auto].
    destruct (Nat.ltb_spec (v_cap v) (v_size v + 1)); destruct (Nat.eqb_spec (v_size v) (v_cap v)); try lia.
    + eapply upd_lost; eauto.
    + destruct Hf. eapply upd_keep; eauto.
  - (* OPop *) injection Hs as _ <-. pose proof (pop_storage _ _ _ _ El) as Hf.
    assert (He : elder w (World m1 (<[x := x0]> (w_objs w)))) by (apply set_elder; eapply ages_pop; eassumption).
    split; [exact He|]. intros p id i Hr. unfold of_vec, pop_replaces.
    pose proof (wi_rep _ _ H x) as Hrep. rewrite Ev in Hrep. destruct (s !! x) as [l|]; [|contradiction].
    destruct Hrep as [Hvr Hc]. pose proof (vrep_size _ _ _ Hvr) as Hsz.
    rewrite <- Hc, <- Hsz. destruct (Nat.eqb_spec x id) as [->|Hne]; cbn [andb]; [|apply upd_other; auto].
    destruct (Nat.ltb _ _).
    + eapply upd_lost; eauto.
    + destruct Hf. eapply upd_keep; eauto.
  - (* OSet *) injection Hs as _ <-. split; [|auto]. apply set_elder. eapply ages_set; eassumption.
  - (* OResize *) injection Hs as _ <-. pose proof (resize_fresh _ _ _ _ _ El) as Hf.
    assert (He : elder w (World m1 (<[x := x0]> (w_objs w)))) by (apply set_elder; eapply ages_resize; eassumption).
    split; [exact He|]. intros p id i Hr. destruct (Nat.eqb_spec x id) as [->|Hne]; [eapply upd_lost; eauto|apply upd_other; auto].
  - (* OResizeFill *) injection Hs as _ <-. pose proof (resize_fill_fresh _ _ _ _ _ _ El) as Hf.
    assert (He : elder w (World m1 (<[x := x0]> (w_objs w)))) by (apply set_elder; eapply ages_resize_fill; eassumption).
    split; [exact He|]. intros p id i Hr. destruct (Nat.eqb_spec x id) as [->|Hne]; [eapply upd_lost; eauto|apply upd_other; auto].
  - (* OClear *) injection Hs as _ <-. pose proof (clear_result _ _ _ _ El) as ->.
    assert (He : elder w (World m1 (<[x := v_empty]> (w_objs w)))) by (apply set_elder; eapply ages_clear; eassumption).
    split; [exact He|]. intros p id i Hr. destruct (Nat.eqb_spec x id) as [->|Hne]; [eapply upd_lost; eauto; exact I|apply upd_other; auto].
  - (* ODestroy *) injection Hs as _ <-. simpl in *.
    assert (He : elder w (World m1 (delete x (w_objs w)))) by (apply set_elder; eapply ages_clear; eassumption).
    split; [exact He|]. intros p id i Hr. destruct (Nat.eqb_spec x id) as [->|Hne].
    + apply (rvar_lost w _ s s' p id i v H H' He Ev); [|exact Hr]. intros j u b Hj Hb. simpl in Hj.
      destruct (Nat.eq_dec id j) as [<-|Hij]; [rewrite lookup_delete in Hj; discriminate|].
      rewrite lookup_delete_ne in Hj by assumption. right. exists j, u. auto.
    + destruct Hr as (u & b & Hu & Hb & -> & Hi). exists u, b. simpl. rewrite lookup_delete_ne by congruence. auto.
  - (* OGet *) injection Hs as _ <-. split; [|auto]. apply set_elder. eapply ages_get; eassumption.
  - (* OBack *) injection Hs as _ <-. split; [|auto]. apply set_elder. eapply ages_back; eassumption.
  - (* OFront *) injection Hs as _ <-. split; [|auto]. apply set_elder. eapply ages_load; eassumption.
  - (* OSize *) injection Hs as _ <-. auto.
  - (* OEmpty *) injection Hs as _ <-. auto.
  - (* OIter *) injection Hs as _ <-. split; [|auto]. apply set_elder. eapply ages_iter; eassumption.
Qed.

(** ** Operations on pointers *)
Section Pure.
Context (w : world) (s : lworld) (H : winv w s).

Lemma at_vec p id i : rvar w p (PAt id i) -> exists v b l, w_objs w !! id = Some v /\ v_ptr v = Some b /\ p = (Some b, i) /\
  i <= v_cap v /\ s !! id = Some l /\ vrep (w_mem w) v (l_seq l) /\ v_cap v = l_cap l /\
  m_blocks (w_mem w) !! b = Some (cells (l_seq l) (l_cap l)).
Proof.
  intros (v & b & Hv & Hb & Hp & Hi). pose proof (wi_rep _ _ H id) as Hr. rewrite Hv in Hr.
  destruct (s !! id) as [l|] eqn:El; [|contradiction]. destruct Hr as [Hr Hc]. exists v, b, l.
  pose proof Hr as (_ & _ & Hx). rewrite Hb in Hx. destruct Hx as [_ Hx]. rewrite Hc in Hx. auto 10.
Qed.

Lemma p_add_ok p q z : rvar w p q ->
  match pos_add s q z with
  | Some q' => exists p', p_add p z (w_mem w) = Ok (p', w_mem w) /\ rvar w p' q'
  | None => p_add p z (w_mem w) = UB
  end.
Proof.
  intros Hr. destruct q as [id i| |]; cbn [pos_add].
  - destruct (at_vec _ _ _ Hr) as (v & b & l & Hv & Hb & -> & Hi & Hl & Hrep & Hc & Hcs). rewrite Hl.
    unfold p_add. cbn [fst snd]. rewrite Hcs, cells_length by (rewrite <- Hc; apply (vrep_cap _ _ _ Hrep)).
    destruct ((0 <=? _)%Z && _) eqn:E; [|reflexivity]. eexists. split; [reflexivity|].
    apply andb_true_iff in E as [E1 E2]. apply Z.leb_le in E1, E2. exists v, b. split_and!; auto. lia.
  - cbn in Hr. subst p. unfold p_add. cbn [fst]. destruct (Z.eqb z 0); [|reflexivity].
    eexists. split; reflexivity.
  - destruct Hr as (b & Hp & _ & Hn). unfold p_add. rewrite Hp, Hn. reflexivity.
Qed.

Lemma p_diff_ok p q p' q' : rvar w p q -> rvar w p' q' ->
  p_diff p p' (w_mem w) = match pos_diff q q' with Some d => Ok (d, w_mem w) | None => UB end.
Proof.
  intros Hr Hr'. destruct q as [id i| |], q' as [id' j| |]; cbn [pos_diff].
  - destruct (at_vec _ _ _ Hr) as (v & b & l & Hv & Hb & -> & Hi & Hl & Hrep & Hc & Hcs).
    destruct (at_vec _ _ _ Hr') as (v' & b' & l' & Hv' & Hb' & -> & Hi' & Hl' & Hrep' & Hc' & Hcs').
    unfold p_diff. cbn [fst snd]. destruct (Nat.eqb_spec id id') as [<-|Hne].
    + assert (b = b') as <- by congruence. rewrite Nat.eqb_refl, Hcs. reflexivity.
    + destruct (Nat.eqb_spec b b') as [<-|]; [|reflexivity]. exfalso. apply Hne. eapply (wi_sep _ _ H); eassumption.
  - destruct Hr as (v & b & _ & _ & -> & _). cbn in Hr'. subst p'. reflexivity.
  - destruct (at_vec _ _ _ Hr) as (v & b & l & Hv & Hb & -> & Hi & Hl & Hrep & Hc & Hcs).
    destruct Hr' as (b' & Hp' & _ & Hn). unfold p_diff. rewrite Hp'. cbn [fst].
    destruct (Nat.eqb_spec b b') as [<-|]; [congruence|reflexivity].
  - destruct Hr' as (v & b & _ & _ & -> & _). cbn in Hr. subst p. reflexivity.
  - cbn in Hr, Hr'. subst. reflexivity.
  - cbn in Hr. subst p. destruct Hr' as (b' & Hp' & _ & Hn). unfold p_diff. rewrite Hp'. reflexivity.
  - destruct (at_vec _ _ _ Hr') as (v & b & l & Hv & Hb & -> & Hi & Hl & Hrep & Hc & Hcs).
    destruct Hr as (b' & Hp' & _ & Hn). unfold p_diff. rewrite Hp'. cbn [fst].
    destruct (Nat.eqb_spec b' b) as [<-|]; [congruence|reflexivity].
  - cbn in Hr'. subst p'. destruct Hr as (b' & Hp' & _ & Hn). unfold p_diff. rewrite Hp'. reflexivity.
  - destruct Hr as (b' & Hp' & _ & Hn). destruct Hr' as (b & Hp & _ & Hn'). unfold p_diff. rewrite Hp', Hp.
    destruct (Nat.eqb b' b); [|reflexivity]. rewrite Hn. reflexivity.
Qed.

Lemma p_eq_ok p q p' q' : rvar w p q -> rvar w p' q' ->
  p_eq p p' (w_mem w) = match pos_diff q q' with Some d => Ok ((d =? 0)%Z, w_mem w) | None => UB end.
Proof.
  intros Hr Hr'. unfold p_eq, bind. rewrite (p_diff_ok _ _ _ _ Hr Hr'). destruct (pos_diff q q'); reflexivity.
Qed.

Lemma load_pos p q : rvar w p q ->
  load (fst p) (snd p) (w_mem w) = match pos_get s q with Some a => Ok (a, w_mem w) | None => UB end.
Proof.
  intros Hr. destruct q as [id i| |]; cbn [pos_get].
  - destruct (at_vec _ _ _ Hr) as (v & b & l & Hv & Hb & -> & Hi & Hl & Hrep & Hc & Hcs).
    cbn [fst snd]. rewrite Hl, nth_error_lookup, <- Hb. destruct (l_seq l !! i) as [a|] eqn:E.
    + apply (load_ok _ _ _ _ _ Hrep E).
    + apply (load_ub _ _ _ _ Hrep E).
  - cbn in Hr. subst p. reflexivity.
  - destruct Hr as (b & Hp & _ & Hn). unfold load. rewrite Hp, Hn. reflexivity.
Qed.
Lemma store_pos_ub p q a : rvar w p q -> pos_get s q = None -> store (fst p) (snd p) a (w_mem w) = UB.
Proof.
  intros Hr Hg. pose proof (load_pos p q Hr) as Hl. rewrite Hg in Hl. unfold load in Hl. unfold store.
  destruct (fst p); [|reflexivity]. destruct (m_blocks _ !! _); [|reflexivity].
  destruct (_ !! snd p) as [[x|]|]; [discriminate|reflexivity|reflexivity].
Qed.
Lemma store_pos p id i a x : rvar w p (PAt id i) -> pos_get s (PAt id i) = Some x ->
  exists m', store (fst p) (snd p) a (w_mem w) = Ok (tt, m') /\
    winv (World m' (w_objs w)) (set_at s id i a) /\ elder w (World m' (w_objs w)).
Proof.
  intros Hr Hg. destruct (at_vec _ _ _ Hr) as (v & b & l & Hv & Hb & -> & Hi & Hl & Hrep & Hc & Hcs).
  cbn [pos_get fst snd] in *. rewrite Hl, nth_error_lookup in Hg. apply lookup_lt_Some in Hg.
  destruct (store_ok _ _ _ _ a Hrep (wi_ok _ _ H) Hg) as (m' & Hrun & Hpost). rewrite Hb in Hrun.
  exists m'. split; [exact Hrun|]. split.
  - unfold set_at. rewrite Hl. pose proof (winv_update _ _ id v _ _ _ _ _ H Hv Hpost) as Hw.
    rewrite (insert_same _ _ _ Hv), Hc in Hw. exact Hw.
  - apply set_elder. eapply ages_store; eassumption.
Qed.
End Pure.

(** Only memory changed. *)
Lemma rvar_mem (w : world) m' p q : elder w (World m' (w_objs w)) -> rvar w p q -> rvar (World m' (w_objs w)) p q.
Proof. intros He. destruct q as [id i| |]; auto. apply rvar_gone. exact He. Qed.

Lemma window_same (l : list A) i : window l i i = [].
Proof. unfold window. rewrite Nat.leb_refl, Nat.sub_diag. reflexivity. Qed.
Lemma window_cons (l : list A) i j x : i <> j -> l !! i = Some x -> window l i j = x :: window l (S i) j.
Proof.
  intros Hne Hx. unfold window. change (@skipn) with (@drop). rewrite (drop_S _ _ _ Hx).
  destruct (Nat.leb_spec i j); destruct (Nat.leb_spec (S i) j); try lia; [|reflexivity].
  replace (j - i) with (S (j - S i)) by lia. reflexivity.
Qed.
Lemma window_nil (l : list A) i j : l !! i = None -> window l i j = [].
Proof.
  intros Hx. apply lookup_ge_None in Hx. unfold window. rewrite skipn_all2 by exact Hx.
  destruct (Nat.leb i j); [apply firstn_nil|reflexivity].
Qed.
Lemma window_insert (l : list A) i j x : window (<[i := x]> l) (S i) j = window l (S i) j.
Proof. unfold window. change (@skipn) with (@drop). rewrite drop_insert_gt by lia. reflexivity. Qed.
Lemma arrives_same (l : list A) i : arrives l i i = true.
Proof. unfold arrives. rewrite Nat.eqb_refl. reflexivity. Qed.
Lemma arrives_none (l : list A) i j : i <> j -> l !! i = None -> arrives l i j = false.
Proof.
  intros Hne Hx. apply lookup_ge_None in Hx. unfold arrives.
  destruct (Nat.eqb_spec i j); [lia|]. destruct (Nat.leb_spec i j); [|reflexivity].
  destruct (Nat.leb_spec j (length l)); [lia|reflexivity].
Qed.
Lemma arrives_next (l l' : list A) i j : i <> j -> i < length l -> length l' = length l -> arrives l' (S i) j = arrives l i j.
Proof.
  intros Hne Hx Hl. unfold arrives. rewrite Hl.
  destruct (Nat.eqb_spec i j); [lia|]. destruct (Nat.eqb_spec (S i) j); destruct (Nat.leb_spec i j);
  destruct (Nat.leb_spec (S i) j); destruct (Nat.leb_spec j (length l)); simpl; lia || reflexivity.
Qed.

Lemma p_find_ok (w : world) s (H : winv w s) id v b l j a :
  w_objs w !! id = Some v -> v_ptr v = Some b -> s !! id = Some l -> j <= l_cap l ->
  forall f i, i <= l_cap l -> l_cap l < i + f ->
  p_find eqb f a (Some b, i) (Some b, j) (w_mem w) =
  match first_at eqb a (window (l_seq l) i j) with
  | Some k => Ok ((Some b, i + k), w_mem w)
  | None => if arrives (l_seq l) i j then Ok ((Some b, j), w_mem w) else UB
  end.
Proof.
  intros Hv Hb Hl Hj. pose proof (wi_rep _ _ H id) as Hr. rewrite Hv, Hl in Hr. destruct Hr as [Hrep Hc].
  assert (Hat : forall i, i <= l_cap l -> rvar w (Some b, i) (PAt id i)).
  { intros i Hi. exists v, b. split_and!; auto. lia. }
  induction f as [|f IH]; intros i Hi Hf; [lia|]. cbn [p_find].
  pose proof (p_eq_ok w s H _ _ _ _ (Hat i Hi) (Hat j Hj)) as Heq. cbn [pos_diff] in Heq.
  rewrite Nat.eqb_refl in Heq. rewrite (bind_ok _ _ _ _ _ Heq).
  destruct (Z.eqb_spec (Z.of_nat i - Z.of_nat j) 0) as [E|E].
  - assert (i = j) as <- by lia. rewrite window_same, arrives_same. reflexivity.
  - assert (Hne : i <> j) by lia. pose proof (load_pos w s H _ _ (Hat i Hi)) as Hld.
    cbn [pos_get fst snd] in Hld. rewrite Hl, nth_error_lookup in Hld. unfold bind at 1. cbn [fst snd]. rewrite Hld.
    destruct (l_seq l !! i) as [x|] eqn:Ex.
    + rewrite (window_cons _ _ _ _ Hne Ex). cbn [first_at].
      destruct (eqb x a); [rewrite Nat.add_0_r; reflexivity|].
      pose proof (lookup_lt_Some _ _ _ Ex) as Hlt. pose proof (vrep_cap _ _ _ Hrep) as Hcap. rewrite Hc in Hcap.
      pose proof (p_add_ok w s H _ _ 1 (Hat i Hi)) as Hadd. cbn [pos_add] in Hadd. rewrite Hl in Hadd.
      destruct (Z.leb_spec 0 (Z.of_nat i + 1)); [|lia].
      destruct (Z.leb_spec (Z.of_nat i + 1) (Z.of_nat (l_cap l))); [|lia]. cbn [andb] in Hadd.
      destruct Hadd as (p' & Hrun & (v' & b' & Hv' & Hb' & -> & _)).
      assert (b' = b) as -> by congruence. rewrite (bind_ok _ _ _ _ _ Hrun).
      replace (Z.to_nat (Z.of_nat i + 1)) with (S i) by lia.
      rewrite IH by lia. rewrite (arrives_next (l_seq l) (l_seq l) i j Hne Hlt eq_refl).
      destruct (first_at eqb a (window (l_seq l) (S i) j)) as [k|]; simpl; [|reflexivity].
      rewrite Nat.add_succ_r. reflexivity.
    + rewrite (window_nil _ _ _ Ex). cbn [first_at]. rewrite (arrives_none _ _ _ Hne Ex). reflexivity.
Qed.

Lemma p_each_ok id v b j cb : v_ptr v = Some b ->
  forall f i (w : world) s l, winv w s -> w_objs w !! id = Some v -> s !! id = Some l ->
  j <= l_cap l -> i <= l_cap l -> l_cap l < i + f ->
  if arrives (l_seq l) i j
  then exists m', p_each f cb (Some b, i) (Some b, j) (w_mem w) = Ok (window (l_seq l) i j, m') /\
    winv (World m' (w_objs w)) (<[id := LVec (firstn i (l_seq l) ++ map cb (window (l_seq l) i j)
      ++ skipn (i + length (window (l_seq l) i j)) (l_seq l)) (l_cap l)]> s) /\ elder w (World m' (w_objs w))
  else p_each f cb (Some b, i) (Some b, j) (w_mem w) = UB.
Proof.
  intros Hb. induction f as [|f IH]; intros i w s l H Hv Hl Hj Hi Hf; [lia|].
  pose proof (wi_rep _ _ H id) as Hr. rewrite Hv, Hl in Hr. destruct Hr as [Hrep Hc].
  assert (Hat : forall i, i <= l_cap l -> rvar w (Some b, i) (PAt id i)).
  { intros i' Hi'. exists v, b. split_and!; auto. lia. }
  cbn [p_each]. pose proof (p_eq_ok w s H _ _ _ _ (Hat i Hi) (Hat j Hj)) as Heq. cbn [pos_diff] in Heq.
  rewrite Nat.eqb_refl in Heq. rewrite (bind_ok _ _ _ _ _ Heq).
  destruct (Z.eqb_spec (Z.of_nat i - Z.of_nat j) 0) as [E|E].
  - assert (i = j) as <- by lia. rewrite window_same, arrives_same. exists (w_mem w). split; [reflexivity|].
    rewrite world_same. split; [|split; auto]. simpl. rewrite Nat.add_0_r, firstn_skipn.
    rewrite insert_id; [exact H|]. destruct l. exact Hl.
  - assert (Hne : i <> j) by lia. pose proof (load_pos w s H _ _ (Hat i Hi)) as Hld.
    cbn [pos_get fst snd] in Hld. rewrite Hl, nth_error_lookup in Hld. cbn [fst snd].
    destruct (l_seq l !! i) as [x|] eqn:Ex.
    2:{ rewrite (arrives_none _ _ _ Hne Ex). apply bind_ub, Hld. }
    rewrite (bind_ok _ _ _ _ _ Hld).
    pose proof (lookup_lt_Some _ _ _ Ex) as Hlt. pose proof (vrep_cap _ _ _ Hrep) as Hcap. rewrite Hc in Hcap.
    destruct (store_pos w s H _ id i (cb x) x (Hat i Hi)) as (m1 & Hst & Hw1 & He1).
    { cbn [pos_get]. rewrite Hl, nth_error_lookup. exact Ex. }
    cbn [fst snd] in Hst. rewrite (bind_ok _ _ _ _ _ Hst).
    unfold set_at in Hw1. rewrite Hl in Hw1.
    assert (Hat1 : rvar (World m1 (w_objs w)) (Some b, i) (PAt id i)) by (apply (rvar_mem w); auto).
    pose proof (p_add_ok _ _ Hw1 _ _ 1 Hat1) as Hadd. cbn [pos_add] in Hadd. rewrite lookup_insert in Hadd. cbn [l_cap] in Hadd.
    destruct (Z.leb_spec 0 (Z.of_nat i + 1)); [|lia].
    destruct (Z.leb_spec (Z.of_nat i + 1) (Z.of_nat (l_cap l))); [|lia]. cbn [andb] in Hadd.
    destruct Hadd as (p' & Hrun & (v' & b' & Hv' & Hb' & -> & _)). cbn [w_objs] in Hv'.
    assert (b' = b) as -> by congruence. cbn [w_mem] in Hrun. 
    replace (Z.to_nat (Z.of_nat i + 1)) with (S i) in Hrun by lia.
    specialize (IH (S i) (World m1 (w_objs w)) _ (LVec (<[i := cb x]> (l_seq l)) (l_cap l)) Hw1 Hv (lookup_insert _ _ _)
      Hj ltac:(simpl; lia) ltac:(simpl; lia)). cbn [l_seq l_cap w_mem w_objs] in IH.
    rewrite (arrives_next (l_seq l) (<[i := cb x]> (l_seq l)) i j Hne Hlt (insert_length _ _ _)) in IH.
    rewrite window_insert in IH.
    destruct (arrives (l_seq l) i j).
    + destruct IH as (m' & Hrec & Hw' & He'). exists m'.
      rewrite (bind_ok _ _ _ _ _ Hrun), (bind_ok _ _ _ _ _ Hrec).
      rewrite (window_cons _ _ _ _ Hne Ex). split; [reflexivity|]. split.
      * rewrite insert_insert in Hw'. cbn [map length].
        replace (firstn i (l_seq l) ++ (cb x :: map cb (window (l_seq l) (S i) j)) ++
                 skipn (i + S (length (window (l_seq l) (S i) j))) (l_seq l))
          with (firstn (S i) (<[i := cb x]> (l_seq l)) ++ map cb (window (l_seq l) (S i) j) ++
                 skipn (S i + length (window (l_seq l) (S i) j)) (<[i := cb x]> (l_seq l))); [exact Hw'|].
        change (@skipn) with (@drop). change (@firstn) with (@take).
        rewrite drop_insert_gt by lia.
        rewrite (take_S_r _ i (cb x)) by (apply list_lookup_insert; exact Hlt).
        rewrite take_insert by lia. rewrite <- app_assoc. simpl. rewrite Nat.add_succ_r. reflexivity.
      * destruct He1 as [L1 B1]. destruct He' as [L2 B2]. cbn [w_mem] in *. split; cbn [w_mem]; [lia|].
        intros b0 Hb0 Hn0. apply B2; [lia|auto].
    + unfold bind. rewrite Hrun, IH. reflexivity.
Qed.
End Proofs.
