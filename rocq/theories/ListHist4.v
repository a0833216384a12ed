(** Linked lists: rings on their own, and the calls that go wrong. *)
From Verif Require Import Base Alloc AllocProofs VectorModel VectorSpec Adapter Hist ListModel ListSpec ListProofs ListHist ListHist2 ListHist3.

Section Ring.
Context {A : Type}.
Implicit Types (C : gmap ptr (cell A)) (st : lst A) (p q r n : ptr) (xs : list (nat * A)).

Lemma path_index d f g l : path d f g l <-> forall i p q, l !! i = Some p -> l !! S i = Some q -> link d f g p q.
Proof.
  induction l as [|a [|b t] IH].
  - split; [|intros _; exact I]. intros _ i p q H. rewrite lookup_nil in H. discriminate.
  - split; [|intros _; exact I]. intros _ i p q H H2. apply lookup_lt_Some in H2. simpl in H2. lia.
  - rewrite path_cons. rewrite IH. split.
    + intros [H1 H2] [|i] p q Hp Hq; simpl in *; [injection Hp as <-; injection Hq as <-; exact H1|]. apply (H2 i); assumption.
    + intros H. split; [apply (H 0); reflexivity|]. intros i p q Hp Hq. apply (H (S i)); assumption.
Qed.

Lemma ring_lookup p t i : i < length (p :: t) -> (p :: t ++ [p]) !! S i = (p :: t) !! (S i mod length (p :: t)).
Proof.
  intros Hi. destruct (decide (S i = length (p :: t))) as [E|E].
  - rewrite E, Nat.mod_same by (simpl; lia). simpl in E |- *. injection E as ->. rewrite lookup_app_r, Nat.sub_diag by lia. reflexivity.
  - rewrite Nat.mod_small by lia. cbn [length] in *. simpl. rewrite lookup_app_l by lia. reflexivity.
Qed.
Lemma ring_lookup0 p t i : i < length (p :: t) -> (p :: t ++ [p]) !! i = (p :: t) !! i.
Proof. intros Hi. rewrite app_comm_cons. apply lookup_app_l. exact Hi. Qed.

Lemma ring_path d C p t : is_ring d C (p :: t) <->
  NoDup (p :: t) /\ path d (nx C) (pv C) (p :: t ++ [p]) /\ (forall r, r ∈ p :: t -> is_Some (dt C r)).
Proof.
  unfold is_ring. split.
  - intros [Hnd H]. split; [exact Hnd|]. split.
    + apply path_index. intros i a b Ha Hb. assert (Hi : i < length (p :: t)).
      { apply lookup_lt_Some in Hb. simpl in *. rewrite app_length in Hb. simpl in Hb. lia. }
      rewrite ring_lookup0 in Ha by exact Hi. rewrite ring_lookup in Hb by exact Hi.
      destruct (H _ _ _ Ha Hb) as (ca & cb & Ea & Eb & Hn & Hp). unfold link, nx, pv. rewrite Ea, Eb. auto.
    + intros r [i Hr]%elem_of_list_lookup. assert (Hi : i < length (p :: t)) by (eapply lookup_lt_Some; exact Hr).
      destruct (lookup_lt_is_Some_2 (p :: t) (S i mod length (p :: t))) as [q Hq]; [apply Nat.mod_upper_bound; simpl; lia|].
      destruct (H _ _ _ Hr Hq) as (ca & cb & Ea & _). unfold dt. rewrite Ea. eauto.
  - intros (Hnd & Hpath & Hlive). split; [exact Hnd|]. intros i a b Ha Hb.
    assert (Hi : i < length (p :: t)) by (eapply lookup_lt_Some; exact Ha).
    destruct (proj1 (path_index _ _ _ _) Hpath i a b) as [Hn Hp]; [rewrite ring_lookup0 by exact Hi; exact Ha|rewrite ring_lookup by exact Hi; exact Hb|].
    destruct (Hlive a) as [x (ca & Ea & _)%dt_some]; [eapply elem_of_list_lookup_2; exact Ha|].
    destruct (Hlive b) as [y (cb & Eb & _)%dt_some]; [eapply elem_of_list_lookup_2; exact Hb|].
    exists ca, cb. unfold nx in Hn. unfold pv in Hp. rewrite Ea in Hn. rewrite Eb in Hp. auto.
Qed.

Lemma nodup_removelast_ring p (t : list ptr) : NoDup (p :: t) -> NoDup (removelast (p :: t ++ [p])).
Proof. intros H. rewrite app_comm_cons, removelast_last. exact H. Qed.
Lemma nodup_tail_ring p (t : list ptr) : NoDup (p :: t) -> NoDup (tail (p :: t ++ [p])).
Proof.
  intros H. apply (NoDup_Permutation_proper _ (p :: t)); [|exact H]. simpl. rewrite Permutation_app_comm. reflexivity.
Qed.

(** Which cells the link operations touch. *)
Lemma st_next_frame p v st u st' : st_next p v st = Ok (u, st') -> forall r, r <> p -> l_cells st' !! r = l_cells st !! r.
Proof.
  intros H r Hr. unfold st_next in H. apply bind_inv in H as (c & s1 & H1 & H2). unfold ld in H1. unfold stc in H2.
  destruct (l_cells st !! p) eqn:E; [|discriminate]. injection H1 as <- <-. rewrite E in H2. injection H2 as _ <-. simpl. apply lookup_insert_ne. congruence.
Qed.
Lemma st_prev_frame p v st u st' : st_prev p v st = Ok (u, st') -> forall r, r <> p -> l_cells st' !! r = l_cells st !! r.
Proof.
  intros H r Hr. unfold st_prev in H. apply bind_inv in H as (c & s1 & H1 & H2). unfold ld in H1. unfold stc in H2.
  destruct (l_cells st !! p) eqn:E; [|discriminate]. injection H1 as <- <-. rewrite E in H2. injection H2 as _ <-. simpl. apply lookup_insert_ne. congruence.
Qed.
Lemma ld_next_inv p st v st' : ld_next p st = Ok (v, st') -> v = nx (l_cells st) p /\ st' = st.
Proof.
  intros H. unfold ld_next in H. apply bind_inv in H as (c & s1 & H1 & H2). unfold ld in H1. unfold nx.
  destruct (l_cells st !! p) eqn:E; [|discriminate]. injection H1 as <- <-. injection H2 as <- <-. auto.
Qed.
Lemma link_add_frame d p n st u st' q : link_add d p n st = Ok (u, st') -> nx (l_cells st) p = Some q -> n <> p ->
  forall r, r <> p -> r <> n -> r <> q -> l_cells st' !! r = l_cells st !! r.
Proof.
  intros H Hq Hnp r Hrp Hrn Hrq. unfold link_add in H. destruct d; unfold dlink_add, slink_add in H.
  - apply bind_inv in H as (v1 & s1 & H1 & H). apply ld_next_inv in H1 as [-> ->].
    apply bind_inv in H as (v2 & s2 & H2 & H). apply bind_inv in H as (v3 & s3 & H3 & H).
    apply bind_inv in H as (v4 & s4 & H4 & H). apply ld_next_inv in H4 as [-> ->].
    apply bind_inv in H as (v5 & s5 & H5 & H).
    assert (Hn3 : nx (l_cells s3) p = Some q).
    { unfold nx. rewrite (st_prev_frame _ _ _ _ _ H3) by congruence. rewrite (st_next_frame _ _ _ _ _ H2) by congruence. exact Hq. }
    rewrite Hn3 in H5. rewrite (st_next_frame _ _ _ _ _ H) by exact Hrp. rewrite (st_prev_frame _ _ _ _ _ H5) by exact Hrq.
    rewrite (st_prev_frame _ _ _ _ _ H3) by exact Hrn. apply (st_next_frame _ _ _ _ _ H2). exact Hrn.
  - apply bind_inv in H as (v1 & s1 & H1 & H). apply ld_next_inv in H1 as [-> ->].
    apply bind_inv in H as (v2 & s2 & H2 & H). rewrite (st_next_frame _ _ _ _ _ H) by exact Hrp. apply (st_next_frame _ _ _ _ _ H2). exact Hrn.
Qed.
Lemma link_del_frame d p n st u st' q : link_del d p n st = Ok (u, st') -> nx (l_cells st) n = Some q -> n <> p ->
  forall r, r <> p -> r <> n -> r <> q -> l_cells st' !! r = l_cells st !! r.
Proof.
  intros H Hq Hnp r Hrp Hrn Hrq. unfold link_del in H. destruct d; unfold dlink_del, slink_del in H.
  - apply bind_inv in H as (v1 & s1 & H1 & H). apply ld_next_inv in H1 as [-> ->].
    apply bind_inv in H as (v2 & s2 & H2 & H).
    apply bind_inv in H as (v4 & s4 & H4 & H). apply ld_next_inv in H4 as [-> ->].
    apply bind_inv in H as (v5 & s5 & H5 & H). apply bind_inv in H as (v6 & s6 & H6 & H).
    assert (Hn3 : nx (l_cells s2) n = Some q) by (unfold nx; rewrite (st_next_frame _ _ _ _ _ H2) by congruence; exact Hq).
    rewrite Hn3 in H5. rewrite (st_prev_frame _ _ _ _ _ H) by exact Hrn. rewrite (st_next_frame _ _ _ _ _ H6) by exact Hrn.
    rewrite (st_prev_frame _ _ _ _ _ H5) by exact Hrq. apply (st_next_frame _ _ _ _ _ H2). exact Hrp.
  - apply bind_inv in H as (v1 & s1 & H1 & H). apply ld_next_inv in H1 as [-> ->].
    apply bind_inv in H as (v2 & s2 & H2 & H). rewrite (st_next_frame _ _ _ _ _ H) by exact Hrn. apply (st_next_frame _ _ _ _ _ H2). exact Hrp.
Qed.

Lemma dt_c_dat C C' r : dt C' r = dt C r -> option_map c_dat (C' !! r) = option_map c_dat (C !! r).
Proof. auto. Qed.

Theorem ring_add d st p t n : is_ring d (l_cells st) (p :: t) -> n ∉ p :: t -> is_Some (l_cells st !! n) ->
  exists st', link_add d p n st = Ok (tt, st') /\ is_ring d (l_cells st') (p :: n :: t) /\
    (forall r, option_map c_dat (l_cells st' !! r) = option_map c_dat (l_cells st !! r)) /\
    (forall r, r ∉ p :: n :: t -> l_cells st' !! r = l_cells st !! r).
Proof.
  intros (Hnd & Hpath & Hlive)%ring_path Hn [cn Hcn].
  destruct (t ++ [p]) as [|q l2] eqn:Eq; [destruct t; discriminate|].
  assert (Hqin : q ∈ p :: t).
  { assert (Hx : q ∈ t ++ [p]) by (rewrite Eq; left). apply elem_of_app in Hx as [Hx| ->%elem_of_list_singleton]; [right; exact Hx|left]. }
  assert (Hx : nx (l_cells st) p = Some q) by (destruct Hpath as [[Hx _] _]; exact Hx).
  assert (Hnp : n <> p) by (intros ->; apply Hn; left). assert (Hnq : n <> q) by (intros ->; contradiction).
  destruct (link_add_ok d st p n q Hx) as (C' & R & N & P & D); [apply Hlive; exact Hqin|unfold dt; rewrite Hcn; eauto|exact Hnp|exact Hnq|].
  exists (set_cells C' st). split; [exact R|]. split; [|split].
  - apply ring_path. simpl. split; [|split].
    + apply NoDup_cons in Hnd as [Hnd1 Hnd2]. apply not_elem_of_cons in Hn as [_ Hn2].
      apply NoDup_cons. split; [intros [?|?]%elem_of_cons; [congruence|contradiction]|]. apply NoDup_cons. auto.
    + rewrite Eq. apply (path_insert d (nx (l_cells st)) (pv (l_cells st)) _ _ [] p n q l2).
      * simpl app. rewrite <- Eq. apply nodup_removelast_ring. exact Hnd.
      * simpl app. rewrite <- Eq. apply nodup_tail_ring. exact Hnd.
      * simpl app. rewrite <- Eq. intros [?|[?|?%elem_of_list_singleton]%elem_of_app]%elem_of_cons; [congruence| |congruence]. apply Hn. right. assumption.
      * exact Hpath.
      * exact N.
      * exact P.
    + intros r Hr. rewrite D. apply elem_of_cons in Hr as [->|[->|Hr]%elem_of_cons]; [apply Hlive; left|unfold dt; rewrite Hcn; eauto|apply Hlive; right; exact Hr].
  - intros r. apply dt_c_dat. apply D.
  - intros r Hr. rewrite !not_elem_of_cons in Hr. destruct Hr as (Hr1 & Hr2 & Hr3).
    apply (link_add_frame _ _ _ _ _ _ _ R Hx); [congruence|exact Hr1|exact Hr2|]. intros ->. apply elem_of_cons in Hqin as [?|?]; contradiction.
Qed.

Theorem ring_del d st p n t : is_ring d (l_cells st) (p :: n :: t) ->
  exists st', link_del d p n st = Ok (tt, st') /\ is_ring d (l_cells st') (p :: t) /\
    (exists c, l_cells st' !! n = Some c /\ c_next c = None /\ (d = true -> c_prev c = None)) /\
    (forall r, option_map c_dat (l_cells st' !! r) = option_map c_dat (l_cells st !! r)) /\
    (forall r, r ∉ p :: n :: t -> l_cells st' !! r = l_cells st !! r).
Proof.
  intros (Hnd & Hpath & Hlive)%ring_path. simpl in Hpath.
  destruct (t ++ [p]) as [|q l2] eqn:Eq; [destruct t; discriminate|].
  assert (Hqin : q ∈ p :: t).
  { assert (Hx : q ∈ t ++ [p]) by (rewrite Eq; left). apply elem_of_app in Hx as [Hx| ->%elem_of_list_singleton]; [right; exact Hx|left]. }
  assert (Hsub : forall r, r ∈ p :: t -> r ∈ p :: n :: t) by (intros r; rewrite !elem_of_cons; tauto).
  assert (Hx : nx (l_cells st) n = Some q) by (destruct Hpath as [_ [[Hx _] _]]; exact Hx).
  pose proof Hnd as Hnd0. apply NoDup_cons in Hnd as [Hn1 [Hn2 Hn3]%NoDup_cons].
  assert (Hnp : n <> p) by (intros ->; apply Hn1; left).
  assert (Hnq : n <> q) by (intros ->; apply elem_of_cons in Hqin as [?|?]; contradiction).
  destruct (link_del_ok d st p n q Hx) as (C' & R & N & P & D); [apply Hlive; left|apply Hlive, Hsub, Hqin|exact Hnp|exact Hnq|].
  exists (set_cells C' st). split; [exact R|]. split; [|split; [|split]].
  - apply ring_path. simpl. split; [|split].
    + apply NoDup_cons. split; [|exact Hn3]. intros Hi. apply Hn1. right. exact Hi.
    + rewrite Eq. apply (path_remove d (nx (l_cells st)) (pv (l_cells st)) _ _ [] p n q l2).
      * simpl app. rewrite <- Eq. apply (nodup_removelast_ring p (n :: t)). exact Hnd0.
      * simpl app. rewrite <- Eq. apply (nodup_tail_ring p (n :: t)). exact Hnd0.
      * exact Hpath.
      * intros r Hr. rewrite N, decide_False by exact Hr. reflexivity.
      * intros Hd r Hr. rewrite (P Hd), decide_False by exact Hr. reflexivity.
    + intros r Hr. rewrite D. apply Hlive, Hsub, Hr.
  - destruct (Hlive n) as [x Hxn]; [right; left|]. rewrite <- D in Hxn. apply dt_some in Hxn as (c & Ec & _). exists c. split; [exact Ec|].
    pose proof (N n) as Nn. rewrite decide_True in Nn by reflexivity. unfold nx in Nn. rewrite Ec in Nn. split; [exact Nn|].
    intros Hd. pose proof (P Hd n) as Pn. rewrite decide_True in Pn by reflexivity. unfold pv in Pn. rewrite Ec in Pn. exact Pn.
  - intros r. apply dt_c_dat. apply D.
  - intros r Hr. rewrite !not_elem_of_cons in Hr. destruct Hr as (Hr1 & Hr2 & Hr3).
    apply (link_del_frame _ _ _ _ _ _ _ R Hx); [congruence|exact Hr1|exact Hr2|]. intros ->. apply elem_of_cons in Hqin as [?|?]; contradiction.
Qed.

Theorem ring_init d st p : is_Some (l_cells st !! p) -> exists st', link_init d p st = Ok (tt, st') /\ is_ring d (l_cells st') [p].
Proof.
  intros [c Hc]. destruct (link_init_ok d st p) as (C' & R & N & P & D); [unfold dt; rewrite Hc; eauto|].
  exists (set_cells C' st). split; [exact R|]. apply ring_path. split; [apply NoDup_singleton|]. split.
  - simpl. split; [|exact I]. split; [rewrite N, decide_True by reflexivity; reflexivity|]. intros Hd. rewrite (P Hd), decide_True by reflexivity. reflexivity.
  - intros r ->%elem_of_list_singleton. simpl. rewrite D. unfold dt. rewrite Hc. eauto.
Qed.

(** A ring has no first member. *)
Theorem ring_rotate d C us vs : is_ring d C (us ++ vs) -> is_ring d C (vs ++ us).
Proof.
  assert (H1 : forall p t, is_ring d C (p :: t) -> is_ring d C (t ++ [p])).
  { intros p t Hr. pose proof Hr as (Hnd & Hpath & Hlive)%ring_path. destruct t as [|q t]; [exact Hr|]. cbn [app] in *. apply ring_path.
    assert (Hp : (q :: t ++ [p]) ≡ₚ (p :: q :: t)) by (rewrite app_comm_cons, Permutation_app_comm; reflexivity).
    split; [rewrite Hp; exact Hnd|]. split.
    - destruct Hpath as [Hl Hpath]. rewrite <- app_assoc. cbn [app]. change (q :: t ++ [p; q]) with ((q :: t) ++ p :: [q]). apply path_app.
      split; [exact Hpath|]. split; [exact Hl|exact I].
    - intros r Hr'. apply Hlive. rewrite <- Hp. exact Hr'. }
  revert vs. induction us as [|u us IH]; intros vs H; [rewrite app_nil_r; exact H|].
  simpl in H. apply H1 in H. rewrite <- app_assoc in H. apply IH in H. rewrite <- app_assoc in H. exact H.
Qed.

(** Walking the ring from [p] visits the other members once each, in order. *)
Lemma walk_path d st p : forall t q fuel, path d (nx (l_cells st)) (pv (l_cells st)) (t ++ [p]) -> p ∉ t ->
  (forall r, r ∈ t -> is_Some (dt (l_cells st) r)) -> head (t ++ [p]) = Some q -> length t < fuel ->
  exists zs : list A, ll_iter_loop fuel q p st = Ok (zs, st) /\ Forall2 (fun r x => dt (l_cells st) r = Some x) t zs.
Proof.
  induction t as [|a t IH]; intros q fuel Hp Hn Hl Hq Hf; (destruct fuel as [|fuel]; [lia|]); cbn [ll_iter_loop]; simpl in Hq; injection Hq as <-.
  - rewrite bool_decide_eq_true_2 by reflexivity. exists []. split; [reflexivity|constructor].
  - apply not_elem_of_cons in Hn as [Hn1 Hn2]. rewrite bool_decide_eq_false_2 by congruence.
    destruct (Hl a) as [x Hx]; [left|]. rewrite (bind_ok _ _ _ _ _ (ld_dat_ok _ _ _ Hx)). simpl app in Hp.
    destruct (t ++ [p]) as [|q l2] eqn:Eq; [destruct t; discriminate|]. destruct Hp as [[Hnx _] Hp].
    rewrite (bind_ok _ _ _ _ _ (ld_next_ok' _ _ _ Hnx)). cbn [nonnull]. rewrite bind_ret.
    destruct (IH q fuel) as (xs & R & HF); [exact Hp|exact Hn2|intros r Hr; apply Hl; right; exact Hr|reflexivity|simpl in Hf; lia|].
    rewrite (bind_ok _ _ _ _ _ R). exists (x :: xs). split; [reflexivity|constructor; assumption].
Qed.
Theorem ring_walk d st p t : is_ring d (l_cells st) (p :: t) -> exists c q (zs : list A),
  l_cells st !! p = Some c /\ c_next c = Some q /\ ll_iter_loop (S (length t)) q p st = Ok (zs, st) /\
  Forall2 (fun r x => option_map c_dat (l_cells st !! r) = Some x) t zs.
Proof.
  intros (Hnd & Hpath & Hlive)%ring_path. apply NoDup_cons in Hnd as [Hn _].
  destruct (t ++ [p]) as [|q l2] eqn:Eq; [destruct t; discriminate|]. destruct Hpath as [[Hx _] Hpath].
  apply nx_some in Hx as (c & Ec & Hx). rewrite <- Eq in Hpath.
  destruct (walk_path d st p t q (S (length t))) as (xs & R & HF); [exact Hpath|exact Hn|intros r Hr; apply Hlive; right; exact Hr|rewrite Eq; reflexivity|lia|].
  exists c, q, xs. auto.
Qed.

(** Iterating a list whose ring is known, whatever its size field says. *)
Lemma iter_ring d st id xs : is_Some (dt (l_cells st) (Head id)) -> path d (nx (l_cells st)) (pv (l_cells st)) (ringl id xs) ->
  (forall a x, (a, x) ∈ xs -> dt (l_cells st) (Node a) = Some x) -> NoDup xs.*1 -> ll_iter id st = Ok (xs.*2, st).
Proof.
  intros Hh Hpath Hdat Hnd. unfold ll_iter. unfold ringl in Hpath.
  destruct (nodes xs ++ [Head id]) as [|q l2] eqn:Eq; [destruct (nodes xs); discriminate|]. destruct Hpath as [[Hx _] Hpath]. rewrite <- Eq in Hpath.
  rewrite (bind_ok _ _ _ _ _ (ld_next_ok' _ _ _ Hx)). cbn [nonnull]. rewrite bind_ret.
  assert (Hl : forall r, r ∈ nodes xs -> is_Some (dt (l_cells st) r)).
  { intros r Hr. unfold nodes in Hr. apply elem_of_list_fmap in Hr as (a & -> & Ha). apply elem_of_list_fmap in Ha as ([b x] & -> & Hb). simpl.
    rewrite (Hdat _ _ Hb). eauto. }
  destruct (walk_path d st (Head id) (nodes xs) q (S (size (l_cells st)))) as (zs & R & HF); [exact Hpath|apply head_nodes|exact Hl|rewrite Eq; reflexivity| |].
  - assert (Hs : length (nodes xs) <= size (l_cells st)); [|lia].
    rewrite <- size_dom. rewrite <- (size_list_to_set (C := gset ptr) (nodes xs)) by (apply nodes_nodup; exact Hnd).
    apply subseteq_size. intros r Hr%elem_of_list_to_set. apply elem_of_dom. destruct (Hl r Hr) as [b (c & Ec & _)%dt_some]. eauto.
  - rewrite R. f_equal. f_equal. clear -HF Hdat. revert zs HF. induction xs as [|[a x] xs IH]; intros zs HF; inversion HF as [|r z l1 l2 Hd HF']; subst; [reflexivity|].
    rewrite (Hdat a x) in Hd by left. injection Hd as <-. simpl. f_equal. apply IH; [intros b y Hb; apply Hdat; right; exact Hb|exact HF'].
Qed.
End Ring.
