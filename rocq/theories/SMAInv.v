(** The allocator's invariant and the two list operations. *)
From Coq Require Import Sorted.
From Verif Require Import Base SMAModel SMASpec SMAProofs.
Open Scope Z_scope.

Section Inv.
Context (MEM MAX : Z) (HP : params MEM MAX).
Notation K := (nlists MAX - 1)%nat.
Notation blk := (Z * Z)%type.

Lemma K_val : Z.of_nat K = MAX / 8 /\ (1 <= K)%nat /\ nlists MAX = S K.
Proof.
  destruct HP as ((H1 & _) & _). assert (Hd : 1 <= MAX / 8) by (apply Z.div_le_lower_bound; lia). assert (Hn : nlists MAX = Z.to_nat (MAX / 8 + 1)) by (unfold nlists; rewrite Z.quot_div_nonneg by lia; reflexivity).
  rewrite Hn. lia.
Qed.

Definition okb (st : sma) (i : nat) (b : blk) : Prop :=
  ((i < K)%nat -> b.2 = 8 * (Z.of_nat i + 1)) /\
  (i = K -> 16 <= b.2 /\ (8 * Z.of_nat K < b.2 \/ b.2 = MEM) /\ m_mem st !! (b.1 + 8) = Some (WInt b.2)).

Record inv (st : sma) (G : list (list blk)) (B : list blk) : Prop := {
  inv_heads : length (m_heads st) = nlists MAX;
  inv_len : length G = nlists MAX;
  inv_links : forall i xs, G !! i = Some xs -> links (next st) (Head i) xs.*1;
  inv_okb : forall i xs b, G !! i = Some xs -> b ∈ xs -> okb st i b;
  inv_good : Forall good (mjoin G ++ B);
  inv_words : words (mjoin G ++ B) ≡ₚ bw (0, MEM);
  inv_sorted : forall i xs, G !! i = Some xs -> StronglySorted Z.lt xs.*1
}.

(** What a list operation leaves alone: the counter and the words of [B]. *)
Definition stable (B : list blk) (st st' : sma) : Prop :=
  m_free st' = m_free st /\ forall x, x ∈ words B -> m_mem st' !! x = m_mem st !! x.
Lemma stable_refl B st : stable B st st.
Proof. split; reflexivity. Qed.
Lemma stable_trans B s1 s2 s3 : stable B s1 s2 -> stable B s2 s3 -> stable B s1 s3.
Proof. intros [A1 A2] [B1 B2]. split; [congruence|]. intros x Hx. rewrite B2, A2 by exact Hx. reflexivity. Qed.
Lemma stable_sub B B' s1 s2 : stable B s1 s2 -> (forall x, x ∈ words B' -> x ∈ words B) -> stable B' s1 s2.
Proof. intros [A1 A2] H. split; [exact A1|]. intros x Hx. apply A2, H, Hx. Qed.

Lemma join_app (G H : list (list blk)) : mjoin (G ++ H) = mjoin G ++ mjoin H.
Proof. induction G as [|x G IH]; [reflexivity|]. cbn. rewrite <- app_assoc. f_equal. exact IH. Qed.
Lemma join_split (G : list (list blk)) i xs : G !! i = Some xs -> mjoin G ≡ₚ xs ++ mjoin (delete i G).
Proof. intros H. rewrite <- (take_drop_middle G i xs H) at 1. rewrite delete_take_drop, !join_app. cbn. rewrite !app_assoc. apply Permutation_app_tail, Permutation_app_comm. Qed.
Lemma join_insert (G : list (list blk)) i xs ys : G !! i = Some xs -> mjoin (<[i := ys]> G) ≡ₚ ys ++ mjoin (delete i G).
Proof.
  intros H. rewrite insert_take_drop by (eapply lookup_lt_Some; exact H). rewrite delete_take_drop, !join_app. cbn. rewrite !app_assoc. apply Permutation_app_tail, Permutation_app_comm.
Qed.
Lemma other_in (G : list (list blk)) i j ys (b : blk) : G !! j = Some ys -> j <> i -> b ∈ ys -> b ∈ mjoin (delete i G).
Proof.
  intros H Hne Hb. apply elem_of_list_join. exists ys. split; [exact Hb|]. rewrite delete_take_drop, elem_of_app. destruct (Nat.lt_ge_cases j i) as [Hlt|Hge].
  - left. apply elem_of_list_lookup. exists j. rewrite lookup_take by exact Hlt. exact H.
  - right. apply elem_of_list_lookup. exists (j - S i)%nat. rewrite lookup_drop. replace (S i + (j - S i))%nat with j by lia. exact H.
Qed.
Lemma join_in (G : list (list blk)) i xs (b : blk) : G !! i = Some xs -> b ∈ xs -> b ∈ mjoin G.
Proof. intros H Hb. apply elem_of_list_join. exists xs. split; [exact Hb|]. eapply elem_of_list_lookup_2. exact H. Qed.

Lemma sep L b L' c x : NoDup (words L) -> L ≡ₚ b :: L' -> c ∈ L' -> x ∈ bw b -> x ∈ bw c -> False.
Proof.
  intros Hnd HL Hc Hb Hx. rewrite HL, words_cons in Hnd. apply NoDup_app in Hnd as (_ & Hd & _). apply (Hd x Hb). apply elem_words. exists c. auto.
Qed.
Lemma sep_app L1 L2 b c x : NoDup (words (L1 ++ L2)) -> b ∈ L1 -> c ∈ L2 -> x ∈ bw b -> x ∈ bw c -> False.
Proof. rewrite words_app, NoDup_app. intros (_ & Hd & _) Hb Hc H1 H2. apply (Hd x); apply elem_words; eauto. Qed.

Section One.
Context (st : sma) (G : list (list blk)) (B : list blk) (HI : inv st G B).
Lemma inv_nodup : NoDup (words (mjoin G ++ B)).
Proof. rewrite (inv_words _ _ _ HI). apply NoDup_bw. Qed.
Lemma word_in_pool b x : b ∈ mjoin G ++ B -> x ∈ bw b -> in_pool MEM x = true /\ 0 <= x < MEM /\ x mod 8 = 0.
Proof.
  intros Hb Hx. destruct HP as (_ & _ & H8 & _). assert (H : x ∈ bw (0, MEM)) by (rewrite <- (inv_words _ _ _ HI); apply elem_words; eauto).
  apply elem_bw in H as [H1 H2]; [|exact H8]. rewrite Z.sub_0_r in H2. split; [|split; [lia|exact H2]]. unfold in_pool. rewrite H2, Z.eqb_refl, andb_true_r.
  destruct (div8 _ H2) as [q ->]. destruct (div8 _ H8) as [r Hr]. apply andb_true_intro. rewrite !Z.leb_le. lia.
Qed.
Lemma good_of b : b ∈ mjoin G ++ B -> good b.
Proof. intros Hb. pose proof (inv_good _ _ _ HI) as H. rewrite Forall_forall in H. apply H, Hb. Qed.
Lemma block_bounds a n : (a, n) ∈ mjoin G ++ B -> 0 <= a /\ a mod 8 = 0 /\ 0 < n /\ n mod 8 = 0 /\ a + n <= MEM.
Proof.
  intros Hb. pose proof (good_of _ Hb) as [Hn H8]. cbn [snd] in *. pose proof (bw_first a n (conj Hn H8)) as Hf. destruct (word_in_pool _ _ Hb Hf) as (_ & Ha & Ha8).
  assert (Hl : a + n - 8 ∈ bw (a, n)). { apply elem_bw; [exact H8|]. destruct (div8 _ H8) as [q ->]. split; [lia|]. replace (a + 8 * q - 8 - a) with ((q - 1) * 8) by lia. apply Z_mod_mult. }
  destruct (word_in_pool _ _ Hb Hl) as (Hp & _). unfold in_pool in Hp. apply andb_true_iff in Hp as [Hp _]. apply andb_true_iff in Hp as [_ Hp]. apply Z.leb_le in Hp. repeat split; lia.
Qed.
Lemma fuel_ok i xs : G !! i = Some xs -> (length xs < fuel0 MEM)%nat.
Proof.
  intros H. unfold fuel0. assert (Hl : forall L, Forall good L -> (length L <= length (words L))%nat).
  { intros L HL. induction HL as [|b L Hb HL IH]; [simpl; lia|]. rewrite words_cons, app_length. cbn [length]. pose proof (bw_length _ Hb). destruct Hb as [Hb _]. lia. }
  specialize (Hl _ (inv_good _ _ _ HI)). rewrite (Permutation_length (inv_words _ _ _ HI)) in Hl. rewrite app_length, (Permutation_length (join_split _ _ _ H)), app_length in Hl.
  unfold bw in Hl. rewrite fmap_length, seq_length in Hl. cbn [snd] in Hl. lia.
Qed.
Lemma addrs_nodup i xs : G !! i = Some xs -> NoDup xs.*1.
Proof.
  intros H. pose proof (inv_sorted _ _ _ HI _ _ H) as Hs. induction Hs as [|a l Hs IH Hf]; [apply NoDup_nil_2|]. apply NoDup_cons. split; [|exact IH].
  intros Ha. rewrite Forall_forall in Hf. specialize (Hf _ Ha). lia.
Qed.
Lemma in_list i xs b : G !! i = Some xs -> b ∈ xs -> b ∈ mjoin G ++ B.
Proof. intros H Hb. apply elem_of_app. left. eapply join_in; eassumption. Qed.
End One.

(** Changing list [i] and the bag. *)
Lemma inv_change st G B st' i xs xs' B' : inv st G B -> G !! i = Some xs ->
  words (xs' ++ B') ≡ₚ words (xs ++ B) -> Forall good (xs' ++ B') ->
  links (next st') (Head i) xs'.*1 -> (forall b, b ∈ xs' -> okb st' i b) -> StronglySorted Z.lt xs'.*1 ->
  length (m_heads st') = length (m_heads st) -> (forall j, j <> i -> m_heads st' !! j = m_heads st !! j) ->
  (forall x, x ∈ words (xs ++ B) \/ m_mem st' !! x = m_mem st !! x) ->
  inv st' (<[i := xs']> G) B'.
Proof.
  intros HI Hi Hw Hg Hl Hok Hs Hh Hhj Hm.
  assert (Hother : forall j ys b x, j <> i -> G !! j = Some ys -> b ∈ ys -> x ∈ bw b -> m_mem st' !! x = m_mem st !! x).
  { intros j ys b x Hne Hj Hb Hx. destruct (Hm x) as [Hin|E]; [exfalso|exact E]. apply elem_words in Hin as (c & Hc & Hxc).
    apply (sep_app (xs ++ B) (mjoin (delete i G)) c b x); [|exact Hc|eapply other_in; eassumption|exact Hxc|exact Hx].
    rewrite <- app_assoc, (Permutation_app_comm B), app_assoc, <- (join_split _ _ _ Hi). apply (inv_nodup _ _ _ HI). }
  assert (Hnew : mjoin (<[i := xs']> G) ++ B' ≡ₚ (xs' ++ B') ++ mjoin (delete i G)).
  { rewrite (join_insert _ _ _ _ Hi), <- !app_assoc. apply Permutation_app_head, Permutation_app_comm. }
  assert (Hold : mjoin G ++ B ≡ₚ (xs ++ B) ++ mjoin (delete i G)).
  { rewrite (join_split _ _ _ Hi), <- !app_assoc. apply Permutation_app_head, Permutation_app_comm. }
  assert (Hlt : (i < length G)%nat) by (eapply lookup_lt_Some; exact Hi).
  split.
  - rewrite Hh. apply (inv_heads _ _ _ HI).
  - rewrite insert_length. apply (inv_len _ _ _ HI).
  - intros j ys Hj. destruct (decide (j = i)) as [->|Hne]; [rewrite list_lookup_insert in Hj by exact Hlt; injection Hj as <-; exact Hl|].
    rewrite list_lookup_insert_ne in Hj by congruence. eapply links_ext; [|apply (inv_links _ _ _ HI _ _ Hj)]. intros l' [->|(a & -> & Ha)]; cbn [next]; [apply Hhj, Hne|].
    apply elem_of_list_fmap in Ha as ([a' n] & -> & Ha). cbn [fst]. rewrite (Hother j ys (a', n) a' Hne Hj Ha); [reflexivity|]. apply bw_first. eapply good_of; [exact HI|]. eapply in_list; eassumption.
  - intros j ys b Hj Hb. destruct (decide (j = i)) as [->|Hne]; [rewrite list_lookup_insert in Hj by exact Hlt; injection Hj as <-; apply Hok, Hb|].
    rewrite list_lookup_insert_ne in Hj by congruence. destruct (inv_okb _ _ _ HI _ _ _ Hj Hb) as [O1 O2]. split; [exact O1|]. intros Ej. destruct (O2 Ej) as (P1 & P2 & P3).
    split; [exact P1|]. split; [exact P2|]. rewrite (Hother j ys b (b.1 + 8) Hne Hj Hb); [exact P3|]. destruct b as [a n]. apply bw_second; [eapply good_of; [exact HI|eapply in_list; eassumption]|exact P1].
  - rewrite Hnew. apply Forall_app. split; [exact Hg|]. pose proof (inv_good _ _ _ HI) as H. rewrite Hold in H. apply Forall_app in H as [_ H]. exact H.
  - rewrite Hnew, words_app, Hw, <- words_app, <- Hold. apply (inv_words _ _ _ HI).
  - intros j ys Hj. destruct (decide (j = i)) as [->|Hne]; [rewrite list_lookup_insert in Hj by exact Hlt; injection Hj as <-; exact Hs|].
    rewrite list_lookup_insert_ne in Hj by congruence. apply (inv_sorted _ _ _ HI _ _ Hj).
Qed.
Lemma inv_bag st G B B' : inv st G B -> words B' ≡ₚ words B -> Forall good B' -> inv st G B'.
Proof.
  intros HI Hw Hg. destruct HI as [h1 h2 h3 h4 h5 h6 h7]. split; try assumption; [apply Forall_app; apply Forall_app in h5 as [h5 _]; auto|]. rewrite words_app, Hw, <- words_app. exact h6.
Qed.
(** Joining and splitting blocks outside the lists. *)
Lemma inv_join st G a n m B : inv st G ((a, n) :: (a + n, m) :: B) -> inv st G ((a, n + m) :: B).
Proof.
  intros HI. pose proof (inv_good _ _ _ HI) as Hg. apply Forall_app in Hg as [_ Hg]. apply Forall_cons in Hg as [[G1 G2] Hg]. apply Forall_cons in Hg as [[G3 G4] Hg]. cbn [snd] in *.
  eapply inv_bag; [exact HI| |].
  - rewrite !words_cons, bw_app by lia. rewrite <- app_assoc. reflexivity.
  - constructor; [|exact Hg]. split; cbn [snd]; [lia|]. rewrite Z.add_mod, G2, G4 by lia. reflexivity.
Qed.
Lemma inv_split st G a n m B : inv st G ((a, n) :: B) -> 0 < m < n -> m mod 8 = 0 -> inv st G ((a, m) :: (a + m, n - m) :: B).
Proof.
  intros HI Hm H8. pose proof (inv_good _ _ _ HI) as Hg. apply Forall_app in Hg as [_ Hg]. apply Forall_cons in Hg as [[G1 G2] Hg]. cbn [snd] in *.
  eapply inv_bag; [exact HI| |].
  - rewrite !words_cons. replace n with (m + (n - m)) at 2 by lia. rewrite bw_app by lia. rewrite <- app_assoc. reflexivity.
  - constructor; [split; cbn [snd]; [lia|exact H8]|]. constructor; [|exact Hg]. split; cbn [snd]; [lia|]. rewrite Zminus_mod, G2, H8. reflexivity.
Qed.

(** ** Reading and writing links *)
Definition upd (l : loc) (p : option Z) (st : sma) : sma :=
  match l with
  | Head i => SMA (m_free st) (<[i := p]> (m_heads st)) (m_mem st)
  | Blk a => SMA (m_free st) (m_heads st) (<[a := WPtr p]> (m_mem st))
  end.
Definition okloc (st : sma) (l : loc) : Prop := match l with Head i => (i < length (m_heads st))%nat | Blk a => in_pool MEM a = true end.
Lemma rd_ok st l p : next st l = Some p -> rd l st = Ok (p, st).
Proof. intros H. unfold rd. rewrite H. reflexivity. Qed.
Lemma wr_ok st l p : okloc st l -> wr MEM l p st = Ok (tt, upd l p st).
Proof. destruct l as [i|a]; intros H; cbn [wr okloc] in *; [rewrite (proj2 (Nat.ltb_lt _ _) H); reflexivity|]. unfold wr_word. rewrite H. reflexivity. Qed.
Lemma next_upd st l p l' : okloc st l -> next (upd l p st) l' = if decide (l' = l) then Some p else next st l'.
Proof.
  intros H. destruct (decide (l' = l)) as [->|Hne].
  - destruct l as [i|a]; cbn [upd next m_heads m_mem]; [apply list_lookup_insert; exact H|rewrite lookup_insert; reflexivity].
  - destruct l as [i|a], l' as [j|b]; cbn [upd next m_heads m_mem]; try reflexivity; [rewrite list_lookup_insert_ne by congruence; reflexivity|rewrite lookup_insert_ne by congruence; reflexivity].
Qed.
Lemma lastloc_ok st G B i pre suf : inv st G B -> G !! i = Some (pre ++ suf) -> okloc st (lastloc (Head i) pre.*1).
Proof.
  intros HI Hi. destruct (lastloc_in (Head i) pre.*1) as [->|(a & -> & Ha)]; cbn [okloc].
  - rewrite (inv_heads _ _ _ HI), <- (inv_len _ _ _ HI). eapply lookup_lt_Some. exact Hi.
  - apply elem_of_list_fmap in Ha as ([a' n] & -> & Ha). cbn [fst]. assert (Hb : (a', n) ∈ mjoin G ++ B) by (eapply in_list; [exact Hi|apply elem_of_app; auto]).
    eapply (word_in_pool _ _ _ HI); [exact Hb|]. apply bw_first. eapply good_of; eassumption.
Qed.
Lemma sorted_app_del {X} (R : X -> X -> Prop) pre x suf : StronglySorted R (pre ++ x :: suf) -> StronglySorted R (pre ++ suf).
Proof.
  induction pre as [|y pre IH]; cbn [app]; intros H; apply StronglySorted_inv in H as [H1 H2]; [exact H1|]. constructor; [apply IH, H1|].
  apply Forall_app in H2 as [A1 A2]. apply Forall_cons in A2 as [_ A2]. apply Forall_app. auto.
Qed.
Lemma lastloc_word (i : nat) (pre : list blk) (st : sma) p x : Forall good pre -> m_mem (upd (lastloc (Head i) pre.*1) p st) !! x = m_mem st !! x \/ x ∈ words pre.
Proof.
  intros Hg. destruct (lastloc_in (Head i) pre.*1) as [->|(a & -> & Ha)]; cbn [upd m_mem]; [left; reflexivity|]. destruct (decide (x = a)) as [->|Hne]; [right|left; rewrite lookup_insert_ne by congruence; reflexivity].
  apply elem_of_list_fmap in Ha as ([a' n] & -> & Ha). apply elem_words. exists (a', n). split; [exact Ha|]. apply bw_first. rewrite Forall_forall in Hg. apply Hg, Ha.
Qed.
Lemma upd_heads_other (i : nat) (zs : list Z) p st j : j <> i -> m_heads (upd (lastloc (Head i) zs) p st) !! j = m_heads st !! j.
Proof. intros Hne. destruct (lastloc_in (Head i) zs) as [->|(a & -> & _)]; cbn [upd m_heads]; [apply list_lookup_insert_ne; congruence|reflexivity]. Qed.
Lemma upd_heads_len l p st : length (m_heads (upd l p st)) = length (m_heads st).
Proof. destruct l; cbn [upd m_heads]; [apply insert_length|reflexivity]. Qed.
Lemma upd_free l p st : m_free (upd l p st) = m_free st.
Proof. destruct l; reflexivity. Qed.

(** Taking a block off list [i]. *)
Lemma remove_ok st G B i pre a n suf : inv st G B -> G !! i = Some (pre ++ (a, n) :: suf) ->
  exists nx, next st (Blk a) = Some nx /\ wr MEM (lastloc (Head i) pre.*1) nx st = Ok (tt, upd (lastloc (Head i) pre.*1) nx st) /\
    inv (upd (lastloc (Head i) pre.*1) nx st) (<[i := pre ++ suf]> G) ((a, n) :: B) /\ stable B st (upd (lastloc (Head i) pre.*1) nx st).
Proof.
  intros HI Hi. pose proof (inv_links _ _ _ HI _ _ Hi) as Hl. rewrite fmap_app in Hl. cbn [fmap list_fmap fst] in Hl.
  pose proof (addrs_nodup _ _ _ HI _ _ Hi) as Hnd. rewrite fmap_app in Hnd. cbn [fmap list_fmap fst] in Hnd.
  assert (Hx : exists nx, next st (Blk a) = Some nx).
  { apply links_app in Hl as [_ Hl]. apply links_cons in Hl as [_ Hl]. destruct suf as [|[c m] suf]; [apply links_nil in Hl; eauto|apply links_cons in Hl as [Hl _]; eauto]. }
  destruct Hx as [nx Hx]. exists nx. split; [exact Hx|]. set (l := lastloc (Head i) pre.*1). assert (Hloc : okloc st l) by (eapply lastloc_ok; eassumption).
  split; [apply wr_ok; exact Hloc|].
  assert (Hgp : Forall good pre).
  { pose proof (inv_good _ _ _ HI) as H. rewrite (join_split _ _ _ Hi) in H. rewrite !Forall_app in H. tauto. }
  assert (Hgx : Forall good ((a, n) :: suf)).
  { pose proof (inv_good _ _ _ HI) as H. rewrite (join_split _ _ _ Hi) in H. rewrite !Forall_app in H. tauto. }
  assert (HgB : Forall good B) by (pose proof (inv_good _ _ _ HI) as H; rewrite Forall_app in H; tauto).
  split; [|split; [apply upd_free|]].
  - eapply (inv_change st G B _ i (pre ++ (a, n) :: suf) (pre ++ suf) ((a, n) :: B) HI Hi).
    + apply words_perm. rewrite <- !app_assoc. apply Permutation_app_head. symmetry. rewrite <- app_comm_cons. apply Permutation_middle.
    + apply Forall_cons in Hgx as [G1 G2]. rewrite !Forall_app. split; [split; assumption|]. constructor; assumption.
    + rewrite fmap_app. eapply links_del; [exact Hnd|exact Hl| |].
      * rewrite next_upd by exact Hloc. rewrite decide_True by reflexivity. symmetry. exact Hx.
      * intros l' Hne. rewrite next_upd by exact Hloc. rewrite decide_False by exact Hne. reflexivity.
    + intros b Hb. assert (Hb' : b ∈ pre ++ (a, n) :: suf) by (rewrite elem_of_app in *; rewrite elem_of_cons; tauto).
      destruct (inv_okb _ _ _ HI _ _ _ Hi Hb') as [O1 O2]. split; [exact O1|]. intros E. destruct (O2 E) as (P1 & P2 & P3). split; [exact P1|]. split; [exact P2|].
      destruct (lastloc_in (Head i) pre.*1) as [E2|(c & E2 & Hc)]; unfold l; rewrite E2; cbn [upd m_mem]; [exact P3|]. rewrite lookup_insert_ne; [exact P3|].
      intros Ec. apply elem_of_list_fmap in Hc as ([c' m] & -> & Hc). cbn [fst] in Ec. destruct b as [ba bn]. cbn [fst snd] in *.
      assert (Hgb : good (ba, bn)) by (eapply good_of; [exact HI|eapply in_list; eassumption]). assert (Hgc : good (c', m)) by (rewrite Forall_forall in Hgp; apply Hgp, Hc).
      destruct (decide ((ba, bn) = (c', m))) as [[= -> ->]|Hne]; [lia|].
      pose proof (inv_nodup _ _ _ HI) as Hndw. apply elem_of_Permutation in Hb' as [L' HL'].
      apply (sep (mjoin G ++ B) (ba, bn) (L' ++ mjoin (delete i G) ++ B) (c', m) c' Hndw).
      * rewrite (join_split _ _ _ Hi), HL'. cbn [app]. rewrite <- app_assoc. reflexivity.
      * assert (Hc' : (c', m) ∈ pre ++ (a, n) :: suf) by (apply elem_of_app; auto). rewrite HL' in Hc'. apply elem_of_cons in Hc' as [E3|Hc']; [congruence|]. apply elem_of_app. auto.
      * rewrite Ec. apply bw_second; assumption.
      * apply bw_first. exact Hgc.
    + rewrite fmap_app. eapply sorted_app_del. pose proof (inv_sorted _ _ _ HI _ _ Hi) as Hs. rewrite fmap_app in Hs. exact Hs.
    + apply upd_heads_len.
    + intros j Hne. apply upd_heads_other, Hne.
    + intros x. destruct (lastloc_word i pre st nx x Hgp) as [E|E]; [right; exact E|left]. rewrite !words_app, !elem_of_app. auto.
  - intros x Hx'. destruct (lastloc_word i pre st nx x Hgp) as [E|E]; [exact E|exfalso]. apply elem_words in E as (b & Hb & Hxb). apply elem_words in Hx' as (c & Hc & Hxc).
    apply (sep_app (mjoin G) B b c x (inv_nodup _ _ _ HI)); [|exact Hc|exact Hxb|exact Hxc]. eapply join_in; [exact Hi|]. apply elem_of_app. auto.
Qed.
End Inv.
