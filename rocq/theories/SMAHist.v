(** What holds of every state a client can bring about. *)
From Coq Require Import Sorted.
From Verif Require Import Base SMAModel SMASpec SMAProofs SMAInv SMAOps SMAAlloc SMAMerge.
Open Scope Z_scope.

Section Hist.
Context (MEM MAX : Z) (HP : params MEM MAX).
Notation K := (nlists MAX - 1)%nat.
Notation blk := (Z * Z)%type.
Notation inv := (inv MEM MAX).

Definition lblock (p : Z * Z) : blk := (p.1, rounded p.2).
Definition blocks (led : gmap Z Z) : list blk := lblock <$> map_to_list led.
Lemma blocks_in led a n : led !! a = Some n -> (a, rounded n) ∈ blocks led.
Proof. intros H. apply elem_of_list_fmap. exists (a, n). split; [reflexivity|]. apply elem_of_map_to_list, H. Qed.
Lemma in_blocks led a m : (a, m) ∈ blocks led -> exists n, led !! a = Some n /\ m = rounded n.
Proof. intros H. apply elem_of_list_fmap in H as ([b n] & [= -> ->] & H). apply elem_of_map_to_list in H. eauto. Qed.
Lemma blocks_insert led a n : led !! a = None -> blocks (<[a := n]> led) ≡ₚ (a, rounded n) :: blocks led.
Proof. intros H. unfold blocks. rewrite map_to_list_insert by exact H. reflexivity. Qed.
Lemma blocks_delete led a n : led !! a = Some n -> blocks led ≡ₚ (a, rounded n) :: blocks (delete a led).
Proof. intros H. unfold blocks. rewrite <- (map_to_list_delete _ _ _ H). reflexivity. Qed.
Lemma blocks_bytes led : bytes (blocks led) = live_bytes led.
Proof. unfold live_bytes, blocks. unfold map_fold, compose. induction (map_to_list led) as [|[a n] l IH]; [reflexivity|]. cbn. unfold bytes in IH. rewrite IH. reflexivity. Qed.

Definition state_ok (st : sma) (led : gmap Z Z) (G : list (list blk)) : Prop :=
  inv st G (blocks led) /\ m_free st = MEM - live_bytes led /\ forall a n, led !! a = Some n -> 0 < n /\ n + 8 <= INT_MAX.

Lemma lookup_init i xs : (replicate K [] ++ [[(0, MEM)]]) !! i = Some xs -> (xs = [] /\ (i < K)%nat) \/ (xs = [(0, MEM)] /\ i = K).
Proof.
  intros H. destruct (Nat.lt_ge_cases i K) as [Hlt|Hge].
  - rewrite lookup_app_l in H by (rewrite replicate_length; exact Hlt). rewrite lookup_replicate_2 in H by exact Hlt. injection H as <-. auto.
  - rewrite lookup_app_r in H by (rewrite replicate_length; exact Hge). rewrite replicate_length in H. destruct (i - K)%nat as [|k] eqn:E; [|rewrite lookup_cons in H; destruct k; discriminate]. injection H as <-. right. split; [reflexivity|lia].
Qed.
Lemma join_replicate k : mjoin (replicate k ([] : list blk) ++ [[(0, MEM)]]) = [(0, MEM)].
Proof. induction k as [|k IH]; [reflexivity|exact IH]. Qed.
Lemma init_inv : inv (sma_init MEM MAX) (replicate K [] ++ [[(0, MEM)]]) [].
Proof.
  destruct (K_val MEM MAX HP) as (HK & HK1 & HKn). destruct HP as (HX & HM & HM8 & HMI). split.
  - cbn [sma_init m_heads]. rewrite app_length, replicate_length. simpl. lia.
  - rewrite app_length, replicate_length. simpl. lia.
  - intros i xs H. destruct (lookup_init _ _ H) as [[-> Hi]|[-> ->]].
    + apply links_nil. cbn [next sma_init m_heads]. rewrite lookup_app_l by (rewrite replicate_length; exact Hi). apply lookup_replicate_2, Hi.
    + cbn [fmap list_fmap fst]. apply links_cons. split.
      * cbn [next sma_init m_heads]. rewrite lookup_app_r by (rewrite replicate_length; lia). rewrite replicate_length, Nat.sub_diag. reflexivity.
      * apply links_nil. cbn [next sma_init m_mem]. rewrite lookup_insert. reflexivity.
  - intros i xs b H Hb. destruct (lookup_init _ _ H) as [[-> Hi]|[-> ->]]; [inversion Hb|]. apply elem_of_list_singleton in Hb as ->. split; [lia|]. intros _. cbn [fst snd]. split; [lia|]. split; [right; reflexivity|].
    cbn [sma_init m_mem]. rewrite lookup_insert_ne by lia. apply lookup_insert.
  - rewrite app_nil_r, join_replicate. constructor; [split; cbn [snd]; [lia|exact HM8]|constructor].
  - rewrite app_nil_r, join_replicate, words_cons. unfold words. cbn. rewrite app_nil_r. reflexivity.
  - intros i xs H. destruct (lookup_init _ _ H) as [[-> Hi]|[-> ->]]; [constructor|]. cbn. repeat constructor.
Qed.
Lemma init_ok : state_ok (sma_init MEM MAX) ∅ (replicate K [] ++ [[(0, MEM)]]).
Proof. split; [exact init_inv|]. split; [|intros a n H; rewrite lookup_empty in H; discriminate]. unfold live_bytes. rewrite map_fold_empty. cbn. lia. Qed.

Lemma fresh st led G a m B : inv st G ((a, m) :: B) -> B = blocks led -> led !! a = None.
Proof.
  intros HI ->. destruct (led !! a) as [n|] eqn:E; [exfalso|reflexivity]. pose proof (blocks_in _ _ _ E) as Hb.
  apply (sep (mjoin G ++ (a, m) :: blocks led) (a, m) (mjoin G ++ blocks led) (a, rounded n) a (inv_nodup MEM MAX _ _ _ HI)).
  - symmetry. apply Permutation_middle.
  - apply elem_of_app. auto.
  - apply bw_first. eapply (good_of MEM MAX); [exact HI|]. apply elem_of_app. right. left.
  - apply bw_first. eapply (good_of MEM MAX); [exact HI|]. apply elem_of_app. right. right. exact Hb.
Qed.
Lemma inv_perm st G B B' : inv st G B -> B' ≡ₚ B -> inv st G B'.
Proof. intros HI H. eapply inv_bag; [exact HI|rewrite H; reflexivity|]. pose proof (inv_good _ _ _ _ _ HI) as Hg. apply Forall_app in Hg as [_ Hg]. rewrite H. exact Hg. Qed.

Lemma owned_word st led G x : state_ok st led G -> owned led x -> x mod 8 = 0 -> x ∈ words (blocks led).
Proof.
  intros (HI & _ & _) (a & n & Ha & Hw) H8. pose proof (blocks_in _ _ _ Ha) as Hb. apply elem_words. exists (a, rounded n). split; [exact Hb|].
  pose proof (block_bounds MEM MAX HP _ _ _ HI a (rounded n) ltac:(apply elem_of_app; auto)) as (B1 & B2 & B3 & B4 & B5). apply elem_bw; [exact B4|]. unfold within in Hw. split; [lia|]. rewrite Zminus_mod, H8, B2. reflexivity.
Qed.

Lemma alloc_step st led G n : state_ok st led G -> 0 < n -> n + 8 <= INT_MAX ->
  (allocate MEM MAX n st = Ok (None, st) /\ forall a d, (a, d) ∈ mjoin G -> d < rounded n) \/
  (exists a d R G' st', mjoin G ≡ₚ (a, d) :: R /\ mjoin G' ≡ₚ (if d =? rounded n then [] else [(a + rounded n, d - rounded n)]) ++ R /\ rounded n <= d /\ led !! a = None /\
     allocate MEM MAX n st = Ok (Some a, st') /\ state_ok st' (<[a := n]> led) G' /\ forall x, x ∈ words (blocks led) -> m_mem st' !! x = m_mem st !! x).
Proof.
  intros (HI & Hf & Hn) H0 H8. destruct (allocate_ok MEM MAX HP _ _ _ n HI H0 H8) as [A|(a & d & R & G' & st' & E1 & E2 & E3 & E4 & HI' & Hf' & Hs)]; [left; exact A|right].
  assert (Hfr : led !! a = None) by (eapply fresh; [exact HI'|reflexivity]). exists a, d, R, G', st'. split; [exact E1|]. split; [exact E2|]. split; [exact E3|]. split; [exact Hfr|]. split; [exact E4|]. split; [|exact Hs].
  split; [|split].
  - eapply inv_perm; [exact HI'|]. apply blocks_insert, Hfr.
  - rewrite Hf', Hf. rewrite <- !blocks_bytes. rewrite (blocks_insert _ _ _ Hfr). cbn. fold (bytes (blocks led)). lia.
  - intros b m Hb. destruct (decide (b = a)) as [->|Hne]; [rewrite lookup_insert in Hb; injection Hb as <-; auto|]. rewrite lookup_insert_ne in Hb by congruence. eauto.
Qed.
Lemma dealloc_step st led G a n : state_ok st led G -> led !! a = Some n ->
  exists G' st', deallocate MEM MAX (Some a) n st = Ok (true, st') /\ state_ok st' (delete a led) G' /\ mjoin G' ≡ₚ (a, rounded n) :: mjoin G /\
    forall x, x ∈ words (blocks (delete a led)) -> m_mem st' !! x = m_mem st !! x.
Proof.
  intros (HI & Hf & Hn) Ha. destruct (Hn _ _ Ha) as [H0 H8]. pose proof (blocks_delete _ _ _ Ha) as Hd.
  destruct (deallocate_ok MEM MAX HP st G (blocks (delete a led)) a n) as (G' & st' & E & HI' & Hm & Hf' & Hs); [eapply inv_perm; [exact HI|symmetry; exact Hd]|exact H0|exact H8|].
  exists G', st'. split; [exact E|]. split; [split; [exact HI'|split]|split; [exact Hm|exact Hs]].
  - rewrite Hf', Hf, <- !blocks_bytes, Hd. cbn. fold (bytes (blocks (delete a led))). lia.
  - intros b m Hb. apply lookup_delete_Some in Hb as [_ Hb]. eauto.
Qed.
Lemma merge_step st led G : state_ok st led G -> exists G' st', memory_merge MEM MAX st = Ok (tt, st') /\ state_ok st' led G' /\ m_free st' = m_free st /\
  cover (mjoin G) (mjoin G') /\ (forall i xs, G' !! i = Some xs -> no_adj xs) /\ forall x, x ∈ words (blocks led) -> m_mem st' !! x = m_mem st !! x.
Proof.
  intros (HI & Hf & Hn). destruct (memory_merge_ok MEM MAX HP _ _ _ HI) as (st' & G' & E & HI' & [S1 S2] & Hc & Hna). exists G', st'. split; [exact E|]. split; [split; [exact HI'|split; [congruence|exact Hn]]|]. auto.
Qed.
Lemma write_step st led G a x : state_ok st led G -> owned led a -> a mod 8 = 0 -> exists st', user_write MEM a x st = Ok (tt, st') /\ state_ok st' led G.
Proof.
  intros Hok Ho H8. pose proof (owned_word _ _ _ _ Hok Ho H8) as Hw. destruct Hok as (HI & Hf & Hn). apply elem_words in Hw as (b & Hb & Hab).
  destruct (word_in_pool MEM MAX HP _ _ _ HI b a ltac:(apply elem_of_app; auto) Hab) as (Hp & _). unfold user_write, wr_word. rewrite Hp. eexists. split; [reflexivity|]. split; [|split; [exact Hf|exact Hn]].
  eapply inv_frame; [exact HI|reflexivity|]. intros y Hy. cbn [m_mem]. apply elem_words in Hy as (c & Hc & Hyc). destruct (decide (y = a)) as [->|Hne]; [exfalso|rewrite lookup_insert_ne by congruence; reflexivity].
  apply (sep_app (mjoin G) (blocks led) c b a (inv_nodup MEM MAX _ _ _ HI) Hc Hb Hyc Hab).
Qed.
Theorem reach_ok st led : reach MEM MAX st led -> exists G, state_ok st led G.
Proof.
  induction 1 as [|st led n p st' _ [G IH] H0 H8 E|st led a n b st' _ [G IH] Ha E|st led st' _ [G IH] E|st led a x st' _ [G IH] Ho H8 E].
  - eexists. exact init_ok.
  - destruct (alloc_step _ _ _ _ IH H0 H8) as [[E2 _]|(a & d & R & G' & st2 & _ & _ & _ & _ & E2 & A & _)]; rewrite E2 in E; injection E as <- <-; eauto.
  - destruct (dealloc_step _ _ _ _ _ IH Ha) as (G' & st2 & E2 & A & _). rewrite E2 in E. injection E as <- <-. eauto.
  - destruct (merge_step _ _ _ IH) as (G' & st2 & E2 & A & _). rewrite E2 in E. injection E as <-. eauto.
  - destruct (write_step _ _ _ _ x IH Ho H8) as (st2 & E2 & A). rewrite E2 in E. injection E as <-. eauto.
Qed.

(** ** Blocks read off the state *)
Lemma linked_iff st G B i xs a : inv st G B -> G !! i = Some xs -> linked st (Head i) a <-> a ∈ xs.*1.
Proof.
  intros HI Hi. pose proof (inv_links _ _ _ _ _ HI _ _ Hi) as Hl. split.
  - induction 1 as [a E|b a _ IH E].
    + rewrite (head_of _ _ _ _ _ _ _ HI Hi) in E. destruct xs as [|[c n] xs]; [discriminate|]. injection E as <-. left.
    + apply elem_of_list_split in IH as (l1 & l2 & El). rewrite El in Hl. apply links_app in Hl as [_ Hl]. apply links_cons in Hl as [_ Hl]. rewrite El. apply elem_of_app. right. right.
      destruct l2 as [|c l2]; [apply links_nil in Hl; congruence|]. apply links_cons in Hl as [Hl _]. rewrite Hl in E. injection E as <-. left.
  - intros Ha. revert Hl Ha. generalize (Head i). intros l. assert (Hgen : forall ys l', (l' = l \/ exists b, l' = Blk b /\ linked st l b) -> links (next st) l' ys -> forall a, a ∈ ys -> linked st l a); [|intros Hl Ha; eapply Hgen; [left; reflexivity|exact Hl|exact Ha]].
    clear a. induction ys as [|b ys IH]; intros l' Hl' Hl a Ha; [inversion Ha|]. apply links_cons in Hl as [Hb Hl].
    assert (Hlb : linked st l b) by (destruct Hl' as [->|(c & -> & Hc)]; [apply linked_first; exact Hb|eapply linked_next; [exact Hc|exact Hb]]).
    apply elem_of_cons in Ha as [->|Ha]; [exact Hlb|]. eapply IH; [right; exists b; split; [reflexivity|exact Hlb]|exact Hl|exact Ha].
Qed.
Lemma linked_head st l a : linked st l a -> exists b, next st l = Some (Some b).
Proof. induction 1 as [a E|b a _ IH _]; eauto. Qed.
Theorem free_block_iff st G B a n : inv st G B -> free_block MAX st a n <-> (a, n) ∈ mjoin G.
Proof.
  intros HI. destruct (K_val MEM MAX HP) as (HK & HK1 & HKn). split.
  - intros (i & Hl & Hn). assert (Hi : (i < length G)%nat).
    { rewrite (inv_len _ _ _ _ _ HI), <- (inv_heads _ _ _ _ _ HI). destruct (linked_head _ _ _ Hl) as [b Hx]. cbn [next] in Hx. apply lookup_lt_Some in Hx. exact Hx. }
    destruct (lookup_lt_is_Some_2 G i Hi) as [xs Hxs]. apply (linked_iff _ _ _ _ _ _ HI Hxs) in Hl. apply elem_of_list_fmap in Hl as ([a' m] & -> & Hb). cbn [fst] in *. eapply join_in; [exact Hxs|].
    replace n with m; [exact Hb|]. destruct (inv_okb _ _ _ _ _ HI _ _ _ Hxs Hb) as [O1 O2]. cbn [fst snd] in *. rewrite (inv_len _ _ _ _ _ HI) in Hi. destruct (Nat.ltb_spec i (nlists MAX - 1)) as [Hlt|Hge]; [rewrite O1 by exact Hlt; lia|].
    destruct O2 as (_ & _ & O2); [lia|]. congruence.
  - intros Hb. destruct (in_join_list MEM MAX _ _ _ _ HI Hb) as (i & xs & Hi & Hx & Hle). exists i. split; [apply (linked_iff _ _ _ _ _ _ HI Hi), elem_of_list_fmap; exists (a, n); auto|].
    destruct (inv_okb _ _ _ _ _ HI _ _ _ Hi Hx) as [O1 O2]. cbn [fst snd] in *. destruct (Nat.ltb_spec i (nlists MAX - 1)) as [Hlt|Hge]; [apply O1, Hlt|]. apply O2. lia.
Qed.
Lemma disjoint_of st G L1 b L2 c B : inv st G B -> mjoin G ++ B ≡ₚ L1 ++ L2 -> b ∈ L1 -> c ∈ L2 -> disjoint_ranges b.1 b.2 c.1 c.2.
Proof.
  intros HI HL Hb Hc x Hx Hy. destruct b as [a n], c as [c m]. cbn [fst snd] in *. unfold within in *.
  pose proof (block_bounds MEM MAX HP _ _ _ HI a n ltac:(rewrite HL; apply elem_of_app; auto)) as (A1 & A2 & A3 & A4 & A5). pose proof (block_bounds MEM MAX HP _ _ _ HI c m ltac:(rewrite HL; apply elem_of_app; auto)) as (B1 & B2 & B3 & B4 & B5).
  pose proof (inv_nodup MEM MAX _ _ _ HI) as Hnd. rewrite HL in Hnd. destruct (div8 _ A2) as [qa ->], (div8 _ A4) as [qn ->], (div8 _ B2) as [qc ->], (div8 _ B4) as [qm ->].
  assert (Hx8 : 8 * (x / 8) <= x < 8 * (x / 8) + 8) by (pose proof (Z.mod_pos_bound x 8 ltac:(lia)); pose proof (Z.div_mod x 8 ltac:(lia)); lia).
  apply (sep_app L1 L2 (8 * qa, 8 * qn) (8 * qc, 8 * qm) (8 * (x / 8)) Hnd Hb Hc); (apply elem_bw; [exact A4 || exact B4|]); (split; [lia|]); rewrite <- Z.mul_sub_distr_l, Z.mul_comm; apply Z_mod_mult.
Qed.
Lemma byte_iff L : (forall a n, (a, n) ∈ L -> a mod 8 = 0 /\ n mod 8 = 0) -> forall x, (exists a n, (a, n) ∈ L /\ within x a n) <-> 8 * (x / 8) ∈ words L.
Proof.
  intros HL x. assert (Hx8 : 8 * (x / 8) <= x < 8 * (x / 8) + 8) by (pose proof (Z.mod_pos_bound x 8 ltac:(lia)); pose proof (Z.div_mod x 8 ltac:(lia)); lia). rewrite elem_words. split.
  - intros (a & n & Hb & Hx). exists (a, n). split; [exact Hb|]. destruct (HL _ _ Hb) as [H1 H2]. apply elem_bw; [exact H2|]. destruct (div8 _ H1) as [q ->], (div8 _ H2) as [r ->]. unfold within in Hx. split; [lia|]. rewrite <- Z.mul_sub_distr_l, Z.mul_comm. apply Z_mod_mult.
  - intros ([a n] & Hb & Hx). exists a, n. split; [exact Hb|]. destruct (HL _ _ Hb) as [H1 H2]. apply elem_bw in Hx as [Hx _]; [|exact H2]. destruct (div8 _ H1) as [q ->], (div8 _ H2) as [r ->]. unfold within. lia.
Qed.
End Hist.
