(** Allocation, deallocation, the size queries and the dump check. *)
From Coq Require Import Sorted.
From Verif Require Import Base SMAModel SMASpec SMAProofs SMAInv SMAOps.
Open Scope Z_scope.

Section Alloc.
Context (MEM MAX : Z) (HP : params MEM MAX).
Notation K := (nlists MAX - 1)%nat.
Notation blk := (Z * Z)%type.
Notation inv := (inv MEM MAX).

Lemma inv_frame st st' G B : inv st G B -> m_heads st' = m_heads st -> (forall x, x ∈ words (mjoin G) -> m_mem st' !! x = m_mem st !! x) -> inv st' G B.
Proof.
  intros HI Hh Hm. pose proof HI as HI0. destruct HI as [h1 h2 h3 h4 h5 h6 h7]. split; try assumption; [congruence| |].
  - intros i xs Hi. eapply links_ext; [|apply (h3 _ _ Hi)]. intros l' [->|(a & -> & Ha)]; cbn [next]; [rewrite Hh; reflexivity|]. rewrite Hm; [reflexivity|].
    apply elem_of_list_fmap in Ha as ([a' n] & -> & Ha). apply elem_words. exists (a', n). split; [eapply join_in; eassumption|]. apply bw_first. eapply (good_of MEM MAX); [exact HI0|eapply in_list; eassumption].
  - intros i xs [a n] Hi Hb. destruct (h4 _ _ _ Hi Hb) as [O1 O2]. split; [exact O1|]. intros E. destruct (O2 E) as (P1 & P2 & P3). split; [exact P1|]. split; [exact P2|]. rewrite Hm; [exact P3|].
    apply elem_words. exists (a, n). split; [eapply join_in; eassumption|]. apply bw_second; [eapply (good_of MEM MAX); [exact HI0|eapply in_list; eassumption]|exact P1].
Qed.

(** Total number of bytes of some blocks. *)
Definition bytes (L : list blk) : Z := foldr (fun b s => b.2 + s) 0 L.
Lemma bytes_app L L' : bytes (L ++ L') = bytes L + bytes L'.
Proof. induction L as [|b L IH]; [reflexivity|]. cbn. unfold bytes in *. lia. Qed.
Global Instance bytes_perm : Proper ((≡ₚ) ==> eq) bytes.
Proof. intros L L' H. induction H; cbn; unfold bytes in *; try lia. Qed.
Lemma bytes_words L : Forall good L -> bytes L = 8 * Z.of_nat (length (words L)).
Proof. induction 1 as [|b L Hb HL IH]; [reflexivity|]. rewrite words_cons, app_length. cbn. fold (bytes L). pose proof (bw_length _ Hb). lia. Qed.
Lemma inv_bytes st G B : inv st G B -> bytes (mjoin G) + bytes B = MEM.
Proof.
  intros HI. rewrite <- bytes_app, bytes_words by apply (inv_good _ _ _ _ _ HI). rewrite (Permutation_length (inv_words _ _ _ _ _ HI)). destruct HP as (_ & H & H8 & _). apply (bw_length (0, MEM)). split; cbn; [lia|exact H8].
Qed.
Lemma bytes_elem L b : Forall good L -> b ∈ L -> b.2 <= bytes L.
Proof. intros HL Hb. apply elem_of_Permutation in Hb as [L' HE]. rewrite HE in HL. apply Forall_cons in HL as [Hb HL]. rewrite HE. cbn. fold (bytes L'). rewrite (bytes_words _ HL). lia. Qed.

Lemma join_remove (G : list (list blk)) i pre b suf : G !! i = Some (pre ++ b :: suf) -> mjoin G ≡ₚ b :: mjoin (<[i := pre ++ suf]> G).
Proof. intros H. rewrite (join_insert _ _ _ _ H), (join_split _ _ _ H). rewrite <- Permutation_middle. reflexivity. Qed.
Lemma join_add (G : list (list blk)) i pre b suf : G !! i = Some (pre ++ suf) -> mjoin (<[i := pre ++ b :: suf]> G) ≡ₚ b :: mjoin G.
Proof. intros H. rewrite (join_insert _ _ _ _ H), (join_split _ _ _ H). rewrite <- Permutation_middle. reflexivity. Qed.

Lemma head_of st G B i xs : inv st G B -> G !! i = Some xs -> next st (Head i) = Some (head xs.*1).
Proof. intros HI Hi. pose proof (inv_links _ _ _ _ _ HI _ _ Hi) as H. destruct xs as [|[a n] xs]; cbn; [apply links_nil in H; exact H|]. apply links_cons in H as [H _]. exact H. Qed.
Lemma class_size st G B i xs a n : inv st G B -> G !! i = Some xs -> (a, n) ∈ xs -> (i < K)%nat -> n = 8 * (Z.of_nat i + 1).
Proof. intros HI Hi Hb Hlt. apply (proj1 (inv_okb _ _ _ _ _ HI _ _ _ Hi Hb) Hlt). Qed.
Lemma in_join_list st G B b : inv st G B -> b ∈ mjoin G -> exists i xs, G !! i = Some xs /\ b ∈ xs /\ (i <= K)%nat.
Proof.
  intros HI Hb. apply elem_of_list_join in Hb as (xs & Hb & Hx). apply elem_of_list_lookup in Hx as [i Hi]. exists i, xs. split; [exact Hi|]. split; [exact Hb|].
  apply lookup_lt_Some in Hi. rewrite (inv_len _ _ _ _ _ HI) in Hi. lia.
Qed.

(** ** Taking a block *)
Lemma quick_search_ok st G B : inv st G B -> forall fuel i, (K - i <= fuel)%nat -> (i <= K)%nat ->
  exists k, (i <= k <= K)%nat /\ quick_search MAX fuel (Z.of_nat i) st = Ok (Z.of_nat k, st) /\
    (forall j, (i <= j < k)%nat -> G !! j = Some []) /\ ((k < K)%nat -> exists b xs, G !! k = Some (b :: xs)).
Proof.
  intros HI. destruct (K_val MEM MAX HP) as (HK & HK1 & HKn). assert (Hstep : forall i, (i < K)%nat -> exists xs, G !! i = Some xs) by (intros i Hi; apply lookup_lt_is_Some_2; rewrite (inv_len _ _ _ _ _ HI); lia).
  induction fuel as [|fuel IH]; intros i Hf Hi.
  - assert (i = K) as -> by lia. exists K. split; [lia|]. split; [|split; intros; lia]. cbn [quick_search]. rewrite as_unsigned_nonneg by lia. destruct (Z.ltb_spec (Z.of_nat K) (Z.of_nat (nlists MAX) - 1)); [lia|]. reflexivity.
  - cbn [quick_search]. rewrite as_unsigned_nonneg by lia. destruct (Z.ltb_spec (Z.of_nat i) (Z.of_nat (nlists MAX) - 1)) as [Hlt|Hge].
    + destruct (Hstep i) as [xs Hxs]; [lia|]. rewrite (bind_eq _ _ _ _ _ (head_index_ok MAX st (Z.of_nat i) ltac:(lia))). rewrite Nat2Z.id. rewrite (bind_eq _ _ _ _ _ (rd_ok _ _ _ (head_of _ _ _ _ _ HI Hxs))).
      destruct xs as [|b xs]; cbn [fmap list_fmap head].
      * replace (Z.of_nat i + 1) with (Z.of_nat (S i)) by lia. destruct (IH (S i)) as (k & Hk & E & A1 & A2); [lia|lia|]. exists k. split; [lia|]. split; [exact E|]. split; [|exact A2].
        intros j Hj. destruct (decide (j = i)) as [->|]; [exact Hxs|]. apply A1. lia.
      * exists i. split; [lia|]. split; [reflexivity|]. split; [intros; lia|]. intros _. eauto.
    + assert (i = K) as -> by lia. exists K. split; [lia|]. split; [reflexivity|]. split; intros; lia.
Qed.

Lemma pool_search_ok st G B s : inv st G B -> forall suf pre fuel, G !! K = Some (pre ++ suf) -> (length suf <= fuel)%nat ->
  (pool_search fuel s (lastloc (Head K) pre.*1) st = Ok (None, st) /\ forall a d, (a, d) ∈ suf -> d < s) \/
  (exists s1 a d s2, suf = s1 ++ (a, d) :: s2 /\ s <= d /\ pool_search fuel s (lastloc (Head K) pre.*1) st = Ok (Some (lastloc (Head K) (pre ++ s1).*1, a, d), st)).
Proof.
  intros HI. induction suf as [|[a d] suf IH]; intros pre fuel Hi Hf; pose proof (inv_links _ _ _ _ _ HI _ _ Hi) as Hl; rewrite fmap_app in Hl; apply links_app in Hl as [_ Hl].
  - left. apply links_nil in Hl. split; [|intros a d Hin; inversion Hin]. destruct fuel; cbn [pool_search]; rewrite (bind_eq _ _ _ _ _ (rd_ok _ _ _ Hl)); reflexivity.
  - cbn [fmap list_fmap fst] in Hl. apply links_cons in Hl as [Hl _]. assert (Hin : (a, d) ∈ pre ++ (a, d) :: suf) by (apply elem_of_app; right; left).
    destruct (proj2 (inv_okb _ _ _ _ _ HI _ _ _ Hi Hin) eq_refl) as (_ & _ & Hd). cbn [fst snd] in Hd.
    assert (Hrd : rd_data a st = Ok (d, st)) by (unfold rd_data; rewrite Hd; reflexivity).
    destruct fuel as [|fuel]; [simpl in Hf; lia|]. cbn [pool_search]. rewrite (bind_eq _ _ _ _ _ (rd_ok _ _ _ Hl)), (bind_eq _ _ _ _ _ Hrd). destruct (Z.geb_spec d s) as [Hge|Hlt].
    + right. exists [], a, d, suf. split; [reflexivity|]. split; [lia|]. rewrite app_nil_r. reflexivity.
    + destruct (IH (pre ++ [(a, d)]) fuel) as [[E A]|(s1 & a' & d' & s2 & -> & Hs & E)]; [rewrite <- app_assoc; exact Hi|simpl in Hf; lia| |].
      * left. rewrite fmap_app in E. cbn [fmap list_fmap fst] in E. rewrite lastloc_snoc in E. split; [exact E|]. intros a' d' Hx. apply elem_of_cons in Hx as [[= -> ->]|Hx]; [lia|eauto].
      * right. rewrite (fmap_app fst pre) in E. cbn [fmap list_fmap fst] in E. rewrite lastloc_snoc in E. exists ((a, d) :: s1), a', d', s2. split; [reflexivity|]. split; [exact Hs|]. rewrite E, <- app_assoc. reflexivity.
Qed.

Definition taken (st : sma) (G : list (list blk)) (B : list blk) (s : Z) (r : option (Z * Z)) (st' : sma) : Prop :=
  exists a d i pre suf, r = Some (a, d) /\ s <= d /\ G !! i = Some (pre ++ (a, d) :: suf) /\ inv st' (<[i := pre ++ suf]> G) ((a, d) :: B) /\ stable B st st'.
Lemma quick_alloc_ok st G B n : inv st G B -> 0 < n <= MAX -> n + 8 <= INT_MAX ->
  (quick_alloc MEM MAX n st = Ok (None, st) /\ forall a d i xs, (i < K)%nat -> G !! i = Some xs -> (a, d) ∈ xs -> d < rounded n) \/
  (exists r st', quick_alloc MEM MAX n st = Ok (r, st') /\ taken st G B (rounded n) r st').
Proof.
  intros HI Hn Hm. destruct (K_val MEM MAX HP) as (HK & HK1 & HKn). pose proof (rounded_bounds n) as Hr. pose proof (rounded_mod n) as Hr8. destruct (div8 _ Hr8) as [q Hq].
  assert (Hq8 : rounded n / 8 = q) by (rewrite Hq, Z.mul_comm; apply Z.div_mul; lia).
  assert (Hri : rounded n + 8 <= INT_MAX).
  { destruct HP as ((_ & HX) & _). lia. }
  assert (HqK : q - 1 <= Z.of_nat K). { rewrite HK. assert (8 * q < MAX + 8) by lia. assert (q <= MAX / 8 + 1); [|lia]. assert (MAX < 8 * (MAX / 8) + 8) by (pose proof (Z.mod_pos_bound MAX 8 ltac:(lia)); pose proof (Z.div_mod MAX 8 ltac:(lia)); lia). lia. }
  unfold quick_alloc. rewrite round_up_ok by exact Hm. cbn [lift]. rewrite bind_ret. rewrite size_to_index_ok by (try exact Hr8; try exact Hri; lia). cbn [lift]. rewrite bind_ret, Hq8.
  replace (q - 1) with (Z.of_nat (Z.to_nat (q - 1))) by lia. destruct (quick_search_ok _ _ _ HI (nlists MAX) (Z.to_nat (q - 1))) as (k & Hk & E & A1 & A2); [lia|lia|].
  rewrite (bind_eq _ _ _ _ _ E). rewrite as_unsigned_nonneg by lia. destruct (Z.eqb_spec (Z.of_nat k) (Z.of_nat (nlists MAX) - 1)) as [Ek|Nk].
  - left. split; [reflexivity|]. intros a d i xs Hi Hxs Hb. rewrite (class_size _ _ _ _ _ _ _ HI Hxs Hb Hi). destruct (Nat.lt_ge_cases i (Z.to_nat (q - 1))) as [Hlt|Hge]; [lia|].
    rewrite A1 in Hxs by lia. injection Hxs as <-. inversion Hb.
  - right. destruct A2 as ([a d] & xs & Hxs); [lia|]. rewrite (bind_eq _ _ _ _ _ (head_index_ok MAX st (Z.of_nat k) ltac:(lia))). rewrite Nat2Z.id. rewrite (bind_eq _ _ _ _ _ (rd_ok _ _ _ (head_of _ _ _ _ _ HI Hxs))).
    cbn [fmap list_fmap head fst]. assert (Hd : d = 8 * (Z.of_nat k + 1)) by (eapply class_size; [exact HI|exact Hxs|left|lia]).
    destruct (remove_ok MEM MAX HP st G B k [] a d xs HI Hxs) as (nx & Hnx & Hw & HI' & Hst). rewrite (bind_eq _ _ _ _ _ (rd_ok _ _ _ Hnx)). cbn [fmap list_fmap] in *. change (lastloc (Head k) []) with (Head k) in *.
    rewrite (bind_eq _ _ _ _ _ Hw). eexists _, _. split; [reflexivity|]. exists a, d, k, [], xs. unfold index_to_size. replace ((Z.of_nat k + 1) * 8) with d by lia. split; [reflexivity|]. split; [lia|]. auto.
Qed.
Lemma pool_alloc_ok st G B n : inv st G B -> 0 < n -> n + 8 <= INT_MAX ->
  (pool_alloc MEM MAX n st = Ok (None, st) /\ forall a d xs, G !! K = Some xs -> (a, d) ∈ xs -> d < rounded n) \/
  (exists r st', pool_alloc MEM MAX n st = Ok (r, st') /\ taken st G B (rounded n) r st').
Proof.
  intros HI Hn Hm. destruct (K_val MEM MAX HP) as (HK & HK1 & HKn). unfold pool_alloc. rewrite round_up_ok by exact Hm. cbn [lift]. rewrite bind_ret.
  assert (Hh : head_index MAX (-1) st = Ok (K, st)).
  { unfold head_index. rewrite (proj2 (Z.ltb_lt (-1) 0)) by lia. rewrite (proj2 (Z.leb_le 0 _)) by lia. rewrite (proj2 (Z.ltb_lt _ _)) by lia. cbn [andb]. unfold ret. f_equal. f_equal. lia. }
  rewrite (bind_eq _ _ _ _ _ Hh). destruct (lookup_lt_is_Some_2 G K) as [xs Hxs]; [rewrite (inv_len _ _ _ _ _ HI); lia|].
  destruct (pool_search_ok _ _ _ (rounded n) HI xs [] (fuel0 MEM) Hxs) as [[E A]|(s1 & a & d & s2 & -> & Hs & E)]; [pose proof (fuel_ok MEM MAX _ _ _ HI _ _ Hxs); lia| |].
  - left. change (lastloc (Head K) ([].*1)) with (Head K) in E. rewrite (bind_eq _ _ _ _ _ E). split; [reflexivity|]. intros a d xs' E'. rewrite Hxs in E'. injection E' as <-. apply A.
  - right. change (lastloc (Head K) ([].*1)) with (Head K) in E. rewrite (bind_eq _ _ _ _ _ E). cbn [app]. destruct (remove_ok MEM MAX HP st G B K s1 a d s2 HI Hxs) as (nx & Hnx & Hw & HI' & Hst).
    rewrite (bind_eq _ _ _ _ _ (rd_ok _ _ _ Hnx)), (bind_eq _ _ _ _ _ Hw). eexists _, _. split; [reflexivity|]. exists a, d, K, s1, s2. auto.
Qed.

Theorem allocate_ok st G B n : inv st G B -> 0 < n -> n + 8 <= INT_MAX ->
  (allocate MEM MAX n st = Ok (None, st) /\ forall a d, (a, d) ∈ mjoin G -> d < rounded n) \/
  (exists a d R G' st', mjoin G ≡ₚ (a, d) :: R /\ mjoin G' ≡ₚ (if d =? rounded n then [] else [(a + rounded n, d - rounded n)]) ++ R /\ rounded n <= d /\ allocate MEM MAX n st = Ok (Some a, st') /\ inv st' G' ((a, rounded n) :: B) /\
     m_free st' = m_free st - rounded n /\ forall x, x ∈ words B -> m_mem st' !! x = m_mem st !! x).
Proof.
  intros HI Hn Hm. destruct (K_val MEM MAX HP) as (HK & HK1 & HKn). pose proof (rounded_bounds n) as Hr. pose proof (rounded_mod n) as Hr8.
  assert (Htake : ((if n >? MAX then pool_alloc MEM MAX n else t <- quick_alloc MEM MAX n ;; match t with None => pool_alloc MEM MAX n | Some _ => ret t end)%cpp st = Ok (None, st) /\ forall a d, (a, d) ∈ mjoin G -> d < rounded n) \/
    exists r st', (if n >? MAX then pool_alloc MEM MAX n else t <- quick_alloc MEM MAX n ;; match t with None => pool_alloc MEM MAX n | Some _ => ret t end)%cpp st = Ok (r, st') /\ taken st G B (rounded n) r st').
  { destruct (Z.gtb_spec n MAX) as [Hgt|Hle].
    - destruct (pool_alloc_ok _ _ _ n HI Hn Hm) as [[E A]|(r & st' & E & A)]; [left|right; eauto]. split; [exact E|]. intros a d Hb. destruct (in_join_list _ _ _ _ HI Hb) as (i & xs & Hi & Hx & Hle).
      destruct (decide (i = K)) as [->|Hne]; [eapply A; eassumption|]. rewrite (class_size _ _ _ _ _ _ _ HI Hi Hx) by lia. assert (8 * (MAX / 8) <= MAX) by (apply Z.mul_div_le; lia). lia.
    - destruct (quick_alloc_ok _ _ _ n HI) as [[E A]|(r & st' & E & A)]; [lia|exact Hm| |].
      + rewrite (bind_eq _ _ _ _ _ E). destruct (pool_alloc_ok _ _ _ n HI Hn Hm) as [[E2 A2]|(r & st' & E2 & A2)]; [left|right; eauto]. split; [exact E2|]. intros a d Hb. destruct (in_join_list _ _ _ _ HI Hb) as (i & xs & Hi & Hx & Hle').
        destruct (decide (i = K)) as [->|Hne]; [eapply A2; eassumption|]. apply (A a d i xs); [lia|exact Hi|exact Hx].
      + right. rewrite (bind_eq _ _ _ _ _ E). pose proof A as (a & d & i & pre & suf & -> & _). exists (Some (a, d)), st'. split; [reflexivity|exact A]. }
  unfold allocate. destruct Htake as [[E A]|(r & st1 & E & a & d & i & pre & suf & -> & Hd & Hi & HI1 & Hst1)].
  - left. rewrite (bind_eq _ _ _ _ _ E). split; [reflexivity|exact A].
  - right. rewrite (bind_eq _ _ _ _ _ E). rewrite round_up_ok by exact Hm. cbn [lift]. rewrite bind_ret. exists a, d, (mjoin (<[i := pre ++ suf]> G)).
    assert (Hin : mjoin G ≡ₚ (a, d) :: mjoin (<[i := pre ++ suf]> G)) by (apply join_remove; exact Hi).
    destruct (Z.eq_dec d (rounded n)) as [->|Hne].
    + eexists (<[i := pre ++ suf]> G), _. split; [exact Hin|]. split; [rewrite Z.eqb_refl; reflexivity|]. split; [lia|]. unfold insert_block. replace (rounded n - rounded n) with 0 by lia. rewrite (proj2 (Z.leb_le 0 0)) by lia. rewrite bind_ret. split; [reflexivity|].
      split; [eapply inv_frame; [exact HI1|reflexivity|reflexivity]|]. destruct Hst1 as [F1 F2]. cbn [m_free m_mem]. split; [lia|]. exact F2.
    + assert (HI2 : inv st1 (<[i := pre ++ suf]> G) ((a + rounded n, d - rounded n) :: (a, rounded n) :: B)).
      { pose proof (inv_split MEM MAX st1 _ a d (rounded n) B HI1 ltac:(lia) Hr8) as H. eapply inv_bag; [exact H|apply words_perm, perm_swap|]. pose proof (inv_good _ _ _ _ _ H) as Hg. apply Forall_app in Hg as [_ Hg].
        apply Forall_cons in Hg as [g1 Hg]. apply Forall_cons in Hg as [g2 Hg]. repeat (constructor; [assumption|]). exact Hg. }
      destruct (insert_ok MEM MAX HP _ _ _ _ _ HI2) as (p2 & s2 & st2 & Hc & E2 & HI3 & Hst2 & _ & _). rewrite (bind_eq _ _ _ _ _ E2). eexists _, _. split; [exact Hin|]. split; [rewrite (proj2 (Z.eqb_neq _ _) Hne); apply join_add; exact Hc|]. split; [lia|]. split; [reflexivity|].
      split; [eapply inv_frame; [exact HI3|reflexivity|reflexivity]|]. destruct Hst1 as [F1 F2], Hst2 as [F3 F4]. cbn [m_free m_mem]. split; [lia|]. intros x Hx. rewrite F4, F2; [reflexivity|exact Hx|]. rewrite words_cons. apply elem_of_app. auto.
Qed.
Theorem deallocate_ok st G B a n : inv st G ((a, rounded n) :: B) -> 0 < n -> n + 8 <= INT_MAX ->
  exists G' st', deallocate MEM MAX (Some a) n st = Ok (true, st') /\ inv st' G' B /\ mjoin G' ≡ₚ (a, rounded n) :: mjoin G /\
     m_free st' = m_free st + rounded n /\ forall x, x ∈ words B -> m_mem st' !! x = m_mem st !! x.
Proof.
  intros HI Hn Hm. unfold deallocate. rewrite (proj2 (Z.leb_gt n 0)) by lia. rewrite round_up_ok by exact Hm. cbn [lift]. rewrite bind_ret.
  destruct (insert_ok MEM MAX HP _ _ _ _ _ HI) as (pre & suf & st1 & Hi & E & HI1 & [F1 F2] & _ & _). rewrite (bind_eq _ _ _ _ _ E). eexists _, _. split; [reflexivity|].
  split; [eapply inv_frame; [exact HI1|reflexivity|reflexivity]|]. split; [apply join_add; exact Hi|]. cbn [m_free m_mem]. split; [lia|exact F2].
Qed.

(** ** The largest block *)
Definition biggest (mx : Z) (suf : list blk) : Z := foldl (fun m b => if m <? b.2 then b.2 else m) mx suf.
Lemma biggest_spec suf : forall mx, mx <= biggest mx suf /\ (forall b, b ∈ suf -> b.2 <= biggest mx suf) /\ (biggest mx suf = mx \/ exists b, b ∈ suf /\ b.2 = biggest mx suf).
Proof.
  induction suf as [|b suf IH]; intros mx; cbn [biggest foldl]; [split; [unfold biggest; cbn; lia|]; split; [intros b Hb; inversion Hb|left; reflexivity]|].
  fold (biggest (if mx <? b.2 then b.2 else mx) suf). destruct (IH (if mx <? b.2 then b.2 else mx)) as (A1 & A2 & A3). destruct (Z.ltb_spec mx b.2).
  - split; [lia|]. split; [intros c Hc; apply elem_of_cons in Hc as [->|Hc]; [lia|auto]|]. right. destruct A3 as [A3|(c & Hc & Ec)]; [exists b; split; [left|auto]|exists c; split; [right; exact Hc|exact Ec]].
  - split; [lia|]. split; [intros c Hc; apply elem_of_cons in Hc as [->|Hc]; [lia|auto]|]. destruct A3 as [A3|(c & Hc & Ec)]; [left; exact A3|right; exists c; split; [right; exact Hc|exact Ec]].
Qed.
Lemma max_loop_ok st G B : inv st G B -> forall suf pre fuel mx, G !! K = Some (pre ++ suf) -> (length suf <= fuel)%nat ->
  max_loop fuel (lastloc (Head K) pre.*1) mx st = Ok (biggest mx suf, st).
Proof.
  intros HI. induction suf as [|[a d] suf IH]; intros pre fuel mx Hi Hf; pose proof (inv_links _ _ _ _ _ HI _ _ Hi) as Hl; rewrite fmap_app in Hl; apply links_app in Hl as [_ Hl].
  - apply links_nil in Hl. destruct fuel; cbn [max_loop]; rewrite (bind_eq _ _ _ _ _ (rd_ok _ _ _ Hl)); reflexivity.
  - cbn [fmap list_fmap fst] in Hl. apply links_cons in Hl as [Hl _]. assert (Hin : (a, d) ∈ pre ++ (a, d) :: suf) by (apply elem_of_app; right; left).
    destruct (proj2 (inv_okb _ _ _ _ _ HI _ _ _ Hi Hin) eq_refl) as (_ & _ & Hd). cbn [fst snd] in Hd. assert (Hrd : rd_data a st = Ok (d, st)) by (unfold rd_data; rewrite Hd; reflexivity).
    destruct fuel as [|fuel]; [simpl in Hf; lia|]. cbn [max_loop]. rewrite (bind_eq _ _ _ _ _ (rd_ok _ _ _ Hl)), (bind_eq _ _ _ _ _ Hrd). cbv zeta.
    specialize (IH (pre ++ [(a, d)]) fuel (if mx <? d then d else mx)). rewrite <- app_assoc, fmap_app in IH. cbn [fmap list_fmap fst] in IH. rewrite lastloc_snoc in IH. apply IH; [exact Hi|simpl in Hf; lia].
Qed.
Lemma down_search_ok st G B : inv st G B -> forall i, (i <= K)%nat ->
  (down_search i st = Ok (-1, st) /\ forall j xs, (j < i)%nat -> G !! j = Some xs -> xs = []) \/
  (exists k b xs, (k < i)%nat /\ down_search i st = Ok (Z.of_nat k, st) /\ G !! k = Some (b :: xs) /\ forall j ys, (k < j < i)%nat -> G !! j = Some ys -> ys = []).
Proof.
  intros HI. destruct (K_val MEM MAX HP) as (HK & HK1 & HKn). induction i as [|i IH]; intros Hi; [left; split; [reflexivity|intros; lia]|]. cbn [down_search].
  destruct (lookup_lt_is_Some_2 G i) as [xs Hxs]; [rewrite (inv_len _ _ _ _ _ HI); lia|]. rewrite (bind_eq _ _ _ _ _ (rd_ok _ _ _ (head_of _ _ _ _ _ HI Hxs))). destruct xs as [|b xs]; cbn [fmap list_fmap head].
  - destruct IH as [[E A]|(k & b & xs & Hk & E & Hb & A)]; [lia| |].
    + left. split; [exact E|]. intros j ys Hj Hys. destruct (decide (j = i)) as [->|]; [congruence|]. eapply A; [|exact Hys]. lia.
    + right. exists k, b, xs. split; [lia|]. split; [exact E|]. split; [exact Hb|]. intros j ys Hj Hys. destruct (decide (j = i)) as [->|]; [congruence|]. eapply A; [|exact Hys]. lia.
  - right. exists i, b, xs. split; [lia|]. split; [reflexivity|]. split; [exact Hxs|]. intros; lia.
Qed.
Theorem max_ok st G B : inv st G B -> exists mx, max_free_mblock_size MEM MAX st = Ok (mx, st) /\
  (forall a n, (a, n) ∈ mjoin G -> n <= mx) /\ ((mx = 0 /\ mjoin G = []) \/ exists a, (a, mx) ∈ mjoin G).
Proof.
  intros HI. destruct (K_val MEM MAX HP) as (HK & HK1 & HKn). destruct (lookup_lt_is_Some_2 G K) as [xs Hxs]; [rewrite (inv_len _ _ _ _ _ HI); lia|].
  unfold max_free_mblock_size. pose proof (max_loop_ok _ _ _ HI xs [] (fuel0 MEM) 0 Hxs) as E. change (lastloc (Head K) ([].*1)) with (Head K) in E. rewrite (bind_eq _ _ _ _ _ (E ltac:(pose proof (fuel_ok MEM MAX _ _ _ HI _ _ Hxs); lia))). clear E.
  destruct (biggest_spec xs 0) as (A1 & A2 & A3). destruct (Z.gtb_spec (biggest 0 xs) 0) as [Hgt|Hle].
  - exists (biggest 0 xs). split; [reflexivity|]. destruct A3 as [A3|([a m] & Hb & Eb)]; [lia|]. cbn [snd] in Eb. subst m. assert (Hbj : (a, biggest 0 xs) ∈ mjoin G) by (eapply join_in; eassumption). split; [|right; eauto].
    intros c n Hc. destruct (in_join_list _ _ _ _ HI Hc) as (i & ys & Hi & Hy & Hi2). destruct (decide (i = K)) as [->|Hne]; [rewrite Hxs in Hi; injection Hi as <-; apply (A2 _ Hy)|].
    destruct (proj2 (inv_okb _ _ _ _ _ HI _ _ _ Hxs Hb) eq_refl) as (_ & P & _). cbn [snd] in P. rewrite (class_size _ _ _ _ _ _ _ HI Hi Hy) by lia. destruct P as [P|P]; [lia|]. rewrite P.
    rewrite <- (class_size _ _ _ _ _ _ _ HI Hi Hy) by lia. pose proof (block_bounds MEM MAX HP _ _ _ HI c n ltac:(apply elem_of_app; auto)). lia.
  - assert (Hnil : xs = []).
    { destruct xs as [|[a m] xs]; [reflexivity|exfalso]. assert (Hin : (a, m) ∈ (a, m) :: xs) by left. pose proof (A2 _ Hin) as H. pose proof (good_of MEM MAX _ _ _ HI _ (in_list G B _ _ _ Hxs Hin)) as [Hg _]. cbn [snd] in *. lia. }
    subst xs. destruct (down_search_ok _ _ _ HI K) as [[E A]|(k & [a m] & ys & Hk & E & Hb & A)]; [lia| |]; rewrite (bind_eq _ _ _ _ _ E).
    + exists 0. split; [reflexivity|]. assert (Hno : forall b, b ∉ mjoin G).
      { intros b Hb. destruct (in_join_list _ _ _ _ HI Hb) as (i & ys & Hi & Hy & Hi2). destruct (decide (i = K)) as [->|Hne]; [rewrite Hxs in Hi; injection Hi as <-; inversion Hy|]. rewrite (A i ys) in Hy by (try exact Hi; lia). inversion Hy. }
      split; [intros b n Hb; destruct (Hno _ Hb)|]. left. split; [reflexivity|]. destruct (mjoin G) as [|b l]; [reflexivity|]. destruct (Hno b). left.
    + exists (index_to_size (Z.of_nat k)). split; [reflexivity|]. assert (Hm : m = index_to_size (Z.of_nat k)) by (rewrite (class_size _ _ _ _ _ _ _ HI Hb (elem_of_list_here _ _)) by lia; unfold index_to_size; lia).
      split; [|right; exists a; rewrite <- Hm; eapply join_in; [exact Hb|left]]. intros c n Hc. destruct (in_join_list _ _ _ _ HI Hc) as (i & zs & Hi & Hz & Hi2).
      destruct (decide (i = K)) as [->|Hne]; [rewrite Hxs in Hi; injection Hi as <-; inversion Hz|]. destruct (Nat.lt_ge_cases k i) as [Hlt|Hge]; [rewrite (A i zs) in Hz by (try exact Hi; lia); inversion Hz|].
      rewrite (class_size _ _ _ _ _ _ _ HI Hi Hz) by lia. unfold index_to_size. lia.
Qed.

(** ** The dump check *)
Lemma dump_list_ok st G B i : inv st G B -> (i <= K)%nat -> forall suf pre fuel sum, G !! i = Some (pre ++ suf) -> (length suf <= fuel)%nat ->
  dump_list MAX fuel i (lastloc (Head i) pre.*1) sum st = Ok (sum + bytes suf, st).
Proof.
  intros HI HiK. induction suf as [|[a d] suf IH]; intros pre fuel sum Hi Hf; pose proof (inv_links _ _ _ _ _ HI _ _ Hi) as Hl; rewrite fmap_app in Hl; apply links_app in Hl as [_ Hl].
  - apply links_nil in Hl. replace (sum + bytes []) with sum by (cbn; lia). destruct fuel; cbn [dump_list]; rewrite (bind_eq _ _ _ _ _ (rd_ok _ _ _ Hl)); reflexivity.
  - cbn [fmap list_fmap fst] in Hl. apply links_cons in Hl as [Hl _]. assert (Hin : (a, d) ∈ pre ++ (a, d) :: suf) by (apply elem_of_app; right; left).
    destruct fuel as [|fuel]; [simpl in Hf; lia|]. cbn [dump_list]. rewrite (bind_eq _ _ _ _ _ (rd_ok _ _ _ Hl)).
    assert (Hd : (if (i =? K)%nat then rd_data a else ret (index_to_size (Z.of_nat i))) st = Ok (d, st)).
    { destruct (Nat.eqb_spec i K) as [->|Hne]; [destruct (proj2 (inv_okb _ _ _ _ _ HI _ _ _ Hi Hin) eq_refl) as (_ & _ & Hd); unfold rd_data; cbn [fst snd] in Hd; rewrite Hd; reflexivity|].
      rewrite (class_size _ _ _ _ _ _ _ HI Hi Hin) by lia. unfold ret, index_to_size. f_equal. f_equal. lia. }
    rewrite (bind_eq _ _ _ _ _ Hd). specialize (IH (pre ++ [(a, d)]) fuel (sum + d)). rewrite <- app_assoc, fmap_app in IH. cbn [fmap list_fmap fst] in IH. rewrite lastloc_snoc in IH. rewrite IH; [|exact Hi|simpl in Hf; lia].
    f_equal. f_equal. cbn. fold (bytes suf). lia.
Qed.
Lemma dump_lists_ok st G B : inv st G B -> forall c i sum, (i + c = nlists MAX)%nat -> dump_lists MEM MAX c i sum st = Ok (sum + bytes (mjoin (drop i G)), st).
Proof.
  intros HI. induction c as [|c IH]; intros i sum Hc; cbn [dump_lists].
  - rewrite drop_ge by (rewrite (inv_len _ _ _ _ _ HI); lia). unfold ret. f_equal. f_equal. cbn. lia.
  - destruct (lookup_lt_is_Some_2 G i) as [xs Hxs]; [rewrite (inv_len _ _ _ _ _ HI); lia|]. pose proof (dump_list_ok _ _ _ i HI ltac:(lia) xs [] (fuel0 MEM) sum Hxs) as E. change (lastloc (Head i) ([].*1)) with (Head i) in E.
    rewrite (bind_eq _ _ _ _ _ (E ltac:(pose proof (fuel_ok MEM MAX _ _ _ HI _ _ Hxs); lia))). rewrite IH by lia. rewrite (drop_S G xs i Hxs). change (mjoin (xs :: drop (S i) G)) with (xs ++ mjoin (drop (S i) G)). rewrite bytes_app. f_equal. f_equal. lia.
Qed.
Theorem dump_ok st G B : inv st G B -> m_free st = bytes (mjoin G) -> dump MEM MAX st = Ok (tt, st).
Proof.
  intros HI Hf. unfold dump. rewrite (bind_eq _ _ _ _ _ (dump_lists_ok _ _ _ HI (nlists MAX) 0 0 eq_refl)). unfold free_mem_size. unfold bind at 1. rewrite drop_0, Z.add_0_l, Hf, Z.eqb_refl. reflexivity.
Qed.
Theorem dump_bad st G B : inv st G B -> m_free st <> bytes (mjoin G) -> dump MEM MAX st = Abort.
Proof.
  intros HI Hf. unfold dump. rewrite (bind_eq _ _ _ _ _ (dump_lists_ok _ _ _ HI (nlists MAX) 0 0 eq_refl)). unfold free_mem_size. unfold bind at 1. rewrite drop_0, Z.add_0_l. rewrite (proj2 (Z.eqb_neq _ _) Hf). reflexivity.
Qed.
End Alloc.
